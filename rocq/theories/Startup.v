(** Model of src/main.ts: what happens to the formulas of a page when the editor is loaded. *)
From Coq Require Import String.
From Verif Require Import Base Str Grid Node Autocomplete Editor Syntax Render FromMathML Component.
Open Scope list_scope.
Open Scope nat_scope.

(** The nodes of a page, main.ts:12-16. Elements have an identity; of their attributes only [data-editor] matters. An editor is
    [None] if its constructor has thrown: then the browser makes an unknown element. Comments and attributes are left out. *)
Inductive PageNode :=
| PageElement (id : nat) (name : str) (marked : bool) (nodes : list PageNode)
| PageText (text : str)
| PageEditor (editor : option Component).

Section Startup.
Variable env : Env SyntaxNode.
Variable renderers : Renderers.
Variable normalize : str -> str.
Variable segment : str -> list str.

(** [outerHTML], main.ts:14, and what [htmlToElement] makes of it, src/utils/dom-utils.ts:1-5. Simplification: writing
    and parsing HTML gives the same elements again. *)
Fixpoint outer_html (n : PageNode) : Xml :=
  match n with
  | PageElement _ name _ nodes => XmlElement name (map outer_html nodes)
  | PageText t => XmlText t
  | PageEditor _ => XmlElement (lit "math-editor") []
  end.
(** The selector [math[data-editor]], main.ts:12 *)
Definition selects (name : str) (marked : bool) : bool := tag_is name ["math"%string] && marked.
(** [querySelectorAll], main.ts:12: a list in the order of the page that does not change any more *)
Fixpoint query (n : PageNode) : list nat :=
  match n with
  | PageElement id name marked nodes => (if selects name marked then [id] else []) ++ flat_map query nodes
  | _ => []
  end.
(** main.ts:12: in the whole page *)
Definition query_all (page : list PageNode) : list nat := flat_map query page.
(** Model only: the element with this identity *)
Fixpoint find_node (id : nat) (n : PageNode) : option PageNode :=
  match n with
  | PageElement i _ _ nodes =>
      if i =? id then Some n else fold_right (fun n found => match find_node id n with Some x => Some x | None => found end) None nodes
  | _ => None
  end.
(** Model only *)
Definition find_in (id : nat) (page : list PageNode) : option PageNode :=
  fold_right (fun n found => match find_node id n with Some x => Some x | None => found end) None page.
(** [replaceWith], main.ts:15 *)
Fixpoint replace_with (id : nat) (new : PageNode) (n : PageNode) : PageNode :=
  match n with
  | PageElement i name marked nodes => if i =? id then new else PageElement i name marked (map (replace_with id new) nodes)
  | _ => n
  end.
(** main.ts:13-15: [createElement] calls the constructor, [setAttribute] calls [attributeChangedCallback] and putting
    the editor into the page calls [connectedCallback]. What these throw is reported by the browser, and nothing else. *)
Definition make_editor (math : Xml) : PageNode :=
  PageEditor match component_new env renderers false with
    | Ok c => Some (run_events env renderers normalize segment c [EvAttribute (Some math); EvConnect (Some math)])
    | Panic _ => None
    end.
(** main.ts:12-16, one element. An element in a formula that was replaced is no longer in the page; it is replaced where
    nobody sees it, which is left out. *)
Definition replace_formula (page : list PageNode) (id : nat) : list PageNode :=
  match find_in id page with
  | Some el => map (replace_with id (make_editor (outer_html el))) page
  | None => page
  end.
(** main.ts:12-16 *)
Definition start_up (page : list PageNode) : list PageNode := fold_left replace_formula (query_all page) page.
End Startup.
