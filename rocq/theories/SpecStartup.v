(** What a page looks like after the editor has been loaded. *)
From Coq Require Import String.
From Verif Require Import Base Str Grid Node Focus Edit Caret Editor Syntax Render FromMathML Spec SpecEditor Component SpecComponent Startup.
Open Scope list_scope.
Open Scope nat_scope.

(** The identities of the elements of a page *)
Fixpoint identities (n : PageNode) : list nat :=
  match n with
  | PageElement id _ _ nodes => id :: flat_map identities nodes
  | _ => []
  end.
(** The page with every marked formula replaced by an editor, for which [good] holds of its formula and of the editor,
    and everything else as it was. Nothing is looked for in a formula that is replaced. *)
Inductive editable (good : Xml -> Component -> Prop) : PageNode -> PageNode -> Prop :=
| editable_text t : editable good (PageText t) (PageText t)
| editable_editor c : editable good (PageEditor c) (PageEditor c)
| editable_formula id nodes c : good (outer_html (PageElement id (lit "math") true nodes)) c ->
    editable good (PageElement id (lit "math") true nodes) (PageEditor (Some c))
| editable_element id name marked nodes nodes' : ~ (name = lit "math" /\ marked = true) -> Forall2 (editable good) nodes nodes' ->
    editable good (PageElement id name marked nodes) (PageElement id name marked nodes').

Section Good.
Variable env : Env SyntaxNode.
Variable renderers : Renderers.
Variable normalize : str -> str.
Variable segment : str -> list str.
(** The editor of a formula *)
Definition edits (math : Xml) (c : Component) : Prop :=
  co_connected c = true /\ co_tasks c = [] /\
  match from_element normalize segment math with
  | Ok (root, _) => wf_row root ->
      let undone n := run_events env renderers normalize segment c (repeat (EvKey KeyUndo) n) in
      document c = Some root /\ option_map (@ed_caret SyntaxNode) (co_editor c) = Some default_caret /\
      ((exists t x, env_parse env root = Ok t /\ render_all renderers t = Ok x) -> up_to_date env renderers c) /\
      document (undone 1) = Some root /\ forall n, document (undone (S (S n))) = Some []
  | Panic _ => document c = Some [] /\ shows env renderers c [] /\ co_carets c = []
  end.
End Good.

(** The position is one of the root row, not further to the right than its end. *)
Definition in_root (root : InputRow) (m : MinPos) : Prop := mp_row m = [] /\ mp_offset m <= List.length root.
Definition caret_in_root (root : InputRow) (mc : MinimalCaret) : Prop := in_root root (mc_start mc) /\ in_root root (mc_end mc).
