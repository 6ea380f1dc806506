(** Model of src/component/math-editor.ts: the custom element, its event handlers and what it
    shows. *)
From Coq Require Import String.
From Verif Require Import Base Str Grid Node Focus Edit Caret Autocomplete Editor NameMap Syntax SyntaxFind Render Layout FromMathML.
Open Scope list_scope.
Open Scope nat_scope.
Set Implicit Arguments.

(** * Events *)
(** math-editor.ts:144-159: the keys that are looked at *)
Inductive Key := KeyUp | KeyDown | KeyLeft | KeyRight | KeyUndo | KeyRedo | KeyOther.
(** math-editor.ts:163-179: [inputType] and [data] of an event *)
Inductive InputType := DeleteBackward | DeleteForward | InsertText (data : option str) | OtherInput.
(** A point in the window, given by what is measured from there: the distance to the bounds of an
    element and to a caret position. math-editor.ts:224-231 *)
Record Point := mkPoint { to_bounds : list nat -> nat; to_place : Place -> nat }.
(** math-editor.ts:143-335. Pointer events have [isPrimary], mouse events [detail]. The clipboard
    is [None] if [clipboardData] is null, otherwise what [getData] returns for JSON and for plain
    text. An attribute is given by the first element in the template that is made of it, [None] if
    there is none or if it is not a [MathMLElement]. *)
Inductive Event :=
| EvKey (k : Key)                                  (* math-editor.ts:144-159 *)
| EvBeforeInput (t : InputType)                    (* math-editor.ts:161-180 *)
| EvTimer                                          (* math-editor.ts:33-35 *)
| EvCopy (clipboard : bool)                        (* math-editor.ts:182-193 *)
| EvCut (clipboard : bool)                         (* math-editor.ts:195-204 *)
| EvPaste (clipboard : option (str * str))         (* math-editor.ts:206-220 *)
| EvPointerDown (primary : bool) (at_ : Point)     (* math-editor.ts:235-244 *)
| EvPointerUp (primary : bool) (at_ : Point)       (* math-editor.ts:245-267; also pointercancel *)
| EvMouseDown (detail : nat) (at_ : Point)         (* math-editor.ts:271-287 *)
| EvPointerMove (primary : bool) (at_ : Point)     (* math-editor.ts:288-296 *)
| EvConnect (mathml : option Xml)                  (* math-editor.ts:299-302 *)
| EvDisconnect                                     (* math-editor.ts:304-306 *)
| EvAttribute (mathml : option Xml).               (* math-editor.ts:308-331 *)

(** math-editor.ts:365-428: what is drawn of a caret: nothing yet, the ends of a selection and the
    elements that give it its height, or the first and the last cell *)
Inductive DrawnCaret :=
| CaretUnset
| CaretRow (start end_ : Place) (elements : list (list nat))
| CaretGrid (first last : RowIndices).

Section Component.
Notation Editor := (MathEditor SyntaxNode).
(** The editor's surroundings, and the renderers made by [MathMLRenderer]. *)
Variable env : Env SyntaxNode.
Variable renderers : Renderers.
(** Unicode in the browser, as in FromMathML.v *)
Variable normalize : str -> str.
Variable segment : str -> list str.

(** math-editor.ts:47-57, [isPointerDown] in 233 and the JSON that it has last put on the clipboard in 183. Of [mathEditor] there is nothing left after a
    panic: wasm-bindgen still counts it as borrowed, so every later call throws. (A panic in
    [get_caret] leaves a shared borrow; calling [get_caret] again panics again, and all other
    calls that the component makes and that do not only log need exclusive access.) *)
Record Component := mkComponent {
  co_editor : option Editor;
  co_tree : SyntaxNode;
  co_result : Element;
  co_drawn : list Dom;
  co_carets : list DrawnCaret;
  co_pointer_down : bool;
  co_tasks : list InputType;
  co_connected : bool;
  co_clipboard : option str }.

(** Handlers change the component and may throw; what was changed before stays. Model only. *)
Definition Handler (A : Type) := Component -> Component * Res A.
(** Model only *)
Definition ret {A} (a : A) : Handler A := fun c => (c, Ok a).
(** Model only *)
Definition handle {A B} (h : Handler A) (f : A -> Handler B) : Handler B :=
  fun c => match h c with
           | (c, Ok a) => f a c
           | (c, Panic k) => (c, Panic k)
           end.
(** Model only *)
Definition lift {A} (r : Res A) : Handler A := fun c => (c, r).
(** Model only *)
Definition modify (f : Component -> Component) : Handler unit := fun c => (f c, Ok tt).
(** Model only *)
Definition get : Handler Component := fun c => (c, Ok c).
Notation "x <! h ;; h2" := (handle h (fun x => h2)) (at level 61, h at next level, right associativity).

(** Model only: assignment to a field *)
Definition set_editor (e : option Editor) (c : Component) := mkComponent e (co_tree c) (co_result c) (co_drawn c) (co_carets c) (co_pointer_down c) (co_tasks c) (co_connected c) (co_clipboard c).
(** Model only: assignment to a field *)
Definition set_tree (t : SyntaxNode) (c : Component) := mkComponent (co_editor c) t (co_result c) (co_drawn c) (co_carets c) (co_pointer_down c) (co_tasks c) (co_connected c) (co_clipboard c).
(** Model only: assignment to a field *)
Definition set_result (x : Element) (c : Component) := mkComponent (co_editor c) (co_tree c) x (co_drawn c) (co_carets c) (co_pointer_down c) (co_tasks c) (co_connected c) (co_clipboard c).
(** Model only: assignment to a field *)
Definition set_drawn (l : list Dom) (c : Component) := mkComponent (co_editor c) (co_tree c) (co_result c) l (co_carets c) (co_pointer_down c) (co_tasks c) (co_connected c) (co_clipboard c).
(** Model only: assignment to a field *)
Definition set_carets (l : list DrawnCaret) (c : Component) := mkComponent (co_editor c) (co_tree c) (co_result c) (co_drawn c) l (co_pointer_down c) (co_tasks c) (co_connected c) (co_clipboard c).
(** Model only: assignment to a field *)
Definition set_pointer_down (b : bool) (c : Component) := mkComponent (co_editor c) (co_tree c) (co_result c) (co_drawn c) (co_carets c) b (co_tasks c) (co_connected c) (co_clipboard c).
(** Model only: assignment to a field *)
Definition set_tasks (l : list InputType) (c : Component) := mkComponent (co_editor c) (co_tree c) (co_result c) (co_drawn c) (co_carets c) (co_pointer_down c) l (co_connected c) (co_clipboard c).
(** Model only: assignment to a field *)
Definition set_connected (b : bool) (c : Component) := mkComponent (co_editor c) (co_tree c) (co_result c) (co_drawn c) (co_carets c) (co_pointer_down c) (co_tasks c) b (co_clipboard c).

(** Model only: assignment to a field *)
Definition set_clipboard (s : option str) (c : Component) := mkComponent (co_editor c) (co_tree c) (co_result c) (co_drawn c) (co_carets c) (co_pointer_down c) (co_tasks c) (co_connected c) s.

(** web/src/math_editor.rs:23-140: a call of an operation *)
Definition call (op : Op) : Handler (Out SyntaxNode) := fun c =>
  match co_editor c with
  | None => (c, throw)
  | Some ed =>
      match step env ed op with
      | Ok (ed, out) => (set_editor (Some ed) c, Ok out)
      | Panic k => (set_editor None c, Panic k)
      end
  end.
(** web/src/math_editor.rs:89-97: an error of [paste] is thrown *)
Definition call_paste (text : str) : Handler unit :=
  out <! call (OpPaste text true) ;;
  match out with OutNo _ => lift throw | _ => ret tt end.
(** web/src/math_editor.rs:85-87 and math-editor.ts:182-184 *)
Definition handle_copy : Handler unit :=
  out <! call OpCopy ;;
  match out with OutText _ s => modify (set_clipboard (Some s)) | _ => lift throw end.
(** web/src/math_editor.rs:117-120 *)
Definition call_get_caret : Handler MinimalCaretSelection :=
  out <! call OpGetCaret ;;
  match out with OutCaret _ c => ret c | _ => lift throw end.
(** web/src/math_editor.rs:126-129 *)
Definition call_get_syntax_tree : Handler SyntaxNode :=
  out <! call OpGetSyntaxTree ;;
  match out with OutTree t => ret t | _ => lift throw end.

(** math-editor.ts:372-427: one caret *)
Definition draw_caret (x : Element) (sel : MinimalCaretSelection) : Res DrawnCaret :=
  match sel with
  | MSelRow m =>
      ' (a, b, l) <- get_viewport_selection x (mr_row m) (mr_start m) (mr_end m) ;;
      _ <- get_element x (mr_row m) ;;
      Ok (CaretRow a b l)
  | MSelGrid m =>
      let first := mg_row m ++ [(mg_index m, rstart (mg_range m))] in
      let last := mg_row m ++ [(mg_index m, Nat.max (rend (mg_range m) - 1) (rstart (mg_range m)))] in
      _ <- get_element x first ;;
      _ <- get_element x last ;;
      Ok (CaretGrid first last)
  end.
(** math-editor.ts:365-428. There is exactly one caret, math_editor.rs:350-353. *)
Definition render_carets : Handler unit :=
  c <! get ;;
  if negb (co_connected c) then ret tt
  else
    sel <! call_get_caret ;;
    _ <! modify (set_carets []) ;;
    _ <! modify (set_carets [CaretUnset]) ;;
    c <! get ;;
    d <! lift (draw_caret (co_result c) sel) ;;
    modify (set_carets [d]).
(** [element instanceof MathMLElement], math-editor.ts:351-353 *)
Definition is_mathml (d : Dom) : bool := match d with DomElement _ _ _ => true | DomText _ => false end.
(** math-editor.ts:340-363 *)
Definition update_input : Handler unit :=
  t <! call_get_syntax_tree ;;
  _ <! modify (set_tree t) ;;
  x <! lift (render_all renderers t) ;;
  _ <! modify (set_result x) ;;
  row <! lift (get_element x []) ;;
  _ <! lift (assert_ (forallb is_mathml (get_elements row))) ;;
  _ <! modify (set_drawn (get_elements row)) ;;
  _ <! render_carets ;;
  render_carets.

(** math-editor.ts:144-159 *)
Definition on_key (k : Key) : Handler unit :=
  _ <! (match k with
   | KeyUp => _ <! call (OpMoveCaret DUp MChar) ;; ret tt
   | KeyDown => _ <! call (OpMoveCaret DDown MChar) ;; ret tt
   | KeyLeft => _ <! call (OpMoveCaret DLeft MChar) ;; ret tt
   | KeyRight => _ <! call (OpMoveCaret DRight MChar) ;; ret tt
   | KeyUndo => _ <! call OpUndo ;; ret tt
   | KeyRedo => _ <! call OpRedo ;; ret tt
   | KeyOther => ret tt
   end) ;;
  update_input.
(** math-editor.ts:163-179: a task *)
Definition do_task (t : InputType) : Handler unit :=
  match t with
  | DeleteBackward => _ <! call (OpRemoveAtCaret RemoveLeft) ;; update_input
  | DeleteForward => _ <! call (OpRemoveAtCaret RemoveRight) ;; update_input
  | InsertText None => ret tt
  | InsertText (Some data) => _ <! call (OpInsertAtCaret (segment data)) ;; update_input
  | OtherInput => ret tt
  end.
(** math-editor.ts:38-43; tasks do not add tasks *)
Fixpoint run_tasks (l : list InputType) : Handler unit :=
  match l with
  | [] => ret tt
  | t :: l => _ <! modify (set_tasks l) ;; _ <! do_task t ;; run_tasks l
  end.
(** math-editor.ts:224-231 *)
Definition pointer_position (p : Point) : Handler MinPos :=
  c <! get ;;
  pos <! lift (get_layout_position (to_bounds p) (to_place p) (co_result c)) ;;
  ret (mkMinPos (fst pos) (snd pos)).
(** math-editor.ts:308-331. [<math>] without anything in it stands for an attribute that is missing
    or empty. *)
Definition set_mathml (mathml : option Xml) : Handler unit :=
  match mathml with
  | None => lift throw
  | Some x =>
      parsed <! lift (from_element normalize segment x) ;;
      c <! get ;;
      let range := syn_range (co_tree c) in
      _ <! call (OpSpliceAtRange (mkMinRange [] (fst range) (snd range)) (fst parsed)) ;;
      update_input
  end.
(** math-editor.ts:143-335 *)
Definition dispatch (e : Event) : Handler unit :=
  match e with
  | EvKey k => on_key k
  | EvBeforeInput t => c <! get ;; modify (set_tasks (co_tasks c ++ [t]))
  | EvTimer => c <! get ;; run_tasks (co_tasks c)
  | EvCopy clipboard => if clipboard then handle_copy else ret tt
  | EvCut clipboard =>
      if clipboard then _ <! handle_copy ;; _ <! call (OpRemoveAtCaret RemoveRange) ;; update_input else ret tt
  | EvPaste None => ret tt
  | EvPaste (Some (json, text)) =>
      _ <! call_paste match json with [] => text | _ => json end ;; update_input
  | EvPointerDown primary p =>
      if primary then
        pos <! pointer_position p ;;
        _ <! modify (set_pointer_down true) ;;
        _ <! call (OpStartSelection pos MChar) ;;
        update_input
      else ret tt
  | EvPointerUp primary p =>
      if primary then
        _ <! modify (set_pointer_down false) ;;
        pos <! pointer_position p ;;
        _ <! call (OpExtendSelection pos) ;;
        _ <! call OpFinishSelection ;;
        render_carets
      else ret tt
  | EvMouseDown detail p =>
      c <! get ;;
      if co_pointer_down c then
        pos <! pointer_position p ;;
        if detail =? 2 then _ <! call (OpStartSelection pos MWord) ;; render_carets
        else if detail =? 3 then _ <! call (OpStartSelection pos MLine) ;; render_carets
        else ret tt
      else ret tt
  | EvPointerMove primary p =>
      c <! get ;;
      if primary && co_pointer_down c then
        pos <! pointer_position p ;;
        _ <! call (OpExtendSelection pos) ;;
        render_carets
      else ret tt
  | EvConnect x => _ <! modify (set_connected true) ;; set_mathml x
  | EvDisconnect => modify (set_connected false)
  | EvAttribute x => set_mathml x
  end.
(** What is thrown in a handler is reported by the browser, and nothing else. *)
Fixpoint run_events (c : Component) (l : list Event) : Component :=
  match l with
  | [] => c
  | e :: l => run_events (fst (dispatch e c)) l
  end.

(** math-editor.ts:59-141. An element in a page that is being loaded is connected before it is made
    to be an editor, one made with [document.createElement] is not. *)
Definition component_new (connected : bool) : Res Component :=
  ' (ed, t) <- get_syntax_tree env (@editor_new SyntaxNode) ;;
  x <- render_all renderers t ;;
  match update_input (mkComponent (Some ed) t x [] [] false [] connected None) with
  | (c, Ok _) => Ok c
  | (_, Panic k) => Panic k
  end.
End Component.
