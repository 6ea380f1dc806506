(** What remains of what was typed (C103). *)
From Verif Require Import Base Str Node Caret Editor.

(** The text after typing and Backspace, from a text that was typed before; [None] if more than that was deleted, or something
    else was done. *)
Fixpoint net (text : list str) (ops : list Op) : option (list str) :=
  match ops with
  | [] => Some text
  | OpInsertAtCaret vs :: ops => net (text ++ vs) ops
  | OpRemoveAtCaret RemoveLeft :: ops => match text with [] => None | _ => net (removelast text) ops end
  | _ => None
  end.
Definition all_typed (ops : list Op) : list str := flat_map (fun op => match op with OpInsertAtCaret vs => vs | _ => [] end) ops.
