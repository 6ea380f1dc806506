(** Specifications about edits used in theorem statements. *)
From Verif Require Import Base Str Grid Node Focus Edit Spec.

(** Edit lists made step by step, each step by one of the three constructors of
    [BasicEdit] against the document as it is then. *)
Inductive made_edits (cfg : Cfg) : InputRow -> list BasicEdit -> InputRow -> Prop :=
| made_nothing doc : made_edits cfg doc [] doc
| made_remove doc m r es p doc1 es' doc2 :
    rg_from_minimal (from_root doc) m = Ok r -> remove_range r = Ok (es, p) ->
    tree_apply_edits cfg doc es = Ok doc1 -> made_edits cfg doc1 es' doc2 ->
    made_edits cfg doc (es ++ es') doc2
| made_insert doc m p vs doc1 es' doc2 :
    pos_from_minimal (from_root doc) m = Ok p ->
    tree_apply_edits cfg doc (fst (insert_at_position p vs)) = Ok doc1 -> made_edits cfg doc1 es' doc2 ->
    made_edits cfg doc (fst (insert_at_position p vs) ++ es') doc2
| made_replace doc m r vs es mr doc1 es' doc2 :
    rg_from_minimal (from_root doc) m = Ok r -> replace_range r vs = Ok (es, mr) ->
    tree_apply_edits cfg doc es = Ok doc1 -> made_edits cfg doc1 es' doc2 ->
    made_edits cfg doc (es ++ es') doc2.

(** The part of [q] behind its beginning [p]. *)
Fixpoint strip (p q : RowIndices) : option RowIndices :=
  match p, q with
  | [], q => Some q
  | x :: p, y :: q => if rowindex_eqb x y then strip p q else None
  | _ :: _, [] => None
  end.

(** Where node number [i] of the edited row is after the edit; [None]: deleted. *)
Definition place_in_row (e : RowEdit) (i : nat) : option nat :=
  let o := mp_offset (re_pos e) in
  let n := length (re_values e) in
  match re_type e with
  | Insert => Some (if i <? o then i else i + n)
  | Delete => if i <? o then Some i else if i <? o + n then None else Some (i - n)
  end.

(** Where the node with index [i] in the row under path [q] is after the edit. *)
Definition place (e : RowEdit) (q : RowIndices) (i : nat) : option (RowIndices * nat) :=
  let p := mp_row (re_pos e) in
  match strip p q with
  | None => Some (q, i)
  | Some [] => match place_in_row e i with Some i' => Some (q, i') | None => None end
  | Some ((k, j) :: s) =>
      match place_in_row e k with Some k' => Some (p ++ (k', j) :: s, i) | None => None end
  end.
