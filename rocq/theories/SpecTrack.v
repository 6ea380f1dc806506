(** What it means that an offset follows its surroundings through a change of its row. *)
From Verif Require Import Base Node Focus Edit.

(** Offset [t'] of [row'] has the same nodes to its left (right) as [t] in [row]. *)
Definition same_left (row : InputRow) (t : nat) (row' : InputRow) (t' : nat) : Prop :=
  t' <= length row' /\ firstn t' row' = firstn t row.
Definition same_right (row : InputRow) (t : nat) (row' : InputRow) (t' : nat) : Prop :=
  t' <= length row' /\ skipn t' row' = skipn t row.
(** The index that node [k] of a row has after an edit at offset [o] of this row, [None] if it is deleted. *)
Definition node_after (e : RowEdit) (k : nat) : option nat :=
  let o := mp_offset (re_pos e) in let n := length (re_values e) in
  match re_type e with
  | Insert => Some (if k <? o then k else k + n)
  | Delete => if k <? o then Some k else if k <? o + n then None else Some (k - n)
  end.
(** Where the range from [a] to [b] in row [s] of cell [l] of node [k] of the edited row should go. *)
Definition nested_after (e : RowEdit) (k l : nat) (s : RowIndices) (a b : nat) : MinRange :=
  match node_after e k with
  | Some k => mkMinRange (mp_row (re_pos e) ++ (k, l) :: s) a b
  | None => mkMinRange (mp_row (re_pos e)) (mp_offset (re_pos e)) (mp_offset (re_pos e))
  end.
(** When the code gets it right: it looks at the index [i] of the container around the edited row
    instead of [k]. *)
Definition carried (e : RowEdit) (i k : nat) : Prop :=
  let o := mp_offset (re_pos e) in let n := length (re_values e) in
  n = 0 \/ (i < o /\ k < o) \/ (re_type e = Delete /\ o <= i < o + n /\ o <= k < o + n).
