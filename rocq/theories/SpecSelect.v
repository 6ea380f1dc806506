(** Extending a selection with Shift and an arrow key. *)
From Verif Require Import Base Str Grid Node Focus Edit Caret Autocomplete Editor Spec SpecAuto SpecMove SpecEditor SpecSafety.
Set Implicit Arguments.

(** The end of a range that moves. *)
Definition range_end (m : MinRange) : MinPos := mkMinPos (mr_row m) (mr_end m).
(** The start or end of the document. *)
Definition edge (d : Direction) (doc : InputRow) : MinPos := match d with DRight => here (length doc) | _ => here 0 end.
(** Pressing the key moves the end of the range away from its start. *)
Definition grows (d : Direction) (m : MinRange) : Prop :=
  match d with DRight => mr_start m <= mr_end m | DLeft => mr_end m <= mr_start m | _ => False end.
(** [b] is the next position after [a] in this direction. *)
Definition follows (d : Direction) (doc : InputRow) (a b : MinPos) : Prop :=
  match d with DRight => next_in (positions doc) a b | DLeft => next_in (positions doc) b a | _ => False end.
(** Going left out of a first cell subtracts one from zero. *)
Definition underflows (cfg : Cfg) (d : Direction) (p : MinPos) : Prop :=
  overflow_checks cfg = true /\ d = DLeft /\ at_cell_zero p.
(** The node that the end of the range crosses. *)
Definition crossed (d : Direction) (m : MinRange) : nat := match d with DRight => mr_end m | _ => mr_end m - 1 end.
(** The first cell of a container that the end of a range enters in this direction, and where in it. *)
Definition met_cell (d : Direction) (g : GridVec InputRow) : nat := match d with DRight => 0 | _ => length (gvalues g) - 1 end.
Definition met_edge (d : Direction) (cell : InputRow) : nat := match d with DRight => 0 | _ => length cell end.
