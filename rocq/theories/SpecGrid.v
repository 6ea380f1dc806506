(** Specifications about tables used in theorem statements. *)
From Verif Require Import Base Str Grid Node Spec.

(** A full rectangle. *)
Definition rectangular {T} (g : GridVec T) : Prop := 0 < gwidth g /\ length (gvalues g) mod gwidth g = 0.
Definition height {T} (g : GridVec T) : nat := length (gvalues g) / gwidth g.
(** The cell in column [x] and line [y]. *)
Definition cell {T} (g : GridVec T) (x y : nat) : option T :=
  if x <? gwidth g then nth_error (gvalues g) (y * gwidth g + x) else None.

(** [g'] is [g] with the lines of [ins] inserted in front of line [k]. *)
Definition lines_inserted {T} (k : nat) (ins g g' : GridVec T) : Prop :=
  rectangular g' /\ gwidth g' = gwidth g /\ height g' = height g + height ins /\
  forall x y, cell g' x y =
    if y <? k then cell g x y
    else if y <? k + height ins then cell ins x (y - k)
    else cell g x (y - height ins).
(** [g'] is [g] with the columns of [ins] inserted in front of column [k]. *)
Definition columns_inserted {T} (k : nat) (ins g g' : GridVec T) : Prop :=
  rectangular g' /\ gwidth g' = gwidth g + gwidth ins /\ height g' = height g /\
  forall x y, cell g' x y =
    if x <? k then cell g x y
    else if x <? k + gwidth ins then cell ins (x - k) y
    else cell g (x - gwidth ins) y.

(** [doc'] is [doc] with the grid [g] of the table that is node [i] of the row under [p]
    replaced by [g'], and nothing else changed. *)
Definition table_replaced (p : RowIndices) (i : nat) (g g' : GridVec InputRow) (doc doc' : InputRow) : Prop :=
  exists l r, length l = i /\
    replaced p (l ++ Container Table g :: r) (l ++ Container Table g' :: r) doc doc'.
