(** The caret positions that are drawn somewhere in an element. *)
From Coq Require Import QArith Qround.
From Verif Require Import Base Grid Node NameMap Syntax SyntaxFind Render Layout Viewport SpecView.
Open Scope nat_scope.

(** The elements in an element, itself included, with the children on the way and the row indices on the way *)
Inductive within : Candidate -> Candidate -> Prop :=
| within_here c : within c c
| within_child x path indices k c d : nth_error (get_children x) k = Some c ->
    within (c, path ++ [k], add_row_index indices (el_row_index c)) d -> within (x, path, indices) d.
(** A caret position in the range of an element, and where it is drawn *)
Definition has_caret (x : Element) (path : list nat) (offset : nat) (place : Place) : Prop :=
  fst (syn_range (el_tree x)) <= offset <= snd (syn_range (el_tree x)) /\ get_caret_position x path offset = Ok place.
(** A caret position in [c], or in a row in [c]: its row, its offset, where it is drawn *)
Definition offers (c : Candidate) (indices : RowIndices) (offset : nat) (place : Place) : Prop :=
  exists x path, within c (x, path, indices) /\ ((x, path, indices) = c \/ el_row_index x <> None) /\ has_caret x path offset place.
(** What is drawn in an element is in its bounds, so it is not closer than the bounds. *)
Definition boxes (to_bounds : list nat -> nat) (to_place : Place -> nat) : Prop :=
  forall path path' spot, to_bounds path <= to_place (path ++ path', spot).
(** Where the browser puts elements and carets *)
Record Geometry := mkGeometry { bounds_of : list nat -> Rect; point_of : Place -> Point }.
(** Elements are in the bounds of the elements they are in, and so are carets. *)
Definition nested (geo : Geometry) : Prop :=
  (forall path, proper_rect (bounds_of geo path)) /\
  (forall path path' p, in_rect p (bounds_of geo (path ++ path')) -> in_rect p (bounds_of geo path)) /\
  (forall place, in_rect (point_of geo place) (bounds_of geo (fst place))).
(** The natural numbers that stand for the distances from a point; exact if all coordinates are integers. *)
Definition whole (q : Q) : nat := Z.to_nat (Qfloor q).
Definition bounds_distance (geo : Geometry) (p : Point) (path : list nat) : nat := whole (distance_to_rectangle p (bounds_of geo path)).
Definition place_distance (geo : Geometry) (p : Point) (place : Place) : nat := whole (distance_to_point p (point_of geo place)).
