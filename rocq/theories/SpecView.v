(** Points, rectangles and segments. *)
From Coq Require Import QArith.
From Verif Require Import Viewport.
Open Scope Q_scope.

(** A point in a rectangle, its edges included *)
Definition in_rect (p : Point) (r : Rect) : Prop := rx r <= px p <= rx r + rwidth r /\ ry r <= py p <= ry r + rheight r.
(** A rectangle with a width and a height that are not negative *)
Definition proper_rect (r : Rect) : Prop := 0 <= rwidth r /\ 0 <= rheight r.
(** [d] is the least value of [f] on [S]. *)
Definition least (S : Point -> Prop) (f : Point -> Q) (d : Q) : Prop := (exists p, S p /\ f p == d) /\ forall p, S p -> d <= f p.
(** The points of the segment from [a] to [b] *)
Definition on_segment (a b p : Point) : Prop := exists t, 0 <= t <= 1 /\ px p == px a + t * (px b - px a) /\ py p == py a + t * (py b - py a).
Definition squared_distance (a b : Point) : Q := (px a - px b) * (px a - px b) + (py a - py b) * (py a - py b).
