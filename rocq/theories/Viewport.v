(** Model of src/rendering/viewport-coordinate.ts. Numbers are rational numbers instead of floating point
    numbers, so there is no rounding. Distances are squared wherever the code takes a square root; this changes
    neither their order nor which of them are 0. *)
From Coq Require Import QArith Qminmax Qabs.
Open Scope Q_scope.

(** viewport-coordinate.ts:7 *)
Record Point := mkPoint { px : Q; py : Q }.
(** viewport-coordinate.ts:9-20 *)
Record Rect := mkRect { rx : Q; ry : Q; rwidth : Q; rheight : Q }.
(** viewport-coordinate.ts:23-34 *)
Definition join_rectangles (a b : Rect) : Rect :=
  let top := Qmin (ry a) (ry b) in
  let left := Qmin (rx a) (rx b) in
  let bottom := Qmax (ry a + rheight a) (ry b + rheight b) in
  let right := Qmax (rx a + rwidth a) (rx b + rwidth b) in
  mkRect left top (right - left) (bottom - top).
(** Model of [v ** 2] *)
Definition square (v : Q) : Q := v * v.
(** viewport-coordinate.ts:40-47, squared *)
Definition distance_to_rectangle (p : Point) (bounds : Rect) : Q :=
  let dx := Qmax (rx bounds - px p) (px p - (rx bounds + rwidth bounds)) in
  let dy := Qmax (ry bounds - py p) (py p - (ry bounds + rheight bounds)) in
  square (Qmax 0 dx) + square (Qmax 0 dy).
(** viewport-coordinate.ts:49-51, squared, and viewport-coordinate.ts:52-54 *)
Definition distance_to_point (a b : Point) : Q := square (px a - px b) + square (py a - py b).
(** viewport-coordinate.ts:58 *)
Definition epsilon : Q := 1 # 100000.
(** viewport-coordinate.ts:55-67 *)
Definition distance_to_segment (p a b : Point) : Q :=
  let segment_length := distance_to_point a b in
  if Qlt_le_dec segment_length epsilon then distance_to_point p a
  else
    let t := ((px p - px a) * (px b - px a) + (py p - py a) * (py b - py a)) / segment_length in
    let t := Qmax 0 (Qmin 1 t) in
    distance_to_point p (mkPoint (px a + t * (px b - px a)) (py a + t * (py b - py a))).
(** component/math-editor.ts:398-422: the rectangle for a selection of cells, from the bounds of the first and of the last cell *)
Definition grid_selection (first last : Rect) : Rect :=
  join_rectangles
    (mkRect (Qmin (rx first) (rx last)) (Qmin (ry first) (ry last)) 0 0)
    (mkRect (Qmax (rx first + rwidth first) (rx last + rwidth last)) (Qmax (ry first + rheight first) (ry last + rheight last)) 0 0).
(** mathml/render-result.ts:47-57 and 60-64: top and bottom of the elements that give a selection its height. [None] is the
    infinite height of lines 31-35. The code joins the heights while it walks the tree; here the elements are in a list. *)
Fixpoint content_height (bounds : list Rect) : option (Q * Q) :=
  match bounds with
  | nil => None
  | cons b l =>
      match content_height l with
      | None => Some (ry b, ry b + rheight b)
      | Some (top, bottom) => Some (Qmin (ry b) top, Qmax (ry b + rheight b) bottom)
      end
  end.
(** mathml/render-result.ts:67-79 for a selection that is not empty *)
Definition selection_rect (forwards : bool) (start end_ : Point) (bounds : list Rect) : option Rect :=
  match content_height bounds with
  | None => None
  | Some (top, bottom) => Some (mkRect (if forwards then px start else px end_) top (Qabs (px end_ - px start)) (bottom - top))
  end.
(** rendering/rendered-selection.ts:4-11 *)
Record RenderedSelection := mkRendered { rs_rect : Rect; rs_baseline : Q }.
(** rendering/rendered-selection.ts:21-23 *)
Definition is_collapsed (s : RenderedSelection) : bool := Qeq_bool (rwidth (rs_rect s)) 0.
(** rendering/rendered-selection.ts:25-28; [None] if the assertion fails *)
Definition join_selections (a b : RenderedSelection) : option RenderedSelection :=
  if Qlt_le_dec (Qabs (rs_baseline a - rs_baseline b)) 5 then Some (mkRendered (join_rectangles (rs_rect a) (rs_rect b)) (rs_baseline a)) else None.
