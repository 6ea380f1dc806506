(** Model of input_tree/src/grid.rs, grid/index2d.rs and grid/grid_view.rs. *)
From Verif Require Import Base.
Set Implicit Arguments.

(** grid.rs:35-38 *)
Record GridVec (T : Type) := mkGrid { gvalues : list T; gwidth : nat }.
Arguments mkGrid {T} gvalues gwidth.

(** grid.rs:22-25 *)
Inductive GridDirection := GRow | GColumn.

(** grid.rs:41-43 [GridVec::size]: divides by the width. *)
Definition gsize {T} (g : GridVec T) : Res (nat * nat) :=
  h <- udiv (length (gvalues g)) (gwidth g) ;; Ok (gwidth g, h).
(** grid.rs:11-16 *)
Definition gwidth_of {T} (g : GridVec T) : Res nat := s <- gsize g ;; Ok (fst s).
(** grid.rs:14-16 *)
Definition gheight_of {T} (g : GridVec T) : Res nat := s <- gsize g ;; Ok (snd s).

(** grid.rs:51-55 *)
Definition from_one_dimensional {T} (values : list T) (width : nat) : Res (GridVec T) :=
  _ <- assert_ (0 <? width) ;;
  m <- umod (length values) width ;;
  _ <- assert_ (m =? 0) ;;
  Ok (mkGrid values width).

(** index2d.rs:6-11 *)
Record Index2D := mkIndex2D { ix : nat; iy : nat; iwidth : nat }.

(** index2d.rs:18-25.  The grid only contributes its width, but [Grid::width]
    goes through [size] and so divides by it. *)
Definition from_index {T} (index : nat) (g : GridVec T) : Res Index2D :=
  w <- gwidth_of g ;;
  x <- umod index w ;;
  y <- udiv index w ;;
  Ok (mkIndex2D x y w).

(** index2d.rs:27-29 *)
Definition to_index (i : Index2D) : nat := iy i * iwidth i + ix i.

(** index2d.rs:47-54, for a grid of the given size *)
Definition with_size (i : Index2D) (size : nat * nat) : option Index2D :=
  if negb (iwidth i =? fst size) || (fst size <=? ix i) || (snd size <=? iy i)
  then None else Some i.
(** index2d.rs:47-54 *)
Definition with_grid {T} (i : Index2D) (g : GridVec T) : Res (option Index2D) :=
  s <- gsize g ;; Ok (with_size i s).

(** index2d.rs:31-37 (the [usize] additions are assumed not to overflow) *)
Definition add_checked {T} (i : Index2D) (xy : nat * nat) (g : GridVec T) : Res (option Index2D) :=
  with_grid (mkIndex2D (ix i + fst xy) (iy i + snd xy) (iwidth i)) g.

(** index2d.rs:39-45 *)
Definition sub_checked {T} (i : Index2D) (xy : nat * nat) (g : GridVec T) : Res (option Index2D) :=
  if (fst xy <=? ix i) && (snd xy <=? iy i)
  then with_grid (mkIndex2D (ix i - fst xy) (iy i - snd xy) (iwidth i)) g
  else Ok None.

(** index2d.rs:56-59 *)
Definition to_index_checked {T} (i : Index2D) (g : GridVec T) : Res (option nat) :=
  c <- with_grid i g ;; Ok (option_map to_index c).

(** grid.rs:45-47 *)
Definition gget {T} (g : GridVec T) (xy : Index2D) : Res (option T) :=
  i <- to_index_checked xy g ;;
  Ok (match i with Some i => nth_error (gvalues g) i | None => None end).

(** grid.rs:57-66: [set], which is an assignment through [get_mut]; returns the
    grid and the old value. *)
Definition gset {T} (g : GridVec T) (xy : Index2D) (value : T) : Res (GridVec T * option T) :=
  i <- to_index_checked xy g ;;
  Ok (match i with
      | Some i =>
          match nth_error (gvalues g) i with
          | Some old => (mkGrid (list_set (gvalues g) i value) (gwidth g), Some old)
          | None => (g, None)
          end
      | None => (g, None)
      end).

(** grid_view.rs:43-54 *)
Record GridRectangle := mkRect { rstart : nat; rend : nat; rwidth : nat }.

(** grid_view.rs:57-67 *)
Definition rect_new (s e width : nat) : GridRectangle :=
  mkRect s (if s <? e then e else s) width.

(** grid_view.rs:73-77.  [end >= start] holds for every rectangle built by
    [rect_new], so the subtraction is the plain one. *)
Definition rect_height (r : GridRectangle) : Res nat :=
  start_y <- udiv (rstart r) (rwidth r) ;;
  end_y <- udiv (rend r) (rwidth r) ;;
  Ok (end_y - start_y).

(** grid_view.rs:69-71, 79-81 *)
Definition rect_size (r : GridRectangle) : Res (nat * nat) :=
  h <- rect_height r ;; Ok (rwidth r, h).

(** grid_view.rs:83-85 *)
Definition rect_is_empty (r : GridRectangle) : bool := rend r <=? rstart r.

(** grid_view.rs:87-91 *)
Definition rect_start_index (r : GridRectangle) : Res Index2D :=
  x <- umod (rstart r) (rwidth r) ;;
  y <- udiv (rstart r) (rwidth r) ;;
  Ok (mkIndex2D x y (rwidth r)).

(** grid_view.rs:93-100 *)
Definition rect_end_index_inclusive (r : GridRectangle) : Res (option Index2D) :=
  if rect_is_empty r then Ok None else
  x <- umod (rend r - 1) (rwidth r) ;;
  y <- udiv (rend r - 1) (rwidth r) ;;
  Ok (Some (mkIndex2D x y (rwidth r))).

(** grid_view.rs:102-113 *)
Definition rect_from_indices_inclusive {T} (start_index end_index : Index2D) (g : GridVec T)
  : Res GridRectangle :=
  s <- to_index_checked start_index g ;;
  s <- unwrap s ;;
  e <- to_index_checked end_index g ;;
  e <- unwrap e ;;
  let '(s, e) := if e <? s then (e, s) else (s, e) in
  w <- gwidth_of g ;;
  Ok (rect_new s (e + 1) w).

(** grid_view.rs:8-23: [GridView] and its [Grid] implementation. *)
Definition view_get {T} (g : GridVec T) (r : GridRectangle) (xy : Index2D) : Res (option T) :=
  s <- rect_size r ;;
  Ok (match with_size xy s with
      | Some xy => nth_error (gvalues g) (to_index xy + rstart r)
      | None => None
      end).
