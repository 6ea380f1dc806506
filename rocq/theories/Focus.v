(** Model of input_tree/src/focus.rs, focus/row_position.rs, focus/row_range.rs
    and focus/grid_range.rs (without the [Editable] implementations, see Edit.v). *)
From Verif Require Import Base Str Grid Node.
Set Implicit Arguments.

(** focus.rs:22-28, 121-125 *)
Inductive InputFocusRow :=
| mkFocusRow (fr_row : InputRow) (fr_parent : option InputFocusNode) (fr_indices : RowIndices)
(** focus.rs:121-125 *)
with InputFocusNode :=
| mkFocusNode (fn_node : InputNode) (fn_parent : InputFocusRow) (fn_index : nat).

(** focus.rs:23-27: a field *)
Definition fr_row (f : InputFocusRow) := match f with mkFocusRow r _ _ => r end.
(** focus.rs:23-27: a field *)
Definition fr_parent (f : InputFocusRow) := match f with mkFocusRow _ p _ => p end.
(** focus.rs:23-27: a field *)
Definition fr_indices (f : InputFocusRow) := match f with mkFocusRow _ _ i => i end.
(** Model only: assignment to a field *)
Definition fr_set_indices (f : InputFocusRow) (i : RowIndices) :=
  match f with mkFocusRow r p _ => mkFocusRow r p i end.
(** focus.rs:122-124: a field *)
Definition fn_node (f : InputFocusNode) := match f with mkFocusNode n _ _ => n end.
(** focus.rs:122-124: a field *)
Definition fn_parent (f : InputFocusNode) := match f with mkFocusNode _ p _ => p end.
(** focus.rs:122-124: a field *)
Definition fn_index (f : InputFocusNode) := match f with mkFocusNode _ _ i => i end.

(** focus.rs:43-45 *)
Definition from_root (row : InputRow) : InputFocusRow := mkFocusRow row None [].

(** focus.rs:59-67: the row indices are handed back to the grandparent *)
Definition focus_parent (f : InputFocusRow) : option InputFocusNode :=
  match f with
  | mkFocusRow _ (Some (mkFocusNode n p i)) indices =>
      Some (mkFocusNode n (fr_set_indices p (removelast indices)) i)
  | mkFocusRow _ None _ => None
  end.

(** focus.rs:69-74 *)
Definition focus_child_at (f : InputFocusRow) (index : nat) : option InputFocusNode :=
  match nth_error (fr_row f) index with
  | Some n => Some (mkFocusNode n f index)
  | None => None
  end.

(** focus.rs:146-160; [None] is [Err(self)].  The index may be a wrapped-around
    [usize] ([None]); [Index2D::from_index] and [get] then miss, but the size of
    the grid is still computed. *)
Definition fn_child_at (f : InputFocusNode) (index : option nat) : Res (option InputFocusRow) :=
  match fn_node f with
  | Container _ g =>
      match index with
      | Some index =>
          xy <- from_index index g ;;
          row <- gget g xy ;;
          Ok (match row with
              | Some row =>
                  let indices := fr_indices (fn_parent f) ++ [(fn_index f, index)] in
                  let self := mkFocusNode (fn_node f) (fr_set_indices (fn_parent f) []) (fn_index f) in
                  Some (mkFocusRow row (Some self) indices)
              | None => None
              end)
      | None => _ <- gsize g ;; Ok None
      end
  | Symbol _ => Ok None
  end.

(** focus.rs:47-57 *)
Fixpoint walk_down_indices (f : InputFocusRow) (indices : RowIndices) : Res InputFocusRow :=
  match indices with
  | [] => Ok f
  | (i, j) :: indices =>
      n <- unwrap (focus_child_at f i) ;;
      r <- fn_child_at n (Some j) ;;
      r <- unwrap r ;;
      walk_down_indices r indices
  end.

(** focus.rs:76-79 *)
Definition focus_row_at (f : InputFocusRow) (i : RowIndex) : Res (option InputFocusRow) :=
  match focus_child_at f (fst i) with
  | Some n => fn_child_at n (Some (snd i))
  | None => Ok None
  end.

(** focus.rs:81-83 *)
Definition focus_node_at (f : InputFocusRow) (index : nat) : option InputNode :=
  nth_error (fr_row f) index.

(** focus.rs:101-105: subtracts one from the depth, also at the root *)
Definition index_in_parent (cfg : Cfg) (f : InputFocusRow) : Res (option nat) :=
  i <- usub cfg (length (fr_indices f)) 1 ;;
  Ok (option_map snd (nth_wrapped (fr_indices f) i)).

(** focus.rs:107-109 *)
Definition focus_offset_to_index (f : InputFocusRow) (offset : nat) (d : HorizontalDirection) :=
  row_offset_to_index (fr_row f) offset d.

(** focus.rs:162-167 *)
Definition fn_element_indices (f : InputFocusNode) : ElementIndices :=
  mkElementIndices (fr_indices (fn_parent f)) (fn_index f).

(** ** row_position.rs *)

(** row_position.rs:19-22 *)
Record MinPos := mkMinPos { mp_row : RowIndices; mp_offset : nat }.
(** row_position.rs:25-30 *)
Record InputRowPosition := mkPos { pos_focus : InputFocusRow; pos_offset : nat }.

(** row_position.rs:33-36 *)
Definition pos_new (f : InputFocusRow) (offset : nat) : Res InputRowPosition :=
  _ <- assert_ (offset <=? length (fr_row f)) ;; Ok (mkPos f offset).
(** row_position.rs:38-40 *)
Definition pos_indices (p : InputRowPosition) : RowIndices := fr_indices (pos_focus p).
(** row_position.rs:42-47 *)
Definition pos_to_minimal (p : InputRowPosition) : MinPos := mkMinPos (pos_indices p) (pos_offset p).
(** row_position.rs:49-51 *)
Definition pos_from_minimal (f : InputFocusRow) (m : MinPos) : Res InputRowPosition :=
  f' <- walk_down_indices f (mp_row m) ;; pos_new f' (mp_offset m).

(** row_position.rs:74-83 *)
Definition minpos_cmp (a b : MinPos) : comparison :=
  cmp_indices_and_offset (mp_row a) (mp_offset a) (mp_row b) (mp_offset b).
(** row_position.rs:74-83 *)
Definition pos_cmp (a b : InputRowPosition) : comparison :=
  minpos_cmp (pos_to_minimal a) (pos_to_minimal b).
(** Model of [Ordering::is_le] (std) *)
Definition is_le (c : comparison) : bool := match c with Gt => false | _ => true end.
(** row_position.rs:24 (derived) with focus.rs:112-116 *)
Definition pos_eqb (a b : InputRowPosition) : bool :=
  rowindices_eqb (pos_indices a) (pos_indices b) && (pos_offset a =? pos_offset b).

(** ** row_range.rs *)

(** row_range.rs:17-21, 25-29 *)
Record MinRange := mkMinRange { mr_row : RowIndices; mr_start : nat; mr_end : nat }.
(** row_range.rs:25-29 *)
Record InputRowRange := mkRange { rg_focus : InputFocusRow; rg_start : nat; rg_end : nat }.

(** row_range.rs:32-40 *)
Definition range_new (f : InputFocusRow) (s e : nat) : Res InputRowRange :=
  _ <- assert_ (s <=? length (fr_row f)) ;;
  _ <- assert_ (e <=? length (fr_row f)) ;;
  Ok (mkRange f s e).
(** row_range.rs:70-72 *)
Definition rg_is_forwards (r : InputRowRange) : bool := rg_start r <=? rg_end r.
(** row_range.rs:42-48, 50-56 *)
Definition rg_left (r : InputRowRange) : nat := if rg_is_forwards r then rg_start r else rg_end r.
(** row_range.rs:50-56 *)
Definition rg_right (r : InputRowRange) : nat := if rg_is_forwards r then rg_end r else rg_start r.
(** row_range.rs:58-60; never underflows, see [rg_left_le_right] *)
Definition rg_len (r : InputRowRange) : nat := rg_right r - rg_left r.
(** row_range.rs:66-68 *)
Definition rg_is_collapsed (r : InputRowRange) : bool := rg_start r =? rg_end r.
(** row_range.rs:74-102 *)
Definition rg_start_position (r : InputRowRange) := mkPos (rg_focus r) (rg_start r).
(** row_range.rs:81-86 *)
Definition rg_end_position (r : InputRowRange) := mkPos (rg_focus r) (rg_end r).
(** row_range.rs:88-94 *)
Definition rg_left_position (r : InputRowRange) := mkPos (rg_focus r) (rg_left r).
(** row_range.rs:96-102 *)
Definition rg_right_position (r : InputRowRange) := mkPos (rg_focus r) (rg_right r).
(** row_range.rs:104-106 *)
Definition rg_values (r : InputRowRange) : Res (list InputNode) :=
  slice (fr_row (rg_focus r)) (rg_left r) (rg_right r).
(** row_range.rs:108-110 *)
Definition rg_indices (r : InputRowRange) : RowIndices := fr_indices (rg_focus r).
(** row_range.rs:112-114 *)
Definition rg_contains (r : InputRowRange) (p : InputRowPosition) : bool :=
  is_le (pos_cmp (rg_left_position r) p) && is_le (pos_cmp p (rg_right_position r)).
(** row_range.rs:116-122 *)
Definition rg_to_minimal (r : InputRowRange) : MinRange :=
  mkMinRange (rg_indices r) (rg_start r) (rg_end r).
(** row_range.rs:124-130 *)
Definition rg_from_minimal (f : InputFocusRow) (m : MinRange) : Res InputRowRange :=
  f' <- walk_down_indices f (mr_row m) ;; range_new f' (mr_start m) (mr_end m).
(** row_position.rs:58-66: [From<&InputRowPosition> for InputRowRange] *)
Definition range_of_pos (p : InputRowPosition) : InputRowRange :=
  mkRange (pos_focus p) (pos_offset p) (pos_offset p).

(** ** grid_range.rs *)

(** grid_range.rs:19-23, 27-30 *)
Record MinGridRange := mkMinGridRange { mg_row : RowIndices; mg_index : nat; mg_range : GridRectangle }.
(** grid_range.rs:27-30 *)
Record InputGridRange := mkGridRange { gr_focus : InputFocusNode; gr_range : GridRectangle }.
(** grid_range.rs:40-46 *)
Definition gr_top_left (r : InputGridRange) : Res (nat * nat) :=
  i <- rect_start_index (gr_range r) ;; Ok (ix i, iy i).
(** grid_range.rs:44-46 *)
Definition gr_bottom_right (r : InputGridRange) : Res (option (nat * nat)) :=
  i <- rect_end_index_inclusive (gr_range r) ;; Ok (option_map (fun i => (ix i, iy i)) i).
(** grid_range.rs:63-69 *)
Definition gr_to_minimal (r : InputGridRange) : MinGridRange :=
  mkMinGridRange (fr_indices (fn_parent (gr_focus r))) (fn_index (gr_focus r)) (gr_range r).
(** grid_range.rs:71-78 *)
Definition gr_from_minimal (f : InputFocusRow) (m : MinGridRange) : Res InputGridRange :=
  f' <- walk_down_indices f (mg_row m) ;;
  n <- unwrap (focus_child_at f' (mg_index m)) ;;
  Ok (mkGridRange n (mg_range m)).
