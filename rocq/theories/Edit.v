(** Model of input_tree/src/editing/*.rs, input_tree/src/input_tree.rs and the
    [Editable] implementations of positions and ranges. *)
From Verif Require Import Base Str Grid Node Focus.
Set Implicit Arguments.

(** basic_edit.rs:22-25 *)
Inductive EditType := Delete | Insert.
(** basic_edit.rs:109-116 *)
Record RowEdit := mkRowEdit { re_type : EditType; re_pos : MinPos; re_values : list InputNode }.
(** basic_edit.rs:150-158 *)
Record GridEdit := mkGridEdit {
  ge_type : EditType; ge_element : ElementIndices; ge_direction : GridDirection;
  ge_row_or_column : nat; ge_values : GridVec InputRow }.
(** basic_edit.rs:16-19 *)
Inductive BasicEdit := ERow (e : RowEdit) | EGrid (e : GridEdit).

(** basic_edit.rs:27-36 *)
Definition edit_type_inverse (t : EditType) : EditType :=
  match t with Delete => Insert | Insert => Delete end.
(** basic_edit.rs:139-148 *)
Definition row_edit_inverse (e : RowEdit) : RowEdit :=
  mkRowEdit (edit_type_inverse (re_type e)) (re_pos e) (re_values e).
(** basic_edit.rs:203-212 *)
Definition grid_edit_inverse (e : GridEdit) : GridEdit :=
  mkGridEdit (edit_type_inverse (ge_type e)) (ge_element e) (ge_direction e)
    (ge_row_or_column e) (ge_values e).
(** basic_edit.rs:99-107 *)
Definition edit_inverse (e : BasicEdit) : BasicEdit :=
  match e with
  | ERow e => ERow (row_edit_inverse e)
  | EGrid e => EGrid (grid_edit_inverse e)
  end.

(** basic_edit.rs:39-51 *)
Definition remove_range (r : InputRowRange) : Res (list BasicEdit * MinPos) :=
  values <- rg_values r ;;
  Ok ([ERow (mkRowEdit Delete (pos_to_minimal (rg_left_position r)) values)],
      mkMinPos (rg_indices r) (rg_left r)).

(** basic_edit.rs:53-69 *)
Definition insert_at_position (p : InputRowPosition) (values : list InputNode)
  : list BasicEdit * MinPos :=
  ([ERow (mkRowEdit Insert (pos_to_minimal p) values)],
   mkMinPos (pos_indices p) (pos_offset p + length values)).

(** basic_edit.rs:72-89 *)
Definition replace_range (r : InputRowRange) (values : list InputNode)
  : Res (list BasicEdit * MinRange) :=
  ' (edits, _) <- remove_range r ;;
  let (insert_edits, position) := insert_at_position (rg_left_position r) values in
  _ <- assert_ (rowindices_eqb (mp_row position) (rg_indices r)) ;;
  Ok (edits ++ insert_edits, mkMinRange (rg_indices r) (rg_left r) (mp_offset position)).

(** row_indices_edit.rs:6-25 *)
Inductive RowIndicesEdit :=
| RowIndexEdit (row_indices : RowIndices) (old_offset new_offset : nat)
| GridIndexEdit (e : ElementIndices) (d : GridDirection) (old_offset new_offset : nat).

(** basic_edit.rs:119-130 *)
Definition row_get_row_indices_edit (e : RowEdit) : RowIndicesEdit :=
  let o := mp_offset (re_pos e) in
  let n := mp_offset (re_pos e) + length (re_values e) in
  match re_type e with
  | Delete => RowIndexEdit (mp_row (re_pos e)) n o
  | Insert => RowIndexEdit (mp_row (re_pos e)) o n
  end.

(** basic_edit.rs:161-177 *)
Definition grid_get_row_indices_edit (e : GridEdit) : Res RowIndicesEdit :=
  let o := ge_row_or_column e in
  d <- match ge_direction e with
       | GColumn => gwidth_of (ge_values e)
       | GRow => gheight_of (ge_values e)
       end ;;
  let n := o + d in
  Ok (match ge_type e with
      | Delete => GridIndexEdit (ge_element e) (ge_direction e) n o
      | Insert => GridIndexEdit (ge_element e) (ge_direction e) o n
      end).

(** basic_edit.rs:91-96 *)
Definition get_row_indices_edit (e : BasicEdit) : Res RowIndicesEdit :=
  match e with
  | ERow e => Ok (row_get_row_indices_edit e)
  | EGrid e => grid_get_row_indices_edit e
  end.

(** basic_edit.rs:179-194.  Simplification: an underflowing subtraction is a
    panic in both profiles (in the release profile the wrapped size makes
    [Vec::with_capacity] or [from_one_dimensional] panic, unless the grid has
    no rows at all). *)
Definition psub (a b : nat) : Res nat := if b <=? a then Ok (a - b) else Panic POverflow.
(** basic_edit.rs:179-194 *)
Definition new_grid_size (e : GridEdit) (old : GridVec InputRow) : Res (nat * nat) :=
  ' (ow, oh) <- gsize old ;;
  ' (vw, vh) <- gsize (ge_values e) ;;
  match ge_type e, ge_direction e with
  | Insert, GColumn => Ok (ow + vw, oh)
  | Insert, GRow => Ok (ow, oh + vh)
  | Delete, GColumn => w <- psub ow vw ;; Ok (w, oh)
  | Delete, GRow => h <- psub oh vh ;; Ok (ow, h)
  end.

(** An iterator that has already produced a prefix is the list of its remaining
    items; [take_it n l] is [l.by_ref().take(n)] consumed completely, with [None] a
    wrapped-around [n]. Model of std. *)
Definition take_it {A} (n : option nat) (l : list A) : list A * list A :=
  match n with
  | Some n => (firstn n l, skipn n l)
  | None => (l, [])
  end.

(** input_tree.rs:117-121: one iteration per row of the inserted grid *)
Fixpoint insert_columns {A} (rows : nat) (k : nat) (w : nat) (rest : option nat)
    (old ins : list A) : list A :=
  match rows with
  | 0 => []
  | S rows =>
      let (a, old) := take_it (Some k) old in
      let (b, ins) := take_it (Some w) ins in
      let (c, old) := take_it rest old in
      a ++ b ++ c ++ insert_columns rows k w rest old ins
  end.

(** input_tree.rs:131-135.  [let _ = old_grid.by_ref().skip(n)] builds a lazy
    adapter and drops it: nothing is skipped. *)
Fixpoint delete_columns {A} (rows : nat) (k : nat) (rest : option nat) (old : list A) : list A :=
  match rows with
  | 0 => []
  | S rows =>
      let (a, old) := take_it (Some k) old in
      let (c, old) := take_it rest old in
      a ++ c ++ delete_columns rows k rest old
  end.

(** input_tree.rs:94-142: the grid branch, applied to the addressed row *)
Definition apply_grid_edit (cfg : Cfg) (e : GridEdit) (row : InputRow) : Res InputRow :=
  node <- unwrap (nth_error row (ei_index (ge_element e))) ;;
  _ <- assert_ (has_resizable_grid node) ;;
  match node with
  | Symbol _ => Panic PUnwrap
  | Container v grid =>
      ' (ow, oh) <- gsize grid ;;
      ' (nw, nh) <- new_grid_size e grid ;;
      ' (vw, vh) <- gsize (ge_values e) ;;
      let k := ge_row_or_column e in
      let old := gvalues grid in
      new_grid <-
        match ge_type e, ge_direction e with
        | Insert, GRow =>
            _ <- assert_ (vw =? ow) ;;
            let (a, old) := take_it (Some (vw * k)) old in
            Ok (a ++ gvalues (ge_values e) ++ old)
        | Insert, GColumn =>
            _ <- assert_ (vh =? oh) ;;
            if vh =? 0 then Ok [] else
            rest <- usub cfg ow k ;;
            Ok (insert_columns vh k vw rest old (gvalues (ge_values e)))
        | Delete, GRow =>
            _ <- assert_ (vw =? ow) ;;
            let (a, old) := take_it (Some (vw * k)) old in
            Ok (a ++ old)
        | Delete, GColumn =>
            _ <- assert_ (vh =? oh) ;;
            if vh =? 0 then Ok [] else
            rest <- usub cfg ow k ;;
            Ok (delete_columns vh k rest old)
        end ;;
      grid' <- from_one_dimensional new_grid nw ;;
      ' (gw, gh) <- gsize grid' ;;
      _ <- assert_ (gw =? nw) ;;
      _ <- assert_ (gh =? nh) ;;
      Ok (list_set row (ei_index (ge_element e)) (Container v grid'))
  end.

(** input_tree.rs:69-85: the row branches, applied to the addressed row *)
Definition apply_row_edit (e : RowEdit) (row : InputRow) : Res InputRow :=
  let start := mp_offset (re_pos e) in
  match re_type e with
  | Insert => splice row start start (re_values e)
  | Delete => splice row start (start + length (re_values e)) []
  end.

(** input_tree.rs:59-66 with node.rs:104-111 ([row_mut]): walk down to the
    addressed row and replace it by the result of [f]. *)
Fixpoint update_row (f : InputRow -> Res InputRow) (indices : RowIndices) (row : InputRow) : Res InputRow :=
  match indices with
  | [] => f row
  | (i, j) :: indices =>
      node <- unwrap (nth_error row i) ;;
      match node with
      | Symbol _ => Panic PUnwrap
      | Container v g =>
          xy <- from_index j g ;;
          child <- gget g xy ;;
          child <- unwrap child ;;
          child' <- update_row f indices child ;;
          ' (g', _) <- gset g xy child' ;;
          Ok (list_set row i (Container v g'))
      end
  end.

(** input_tree.rs:52-144; [InputTree] is its [root] field *)
Definition tree_apply_edit (cfg : Cfg) (tree : InputRow) (e : BasicEdit) : Res InputRow :=
  match e with
  | ERow e => update_row (apply_row_edit e) (mp_row (re_pos e)) tree
  | EGrid e => update_row (apply_grid_edit cfg e) (ei_row (ge_element e)) tree
  end.

(** editable.rs:4-8 *)
Fixpoint apply_edits {T} (apply : T -> BasicEdit -> Res T) (x : T) (edits : list BasicEdit) : Res T :=
  match edits with
  | [] => Ok x
  | e :: edits => x' <- apply x e ;; apply_edits apply x' edits
  end.
(** editable.rs:4-8 for the tree *)
Definition tree_apply_edits cfg := apply_edits (tree_apply_edit cfg).

(** row_range.rs:134-207.  [at_mut(row_indices.len() - 1).unwrap()] at lines 181
    and 188: the subtraction is checked or wraps, and a miss panics. *)
Definition range_apply_edit (cfg : Cfg) (r : MinRange) (e : BasicEdit) : Res MinRange :=
  edit <- get_row_indices_edit e ;;
  let row_indices := match edit with
                     | RowIndexEdit i _ _ => i
                     | GridIndexEdit ei _ _ _ => ei_row ei
                     end in
  if negb (indices_starts_with (mr_row r) row_indices) then Ok r else
  let is_forwards := mr_start r <=? mr_end r in
  let '(s, e) := if is_forwards then (mr_start r, mr_end r) else (mr_end r, mr_start r) in
  ' (idx, s, e) <-
    match edit with
    | RowIndexEdit _ old_offset new_offset =>
        let is_insert := old_offset <? new_offset in
        let same_row := rowindices_eqb (mr_row r) row_indices in
        if is_insert && same_row then
          let delta := new_offset - old_offset in
          let s' := if old_offset <? s then s + delta else s in
          let e' := if old_offset <=? e then e + delta else e in
          Ok (mr_row r, s', e')
        else if negb is_insert && same_row then
          let delta := old_offset - new_offset in
          let s' := if new_offset <? s then Nat.max (s - delta) new_offset else s in
          let e' := if new_offset <=? e then Nat.max (e - delta) new_offset else e in
          Ok (mr_row r, s', e')
        else
          k <- usub cfg (length row_indices) 1 ;;
          k <- unwrap k ;;
          row_index <- unwrap (nth_error (mr_row r) k) ;;
          if is_insert then
            if old_offset <=? fst row_index then
              let delta := new_offset - old_offset in
              Ok (list_set (mr_row r) k (fst row_index + delta, snd row_index), s, e)
            else Ok (mr_row r, s, e)
          else if (new_offset <=? fst row_index) && (fst row_index <? old_offset) then
            Ok (row_indices, new_offset, new_offset)
          else if old_offset <=? fst row_index then
            let delta := old_offset - new_offset in
            Ok (list_set (mr_row r) k (fst row_index - delta, snd row_index), s, e)
          else Ok (mr_row r, s, e)
    | GridIndexEdit _ _ _ _ => Panic PTodo
    end ;;
  Ok (if is_forwards then mkMinRange idx s e else mkMinRange idx e s).

(** row_position.rs:85-96 *)
Definition pos_apply_edit (cfg : Cfg) (p : MinPos) (e : BasicEdit) : Res MinPos :=
  r <- range_apply_edit cfg (mkMinRange (mp_row p) (mp_offset p) (mp_offset p)) e ;;
  Ok (mkMinPos (mr_row r) (mr_start r)).

(** grid_range.rs:81-85 *)
Definition gridrange_apply_edit (r : MinGridRange) (e : BasicEdit) : Res MinGridRange := Panic PTodo.

(** editable.rs:4-8 for ranges *)
Definition range_apply_edits cfg := apply_edits (range_apply_edit cfg).
(** editable.rs:4-8 for positions *)
Definition pos_apply_edits cfg := apply_edits (pos_apply_edit cfg).

(** input_tree.rs:22-48 *)
Definition range_from_positions (tree : InputRow) (s e : InputRowPosition) : Res InputRowRange :=
  let shared := get_shared (pos_indices s) (pos_indices e) in
  let is_forwards := is_le (pos_cmp s e) in
  let start_offset := match nth_error (pos_indices s) (length shared) with
                      | Some index => if is_forwards then fst index else fst index + 1
                      | None => pos_offset s
                      end in
  let end_offset := match nth_error (pos_indices e) (length shared) with
                    | Some index => if is_forwards then fst index + 1 else fst index
                    | None => pos_offset e
                    end in
  f <- walk_down_indices (from_root tree) shared ;;
  range_new f start_offset end_offset.
