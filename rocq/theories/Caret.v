(** Model of caret/src/caret.rs, primitive/movement.rs, primitive/primitive_edit.rs,
    primitive/caret_edit.rs and undo_redo_manager.rs. *)
From Verif Require Import Base Str Grid Node Focus Edit.
Set Implicit Arguments.

(** ** caret.rs *)

(** caret.rs:13-16, 18-29 *)
Record MinimalCaret := mkMinCaret { mc_start : MinPos; mc_end : MinPos }.
(** caret.rs:18-29 *)
Definition default_caret : MinimalCaret := mkMinCaret (mkMinPos [] 0) (mkMinPos [] 0).

(** caret.rs:114-117 *)
Inductive CaretSelection := SelRow (r : InputRowRange) | SelGrid (r : InputGridRange).
(** caret.rs:109-112 *)
Inductive MinimalCaretSelection := MSelRow (r : MinRange) | MSelGrid (r : MinGridRange).
(** caret.rs:120-125 *)
Definition sel_to_minimal (s : CaretSelection) : MinimalCaretSelection :=
  match s with
  | SelRow r => MSelRow (rg_to_minimal r)
  | SelGrid r => MSelGrid (gr_to_minimal r)
  end.

(** caret.rs:127-169 *)
Definition selection_from_positions (tree : InputRow) (s e : InputRowPosition) : Res CaretSelection :=
  shared_range <- range_from_positions tree s e ;;
  if negb (rg_len shared_range =? 1) then Ok (SelRow shared_range) else
  let selected_element := focus_node_at (rg_focus shared_range) (rg_left shared_range) in
  let is_grid_selected :=
    match selected_element with Some n => has_resizable_grid n | None => false end in
  if negb is_grid_selected then Ok (SelRow shared_range) else
  let depth := length (rg_indices shared_range) in
  match nth_error (pos_indices s) depth, nth_error (pos_indices e) depth with
  | Some si, Some ei =>
      _ <- assert_ (fst si =? rg_left shared_range) ;;
      _ <- assert_ (fst ei =? rg_left shared_range) ;;
      selected_node <- unwrap (focus_child_at (rg_focus shared_range) (fst si)) ;;
      selected_grid <- unwrap (node_grid (fn_node selected_node)) ;;
      start_index <- from_index (snd si) selected_grid ;;
      end_index <- from_index (snd ei) selected_grid ;;
      rect <- rect_from_indices_inclusive start_index end_index selected_grid ;;
      Ok (SelGrid (mkGridRange selected_node rect))
  | _, _ => Ok (SelRow shared_range)
  end.

(** caret.rs:31-36 without the borrowed tree *)
Record Caret := mkCaret {
  c_start : InputRowPosition; c_end : InputRowPosition; c_selection : CaretSelection }.

(** caret.rs:39-51 *)
Definition caret_new (tree : InputRow) (s e : InputRowPosition) : Res Caret :=
  sel <- selection_from_positions tree s e ;; Ok (mkCaret s e sel).
(** caret.rs:53-58 *)
Definition caret_to_minimal (c : Caret) : MinimalCaret :=
  mkMinCaret (pos_to_minimal (c_start c)) (pos_to_minimal (c_end c)).
(** caret.rs:60-65 *)
Definition caret_from_minimal (tree : InputRow) (m : MinimalCaret) : Res Caret :=
  s <- pos_from_minimal (from_root tree) (mc_start m) ;;
  e <- pos_from_minimal (from_root tree) (mc_end m) ;;
  caret_new tree s e.
(** caret.rs:95-100 *)
Definition caret_set_selection (tree : InputRow) (c : Caret) (sel : InputRowRange) : Res Caret :=
  caret_new tree (rg_start_position sel) (rg_end_position sel).

(** ** primitive/movement.rs.
    [NavigationSettings] only holds the optional viewport callback, whose result
    is never used (and which is [None] in [MathEditor::new]); it is dropped. *)

(** movement.rs:18-22 *)
Inductive MoveMode := MChar | MWord | MLine.

(** movement.rs:217-251 *)
Definition move_horizontal_into (cfg : Cfg) (caret : InputRowPosition) (d : HorizontalDirection)
  : Res (option InputRowPosition) :=
  match focus_offset_to_index (pos_focus caret) (pos_offset caret) d with
  | None => Ok None
  | Some adjacent_index =>
      adjacent_child <- unwrap (focus_child_at (pos_focus caret) adjacent_index) ;;
      match fn_node adjacent_child with
      | Container _ grid =>
          adjacent_row <-
            (if is_left d then
               ' (w, h) <- gsize grid ;;
               last <- usub cfg (w * h) 1 ;;
               r <- fn_child_at adjacent_child last ;;
               unwrap r
             else
               r <- fn_child_at adjacent_child (Some 0) ;;
               unwrap r) ;;
          let offset := if is_left d then length (fr_row adjacent_row) else 0 in
          p <- pos_new adjacent_row offset ;;
          Ok (Some p)
      | Symbol _ =>
          p <- pos_new (pos_focus caret)
                 (if is_left d then pos_offset caret - 1 else pos_offset caret + 1) ;;
          Ok (Some p)
      end
  end.

(** movement.rs:180-214; [v - 1] at line 189 is a checked or wrapping subtraction *)
Definition move_horizontal_beyond_edge (cfg : Cfg) (caret : InputRowPosition) (d : HorizontalDirection)
  : Res (option InputRowPosition) :=
  match focus_parent (pos_focus caret) with
  | None => Ok None
  | Some parent =>
      iip <- index_in_parent cfg (pos_focus caret) ;;
      adjacent_child <-
        match iip with
        | None => Ok None
        | Some v =>
            adjacent_index <- (if is_left d then usub cfg v 1 else Ok (Some (v + 1))) ;;
            fn_child_at parent adjacent_index
        end ;;
      match adjacent_child with
      | Some adjacent_child =>
          let offset := if is_left d then length (fr_row adjacent_child) else 0 in
          p <- pos_new adjacent_child offset ;;
          Ok (Some p)
      | None =>
          let offset := if is_left d then fn_index parent else fn_index parent + 1 in
          p <- pos_new (fn_parent parent) offset ;;
          Ok (Some p)
      end
  end.

(** movement.rs:116-176; the recursion goes to the grandparent row, so the depth
    of the focus is enough fuel *)
Fixpoint move_vertical_fuel (fuel : nat) (cfg : Cfg) (caret : InputRowPosition) (d : VerticalDirection)
  : Res (option InputRowPosition) :=
  match fuel with
  | 0 => Panic PFuel
  | S fuel =>
      match focus_parent (pos_focus caret) with
      | None => Ok None
      | Some parent =>
          let grid_movement :=
            match fn_node parent with
            | Symbol _ => Ok None
            | Container _ grid =>
                iip <- index_in_parent cfg (pos_focus caret) ;;
                match iip with
                | None => Ok None
                | Some iip =>
                    xy <- from_index iip grid ;;
                    new_xy <- match d with
                              | VUp => sub_checked xy (0, 1) grid
                              | VDown => add_checked xy (0, 1) grid
                              end ;;
                    new_row <- match new_xy with
                               | Some new_xy => fn_child_at parent (Some (to_index new_xy))
                               | None => Ok None
                               end ;;
                    match new_row with
                    | Some new_row =>
                        let offset := match d with VUp => length (fr_row new_row) | VDown => 0 end in
                        p <- pos_new new_row offset ;;
                        Ok (Some p)
                    | None =>
                        p <- pos_new (fn_parent parent) 0 ;;
                        move_vertical_fuel fuel cfg p d
                    end
                end
            end in
          match fn_node parent, d with
          | Container Sub _, VDown | Container Sup _, VUp =>
              p <- pos_new (fn_parent parent) (fn_index parent) ;;
              Ok (Some p)
          | _, _ => grid_movement
          end
      end
  end.
(** movement.rs:116-176 *)
Definition move_vertical cfg (caret : InputRowPosition) d :=
  move_vertical_fuel (S (length (pos_indices caret))) cfg caret d.

(** movement.rs:94-114 *)
Definition move_caret_internal (cfg : Cfg) (caret : InputRowPosition) (d : Direction)
  : Res (option InputRowPosition) :=
  let horizontal d :=
    r <- move_horizontal_into cfg caret d ;;
    match r with
    | Some p => Ok (Some p)
    | None => move_horizontal_beyond_edge cfg caret d
    end in
  match d with
  | DLeft => horizontal HLeft
  | DRight => horizontal HRight
  | DUp => move_vertical cfg caret VUp
  | DDown => move_vertical cfg caret VDown
  end.

(** movement.rs:59-91 *)
Definition move_caret_range (cfg : Cfg) (caret : InputRowRange) (d : Direction) (mode : MoveMode)
  : Res (option InputRowPosition) :=
  let is_collapsed := rg_is_collapsed caret in
  let caret := match d with
               | DLeft | DUp => rg_left_position caret
               | DRight | DDown => rg_right_position caret
               end in
  match mode with
  | MChar =>
      new_caret <- move_caret_internal cfg caret d ;;
      match new_caret with
      | Some new_caret => Ok (Some new_caret)
      | None => if negb is_collapsed then Ok (Some caret) else Ok None
      end
  | _ => Panic PTodo
  end.

(** movement.rs:46-56 *)
Definition nav_move_caret (cfg : Cfg) (tree : InputRow) (caret : Caret) (d : Direction) (mode : MoveMode)
  : Res Caret :=
  match c_selection caret with
  | SelRow row =>
      p <- move_caret_range cfg row d mode ;;
      match p with
      | Some p => caret_set_selection tree caret (range_of_pos p)
      | None => Ok caret
      end
  | SelGrid _ => Ok caret
  end.

(** ** primitive/primitive_edit.rs *)

(** primitive_edit.rs:18-23 *)
Inductive CaretRemoveMode := RemoveLeft | RemoveRight | RemoveRange.

(** primitive_edit.rs:26-42 (always [Some]) *)
Definition insert_at_range (caret : InputRowRange) (values : list InputNode)
  : Res (option (list BasicEdit * MinPos)) :=
  ' (edit, range) <- replace_range caret values ;;
  Ok (Some (edit, mkMinPos (mr_row range)
                    (if mr_start range <? mr_end range then mr_end range else mr_start range))).

(** primitive_edit.rs:73-84 *)
Definition remove_move_caret (cfg : Cfg) (caret : InputRowPosition) (d : HorizontalDirection)
  : Res (option (list BasicEdit * MinPos)) :=
  p <- move_caret_range cfg (range_of_pos caret) (h_to_dir d) MChar ;;
  Ok (match p with
      | Some p => Some ([], pos_to_minimal p)
      | None => None
      end).

(** primitive_edit.rs:87-106 *)
Definition flatten_node (node_focus : InputFocusNode) (offset_in_node : nat)
  : Res (option (list BasicEdit * MinPos)) :=
  grid <- unwrap (node_grid (fn_node node_focus)) ;;
  let values := concat (gvalues grid) in
  let node_index := fn_index node_focus in
  let row := fn_parent node_focus in
  range <- range_new row node_index (node_index + 1) ;;
  ' (edits, position) <- remove_range range ;;
  let (insert_edits, _) := insert_at_position (rg_left_position range) values in
  Ok (Some (edits ++ insert_edits,
            mkMinPos (mp_row position) (mp_offset position + offset_in_node))).

(** primitive_edit.rs:67-176 *)
Definition remove_at_caret_position (cfg : Cfg) (caret : InputRowPosition) (d : HorizontalDirection)
  : Res (option (list BasicEdit * MinPos)) :=
  let adjacent_node :=
    match focus_offset_to_index (pos_focus caret) (pos_offset caret) d with
    | Some index => match focus_node_at (pos_focus caret) index with
                    | Some n => Some (index, n)
                    | None => None
                    end
    | None => None
    end in
  match adjacent_node with
  | Some (index, Symbol _) =>
      (* delete symbol *)
      range <- range_new (pos_focus caret) index (index + 1) ;;
      r <- remove_range range ;;
      Ok (Some r)
  | Some (index, Container v _) =>
      match v, d with
      | Sub, HRight | Sup, HRight =>
          n <- unwrap (focus_child_at (pos_focus caret) index) ;;
          flatten_node n 0
      | _, _ => remove_move_caret cfg caret d
      end
  | None =>
      (* at the start or end of a row *)
      iip <- index_in_parent cfg (pos_focus caret) ;;
      match focus_parent (pos_focus caret) with
      | None => Ok None
      | Some parent =>
          iip <- unwrap iip ;;
          let general :=
            match node_grid (fn_node parent) with
            | None => Ok None
            | Some grid =>
                at_edge <-
                  match d with
                  | HLeft => Ok (iip =? 0)
                  | HRight =>
                      ' (w, h) <- gsize grid ;;
                      last <- usub cfg (w * h) 1 ;;
                      Ok (match last with Some last => last <=? iip | None => false end)
                  end ;;
                if at_edge && forallb (fun v => match v with [] => true | _ => false end) (gvalues grid)
                then flatten_node parent 0
                else remove_move_caret cfg caret d
            end in
          match fn_node parent with
          | Container Sub _ | Container Sup _ =>
              match d with
              | HLeft => flatten_node parent 0
              | HRight => general
              end
          | Container Fraction grid | Container RootV grid =>
              if (is_left d && (iip =? 1)) || (negb (is_left d) && (iip =? 0)) then
                xy <- from_index 0 grid ;;
                first <- gget grid xy ;;
                first <- unwrap first ;;
                flatten_node parent (length first)
              else general
          | _ => general
          end
      end
  end.

(** primitive_edit.rs:44-65 *)
Definition remove_at_caret (cfg : Cfg) (caret : InputRowRange) (mode : CaretRemoveMode)
  : Res (option (list BasicEdit * MinPos)) :=
  if negb (rg_is_collapsed caret) then r <- remove_range caret ;; Ok (Some r) else
  match mode with
  | RemoveLeft => remove_at_caret_position cfg (rg_start_position caret) HLeft
  | RemoveRight => remove_at_caret_position cfg (rg_start_position caret) HRight
  | RemoveRange => r <- remove_range caret ;; Ok (Some r)
  end.

(** ** primitive/caret_edit.rs; [UndoAction] has a single constructor and is
    modelled by its content *)

(** caret_edit.rs:21-25 *)
Record CaretEdit := mkCaretEdit {
  ce_before : MinimalCaret; ce_after : MinimalCaret; ce_edits : list BasicEdit }.
(** caret_edit.rs:36-42 *)
Definition caret_edit_inverse (e : CaretEdit) : CaretEdit :=
  mkCaretEdit (ce_after e) (ce_before e) (map edit_inverse (rev (ce_edits e))).

(** ** undo_redo_manager.rs; the top of a stack is the head of the list *)

(** undo_redo_manager.rs:3-19 *)
Record UndoRedoManager (T : Type) := mkUndo { undo_stack : list T; redo_stack : list T }.
Arguments mkUndo {T}.
(** undo_redo_manager.rs:28-33 *)
Definition undo_new {T} : UndoRedoManager T := mkUndo [] [].
(** undo_redo_manager.rs:36-39 *)
Definition undo_push {T} (m : UndoRedoManager T) (action : T) : UndoRedoManager T :=
  mkUndo (action :: undo_stack m) [].
(** undo_redo_manager.rs:42-47 *)
Definition undo_undo {T} (inverse : T -> T) (m : UndoRedoManager T) : UndoRedoManager T * option T :=
  match undo_stack m with
  | [] => (m, None)
  | action :: rest => (mkUndo rest (action :: redo_stack m), Some (inverse action))
  end.
(** undo_redo_manager.rs:50-54 *)
Definition undo_redo {T} (m : UndoRedoManager T) : UndoRedoManager T * option T :=
  match redo_stack m with
  | [] => (m, None)
  | action :: rest => (mkUndo (action :: undo_stack m) rest, Some action)
  end.
(** undo_redo_manager.rs:56-62 *)
Definition can_undo {T} (m : UndoRedoManager T) : bool := match undo_stack m with [] => false | _ => true end.
(** undo_redo_manager.rs:60-62 *)
Definition can_redo {T} (m : UndoRedoManager T) : bool := match redo_stack m with [] => false | _ => true end.
