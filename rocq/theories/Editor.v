(** Model of caret/src/editor_action_builder.rs and caret/src/math_editor.rs: the
    editor as a state machine over its public operations. *)
From Verif Require Import Base Str Grid Node Focus Edit Caret Autocomplete.
Set Implicit Arguments.

Section Editor.
(** The syntax trees and the parser, the clipboard format and the rule set are
    parameters: [parse] is [MathParser::parse], [serialize]/[deserialize] are
    [serialize_input_nodes]/[deserialize_input_nodes] for [JsonInputTree]. *)
Variable SyntaxNode : Type.
(** What an editor gets from outside: caret/src/math_editor.rs:32-47 (the parser and its rules), serialization/src/lib.rs:28-56 *)
Record Env := mkEnv {
  env_cfg : Cfg;
  env_rules : list AutocompleteRule;
  env_parse : InputRow -> Res SyntaxNode;
  env_serialize : list InputNode -> str;
  env_deserialize : str -> option (list InputNode) }.
Variable env : Env.
Let cfg := env_cfg env.

(** math_editor.rs:32-47; [parser] is part of [env], [caret_mover] is empty *)
Record MathEditor := mkEditor {
  ed_input : InputRow;
  ed_parsed : option SyntaxNode;
  ed_caret : MinimalCaret;
  ed_selection_mode : option MoveMode;
  ed_autocomplete : option AutocompleteRule;
  ed_undo : UndoRedoManager CaretEdit }.

(** Model only: assignment to a field of caret/src/math_editor.rs:32-47 *)
Definition set_caret (ed : MathEditor) (c : MinimalCaret) : MathEditor :=
  mkEditor (ed_input ed) (ed_parsed ed) c (ed_selection_mode ed) (ed_autocomplete ed) (ed_undo ed).
(** Model only: assignment to a field of caret/src/math_editor.rs:32-47 *)
Definition set_autocomplete (ed : MathEditor) (a : option AutocompleteRule) : MathEditor :=
  mkEditor (ed_input ed) (ed_parsed ed) (ed_caret ed) (ed_selection_mode ed) a (ed_undo ed).
(** Model only: assignment to a field of caret/src/math_editor.rs:32-47 *)
Definition set_selection_mode (ed : MathEditor) (m : option MoveMode) : MathEditor :=
  mkEditor (ed_input ed) (ed_parsed ed) (ed_caret ed) m (ed_autocomplete ed) (ed_undo ed).
(** Model only: assignment to a field of caret/src/math_editor.rs:32-47 *)
Definition set_parsed (ed : MathEditor) (p : option SyntaxNode) : MathEditor :=
  mkEditor (ed_input ed) p (ed_caret ed) (ed_selection_mode ed) (ed_autocomplete ed) (ed_undo ed).

(** math_editor.rs:50-62 *)
Definition editor_new : MathEditor := mkEditor [] None default_caret None None undo_new.

(** editor_action_builder.rs:18-25, 39-53: a builder holds the editor, the caret
    at its creation, and the collected edits *)
Definition builder_finish (ed : MathEditor) (caret_before : MinimalCaret) (edits : list BasicEdit)
    (caret_after : MinimalCaret) : Res (MathEditor * CaretEdit) :=
  let edit := mkCaretEdit caret_before caret_after edits in
  match edits with
  | [] => Ok (set_caret ed caret_after, edit)
  | _ =>
      input <- tree_apply_edits cfg (ed_input ed) edits ;;
      Ok (mkEditor input None caret_after (ed_selection_mode ed) (ed_autocomplete ed)
            (undo_push (ed_undo ed) edit), edit)
  end.

(** math_editor.rs:336-349 *)
Definition get_autocomplete (ed : MathEditor) : Res (MathEditor * option AutocompleteResults) :=
  c <- caret_from_minimal (ed_input ed) (ed_caret ed) ;;
  match c_selection c with
  | SelRow range =>
      if rg_is_collapsed range then
        let position := rg_start_position range in
        ms <- rules_matches (env_rules env) (fr_row (pos_focus position)) (pos_offset position) 2 ;;
        ' (cur, res) <- state_get_autocomplete (ed_autocomplete ed) ms (pos_to_minimal position) ;;
        Ok (set_autocomplete ed cur, res)
      else Ok (ed, None)
  | SelGrid _ => Ok (ed, None)
  end.

(** math_editor.rs:286-290 *)
Definition start_autocorrect (ed : MathEditor) : Res (MathEditor * option AutocorrectAction) :=
  ' (ed, res) <- get_autocomplete ed ;;
  match res with
  | Some r => a <- results_start_autocorrect r ;; Ok (ed, a)
  | None => Ok (ed, None)
  end.

(** math_editor.rs:368-386 *)
Definition splice_at_range (ed : MathEditor) (range : MinRange) (values : list InputNode) : Res MathEditor :=
  let caret_before := ed_caret ed in
  r <- rg_from_minimal (from_root (ed_input ed)) range ;;
  ' (basic_edit, _) <- replace_range r values ;;
  s <- pos_apply_edits cfg (mc_start (ed_caret ed)) basic_edit ;;
  e <- pos_apply_edits cfg (mc_end (ed_caret ed)) basic_edit ;;
  ' (ed, _) <- builder_finish ed (ed_caret ed) basic_edit (mkMinCaret s e) ;;
  Ok (set_caret ed caret_before).

(** math_editor.rs:292-334 *)
Definition apply_autocorrect (ed : MathEditor) (a : option AutocorrectAction) : Res MathEditor :=
  match a with
  | None => Ok ed
  | Some a =>
      c <- caret_from_minimal (ed_input ed) (ed_caret ed) ;;
      match c_selection c with
      | SelGrid _ => Ok ed
      | SelRow range =>
          let caret_start_position := rg_start_position range in
          autocomplete_range <- rg_from_minimal (from_root (ed_input ed)) (ac_range a) ;;
          if rg_contains autocomplete_range caret_start_position then Ok ed else
          values <- rg_values autocomplete_range ;;
          ms <- rule_matches (ac_rule a) values (rg_left autocomplete_range) 1 ;;
          if negb (existsb is_complete_match ms) then Ok ed else
          splice_at_range ed (rg_to_minimal autocomplete_range) (rule_result (ac_rule a))
      end
  end.

(** The common ending [self.apply_autocorrect(autocorrect.finish(&action.edits))]. caret/src/math_editor.rs:133 and 168-169. *)
Definition finish_autocorrect (ed : MathEditor) (autocorrect : option AutocorrectAction)
    (action : CaretEdit) : Res MathEditor :=
  a <- autocorrect_finish cfg autocorrect (ce_edits action) ;;
  apply_autocorrect ed a.

(** math_editor.rs:73-81 *)
Definition move_caret (ed : MathEditor) (d : Direction) (mode : MoveMode) : Res MathEditor :=
  ' (ed, autocorrect) <- start_autocorrect ed ;;
  c <- caret_from_minimal (ed_input ed) (ed_caret ed) ;;
  c <- nav_move_caret cfg (ed_input ed) c d mode ;;
  ' (ed, action) <- builder_finish ed (ed_caret ed) [] (caret_to_minimal c) ;;
  finish_autocorrect ed autocorrect action.

(** math_editor.rs:82-106 *)
Definition select_with_caret (ed : MathEditor) (d : Direction) (mode : MoveMode) : Res (MathEditor * bool) :=
  ' (ed, autocorrect) <- start_autocorrect ed ;;
  c <- caret_from_minimal (ed_input ed) (ed_caret ed) ;;
  match c_selection c with
  | SelGrid _ => Panic PTodo
  | SelRow range =>
      new_end <- move_caret_range cfg (range_of_pos (rg_end_position range)) d mode ;;
      match new_end with
      | None => Ok (ed, false)
      | Some new_end =>
          ' (ed, action) <- builder_finish ed (ed_caret ed) []
                              (mkMinCaret (mc_start (ed_caret ed)) (pos_to_minimal new_end)) ;;
          ed <- finish_autocorrect ed autocorrect action ;;
          Ok (ed, true)
      end
  end.

(** math_editor.rs:107-134 *)
Definition editor_remove_at_caret (ed : MathEditor) (rm : CaretRemoveMode) : Res (MathEditor * bool) :=
  ' (ed, autocorrect) <- start_autocorrect ed ;;
  c <- caret_from_minimal (ed_input ed) (ed_caret ed) ;;
  match c_selection c with
  | SelGrid _ => Panic PTodo
  | SelRow range =>
      r <- remove_at_caret cfg range rm ;;
      match r with
      | None => Ok (ed, false)
      | Some (basic_edit, new_position) =>
          ' (ed, action) <- builder_finish ed (ed_caret ed) basic_edit
                              (mkMinCaret new_position new_position) ;;
          ed <- finish_autocorrect ed autocorrect action ;;
          Ok (ed, true)
      end
  end.

(** math_editor.rs:146-170 ([insert_at_range] always returns [Some]) *)
Definition insert_nodes_at_caret (ed : MathEditor) (values : list InputNode)
  : Res (MathEditor * option CaretEdit) :=
  c <- caret_from_minimal (ed_input ed) (ed_caret ed) ;;
  match c_selection c with
  | SelGrid _ => Panic PTodo
  | SelRow range =>
      r <- insert_at_range range values ;;
      match r with
      | None => Ok (ed, None)
      | Some (basic_edit, new_position) =>
          ' (ed, action) <- builder_finish ed (ed_caret ed) basic_edit
                              (mkMinCaret new_position new_position) ;;
          Ok (ed, Some action)
      end
  end.

(** math_editor.rs:138-145 *)
Definition insert_at_caret (ed : MathEditor) (values : list str) : Res MathEditor :=
  ' (ed, autocorrect) <- start_autocorrect ed ;;
  ' (ed, action) <- insert_nodes_at_caret ed (map Symbol values) ;;
  match action with
  | Some action => finish_autocorrect ed autocorrect action
  | None => Ok ed
  end.

(** math_editor.rs:171-182 *)
Definition select_all (ed : MathEditor) : MathEditor :=
  set_caret ed (mkMinCaret (mkMinPos [] 0) (mkMinPos [] (length (ed_input ed)))).

(** math_editor.rs:193-201 *)
Definition apply_action (ed : MathEditor) (a : CaretEdit) : Res MathEditor :=
  input <- tree_apply_edits cfg (ed_input ed) (ce_edits a) ;;
  Ok (mkEditor input None (ce_after a) (ed_selection_mode ed) (ed_autocomplete ed) (ed_undo ed)).

(** Model only: assignment to a field of caret/src/math_editor.rs:32-47 *)
Definition set_undo (ed : MathEditor) (u : UndoRedoManager CaretEdit) : MathEditor :=
  mkEditor (ed_input ed) (ed_parsed ed) (ed_caret ed) (ed_selection_mode ed) (ed_autocomplete ed) u.

(** math_editor.rs:183-187 *)
Definition undo (ed : MathEditor) : Res (MathEditor * bool) :=
  let (u, action) := undo_undo caret_edit_inverse (ed_undo ed) in
  match action with
  | None => Ok (ed, false)
  | Some action => ed <- apply_action (set_undo ed u) action ;; Ok (ed, true)
  end.

(** math_editor.rs:188-192 *)
Definition redo (ed : MathEditor) : Res (MathEditor * bool) :=
  let (u, action) := undo_redo (ed_undo ed) in
  match action with
  | None => Ok (ed, false)
  | Some action => ed <- apply_action (set_undo ed u) action ;; Ok (ed, true)
  end.

(** math_editor.rs:203-214 *)
Definition start_selection (ed : MathEditor) (p : MinPos) (mode : MoveMode) : Res MathEditor :=
  let ed := set_selection_mode ed (Some mode) in
  ' (ed, autocorrect) <- start_autocorrect ed ;;
  ' (ed, action) <- builder_finish ed (ed_caret ed) [] (mkMinCaret p p) ;;
  finish_autocorrect ed autocorrect action.

(** math_editor.rs:215-230 *)
Definition extend_selection (ed : MathEditor) (p : MinPos) : Res MathEditor :=
  ' (ed, autocorrect) <- start_autocorrect ed ;;
  ' (ed, action) <- builder_finish ed (ed_caret ed) [] (mkMinCaret (mc_start (ed_caret ed)) p) ;;
  finish_autocorrect ed autocorrect action.

(** math_editor.rs:231-233 *)
Definition finish_selection (ed : MathEditor) : MathEditor := set_selection_mode ed None.

(** math_editor.rs:235-249 *)
Definition copy (ed : MathEditor) : Res str :=
  c <- caret_from_minimal (ed_input ed) (ed_caret ed) ;;
  match c_selection c with
  | SelGrid _ => Panic PTodo
  | SelRow range => values <- rg_values range ;; Ok (env_serialize env values)
  end.

(** math_editor.rs:250-262 with serialization/src/lib.rs:41-56; [json = false] is
    [data_type = None], i.e. [todo!()].  Returns whether the result is [Ok]. *)
Definition paste (ed : MathEditor) (data : str) (json : bool) : Res (MathEditor * bool) :=
  ' (ed, autocorrect) <- start_autocorrect ed ;;
  if negb json then Panic PTodo else
  match env_deserialize env data with
  | None => Ok (ed, false)
  | Some nodes =>
      ' (ed, action) <- insert_nodes_at_caret ed nodes ;;
      match action with
      | Some action => ed <- finish_autocorrect ed autocorrect action ;; Ok (ed, true)
      | None => Ok (ed, true)
      end
  end.

(** math_editor.rs:264-266 *)
Definition open_autocomplete (ed : MathEditor) : Res (MathEditor * bool) :=
  ' (ed, r) <- get_autocomplete ed ;;
  Ok (ed, match r with Some _ => true | None => false end).

(** math_editor.rs:267-277 *)
Definition finish_autocomplete (ed : MathEditor) (accept : bool) : Res (MathEditor * bool) :=
  if negb accept then Ok (ed, false) else
  ' (ed, r) <- get_autocomplete ed ;;
  match r with
  | None => Ok (ed, false)
  | Some autocomplete =>
      selected <- get_selected autocomplete ;;
      let range := get_caret_range autocomplete selected in
      ed <- splice_at_range ed range (rule_result (m_rule selected)) ;;
      Ok (ed, true)
  end.

(** math_editor.rs:278-284 *)
Definition move_in_autocomplete (ed : MathEditor) (d : VerticalDirection) : Res (MathEditor * bool) :=
  ' (ed, r) <- get_autocomplete ed ;;
  match r with
  | None => Ok (ed, false)
  | Some autocomplete =>
      selected <- get_selected (move_selection autocomplete d) ;;
      Ok (set_autocomplete ed (Some (m_rule selected)), true)
  end.

(** math_editor.rs:350-353 *)
Definition get_caret (ed : MathEditor) : Res MinimalCaretSelection :=
  c <- caret_from_minimal (ed_input ed) (ed_caret ed) ;;
  Ok (sel_to_minimal (c_selection c)).

(** math_editor.rs:357-365 *)
Definition get_syntax_tree (ed : MathEditor) : Res (MathEditor * SyntaxNode) :=
  match ed_parsed ed with
  | Some r => Ok (ed, r)
  | None => r <- env_parse env (ed_input ed) ;; Ok (set_parsed ed (Some r), r)
  end.

(** The public operations (math_editor.rs:65-387; [focus] and [unfocus] do
    nothing) and what they return. *)
Inductive Op :=
| OpMoveCaret (d : Direction) (m : MoveMode)
| OpSelectWithCaret (d : Direction) (m : MoveMode)
| OpRemoveAtCaret (m : CaretRemoveMode)
| OpInsertAtCaret (values : list str)
| OpSelectAll
| OpUndo
| OpRedo
| OpStartSelection (p : MinPos) (m : MoveMode)
| OpExtendSelection (p : MinPos)
| OpFinishSelection
| OpCopy
| OpPaste (data : str) (json : bool)
| OpOpenAutocomplete
| OpFinishAutocomplete (accept : bool)
| OpMoveInAutocomplete (d : VerticalDirection)
| OpGetCaret
| OpGetSyntaxTree
| OpSpliceAtRange (r : MinRange) (values : list InputNode).

(** Model only: what an operation returns *)
Inductive Out :=
| OutNone                                (* no result, or [Some(())] / [Ok(())] *)
| OutNo                                  (* [None] or [Err(..)] *)
| OutText (s : str)
| OutCaret (c : MinimalCaretSelection)
| OutTree (t : SyntaxNode).

(** Model only *)
Definition out_opt (b : bool) : Out := if b then OutNone else OutNo.

(** caret/src/math_editor.rs:65-387: one call of an operation *)
Definition step (ed : MathEditor) (op : Op) : Res (MathEditor * Out) :=
  match op with
  | OpMoveCaret d m => ed <- move_caret ed d m ;; Ok (ed, OutNone)
  | OpSelectWithCaret d m => ' (ed, b) <- select_with_caret ed d m ;; Ok (ed, out_opt b)
  | OpRemoveAtCaret m => ' (ed, b) <- editor_remove_at_caret ed m ;; Ok (ed, out_opt b)
  | OpInsertAtCaret vs => ed <- insert_at_caret ed vs ;; Ok (ed, OutNone)
  | OpSelectAll => Ok (select_all ed, OutNone)
  | OpUndo => ' (ed, b) <- undo ed ;; Ok (ed, out_opt b)
  | OpRedo => ' (ed, b) <- redo ed ;; Ok (ed, out_opt b)
  | OpStartSelection p m => ed <- start_selection ed p m ;; Ok (ed, OutNone)
  | OpExtendSelection p => ed <- extend_selection ed p ;; Ok (ed, OutNone)
  | OpFinishSelection => Ok (finish_selection ed, OutNone)
  | OpCopy => s <- copy ed ;; Ok (ed, OutText s)
  | OpPaste d j => ' (ed, b) <- paste ed d j ;; Ok (ed, out_opt b)
  | OpOpenAutocomplete => ' (ed, b) <- open_autocomplete ed ;; Ok (ed, out_opt b)
  | OpFinishAutocomplete a => ' (ed, b) <- finish_autocomplete ed a ;; Ok (ed, out_opt b)
  | OpMoveInAutocomplete d => ' (ed, b) <- move_in_autocomplete ed d ;; Ok (ed, out_opt b)
  | OpGetCaret => c <- get_caret ed ;; Ok (ed, OutCaret c)
  | OpGetSyntaxTree => ' (ed, t) <- get_syntax_tree ed ;; Ok (ed, OutTree t)
  | OpSpliceAtRange r vs => ed <- splice_at_range ed r vs ;; Ok (ed, OutNone)
  end.

(** Model only: several operations one after the other *)
Fixpoint run (ed : MathEditor) (ops : list Op) : Res MathEditor :=
  match ops with
  | [] => Ok ed
  | op :: ops => ' (ed, _) <- step ed op ;; run ed ops
  end.

End Editor.
