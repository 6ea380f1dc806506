(** When the editor keeps its caret and does not panic. *)
From Verif Require Import Base Str Grid Node Focus Edit Caret Autocomplete Editor Spec SpecAuto SpecMove SpecEditor.
Set Implicit Arguments.

(** Both ends of the caret are positions of the document. *)
Definition valid_caret (doc : InputRow) (c : MinimalCaret) : Prop := valid_pos doc (mc_start c) /\ valid_pos doc (mc_end c).
(** What a document is made of: symbols, and containers with their numbers of cells and columns. *)
Inductive Part := PartSymbol (s : str) | PartContainer (v : InputNodeVariant) (cells width : nat).
Fixpoint node_parts (n : InputNode) : list Part :=
  match n with
  | Symbol s => [PartSymbol s]
  | Container v (mkGrid cells w) => PartContainer v (length cells) w :: concat (map (fun cell => concat (map node_parts cell)) cells)
  end.
Definition row_parts (r : InputRow) : list Part := concat (map node_parts r).
(** Well-formed content whose parts satisfy [Q]. *)
Definition proper (Q : Part -> Prop) (doc : InputRow) : Prop := wf_row doc /\ forall x, In x (row_parts doc) -> Q x.
Definition any_part (x : Part) : Prop := True.
(** No symbol is an empty string. *)
Definition nonempty (x : Part) : Prop := match x with PartSymbol s => s <> [] | PartContainer _ _ _ => True end.

(** A position that is still there after the nodes in [range] have been replaced by
    [vs]: it is not within the row of the range at all, or directly in this row and
    not too far to the right. *)
Definition stays (doc : InputRow) (range : MinRange) (vs : list InputNode) (p : MinPos) : Prop :=
  ~ prefix (mr_row range) (mp_row p) \/
  (mp_row p = mr_row range /\
   forall row, row_get doc (mp_row p) = Some row -> mp_offset p + selected_nodes range <= length row + length vs).

Section WithSyntaxNode.
Variable SyntaxNode : Type.
Notation Editor := (MathEditor SyntaxNode).
Implicit Type env : Env SyntaxNode.

(** A completely typed token of [n] symbols in front of the caret with at least [n] nodes
    in front of it. *)
Definition token_due env (ed : Editor) : Prop :=
  exists ed' results m q, get_autocomplete env ed = Ok (ed', Some results) /\
    nth_error (ar_matches results) (ar_selected results) = Some m /\
    m_rule_match_length m = byte_len (rule_parser (m_rule m)) /\
    ed_caret ed = collapsed q /\ 2 * m_input_match_length m <= mp_offset q.

Definition row_selected (ed : Editor) : Prop := exists m, get_caret ed = Ok (MSelRow m).

(** The caller's side: positions and ranges of the document, proper content. *)
Definition proper_args (Q : Part -> Prop) env (ed : Editor) (op : Op) : Prop :=
  match op with
  | OpStartSelection p _ | OpExtendSelection p => valid_pos (ed_input ed) p
  | OpInsertAtCaret vs => forall s, In s vs -> Q (PartSymbol s)
  | OpPaste data _ => forall nodes, env_deserialize env data = Some nodes -> proper Q nodes
  | OpSpliceAtRange r vs => valid_range (ed_input ed) r /\ proper Q vs
  | _ => True
  end.

(** Not one of the known ways in which an operation leaves the caret behind. *)
Definition keeps_caret env (ed : Editor) (op : Op) : Prop :=
  match op with
  | OpMoveCaret _ _ | OpSelectWithCaret _ _ | OpStartSelection _ _ | OpExtendSelection _ => ~ token_due env ed
  | OpRemoveAtCaret RemoveRight => ~ autocorrect_pending env ed \/
      exists q s, ed_caret ed = collapsed q /\ node_get (ed_input ed) (mp_row q) (mp_offset q) = Some (Symbol s)
  | OpFinishAutocomplete true => forall ed' results m q, get_autocomplete env ed = Ok (ed', Some results) ->
      nth_error (ar_matches results) (ar_selected results) = Some m -> ed_caret ed = collapsed q ->
      stays (ed_input ed) (token q (m_input_match_length m)) (rule_result (m_rule m)) q
  | OpSpliceAtRange r vs =>
      stays (ed_input ed) r vs (mc_start (ed_caret ed)) /\ stays (ed_input ed) r vs (mc_end (ed_caret ed))
  | _ => True
  end.

(** Backspace at the start of the first cell of a container other than a script that is
    not completely empty: it only moves to the left. *)
Definition backspace_leaves (doc : InputRow) (q : MinPos) : Prop :=
  exists p i v g cell, mp_row q = p ++ [(i, 0)] /\ mp_offset q = 0 /\ node_get doc p i = Some (Container v g) /\
    v <> Sub /\ v <> Sup /\ In cell (gvalues g) /\ cell <> [].

(** Not one of the known panics: unfinished operations ([todo!()]), and subtractions that
    underflow when overflow checks are on. *)
Definition avoids_panic env (ed : Editor) (op : Op) : Prop :=
  match op with
  | OpMoveCaret d mode => mode = MChar /\
      (overflow_checks (env_cfg env) = true -> d = DLeft -> forall m, get_caret ed = Ok (MSelRow m) -> ~ at_cell_zero (range_left m))
  | OpSelectWithCaret d mode => mode = MChar /\ row_selected ed /\
      (overflow_checks (env_cfg env) = true -> d = DLeft -> forall m, get_caret ed = Ok (MSelRow m) ->
       ~ at_cell_zero (mkMinPos (mr_row m) (mr_end m)))
  | OpRemoveAtCaret mode => row_selected ed /\
      (overflow_checks (env_cfg env) = true -> forall q, ed_caret ed = collapsed q ->
       match remove_dir mode with
       | Some HLeft => q <> here 0 /\ ~ backspace_leaves (ed_input ed) q
       | Some HRight => q <> here (length (ed_input ed))
       | None => True
       end)
  | OpInsertAtCaret _ | OpCopy => row_selected ed
  | OpPaste _ json => json = true /\ row_selected ed
  | OpGetSyntaxTree => exists t, env_parse env (ed_input ed) = Ok t
  | _ => True
  end.

(** [P] holds before every operation of a run. *)
Fixpoint all_along env (P : Editor -> Op -> Prop) (ed : Editor) (ops : list Op) : Prop :=
  match ops with
  | [] => True
  | op :: ops => P ed op /\ forall ed' out, step env ed op = Ok (ed', out) -> all_along env P ed' ops
  end.
End WithSyntaxNode.
