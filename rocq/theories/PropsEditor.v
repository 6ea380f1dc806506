(** Properties of the editor's operations and its history (C13-C18, C21, C27, C28,
    C40-C42, C44, C45). *)
From Coq Require Import String.
From Verif Require Import Base Str Grid Node Focus Edit Caret Autocomplete Editor Rules Spec SpecAuto SpecMove SpecEditor BaseFacts
  EditorFacts HistoryFacts OpFacts SpliceFacts TypingFacts Samples PropsAuto.
Open Scope list_scope.
Open Scope nat_scope.

(** An editor with the default rules in both build profiles. *)
Definition default_env (cfg : Cfg) : Env unit := mkEnv cfg default_rules (fun _ => Ok tt) (fun _ => []) (fun _ => None).
(** Typing a text character by character. *)
Definition type_text (s : string) : list Op := map (fun c => OpInsertAtCaret [[c]]) (lit s).
Ltac both_profiles := match goal with cfg : Cfg |- _ => destruct cfg as [[]] end.

(** * C13: typing *)
(** Everything but the lack of panics in the matcher, which looks at the symbol before
    a collapsed caret (see [C25_refuted]). *)
Theorem C13_typing_partial : forall (SyntaxNode : Type) (env : Env SyntaxNode) ed m vs,
  wf_row (ed_input ed) -> get_caret ed = Ok (MSelRow m) -> (exists x, get_autocomplete env ed = Ok x) ->
  exists ed', step env ed (OpInsertAtCaret vs) = Ok (ed', OutNone _) /\
    nodes_replaced (ed_input ed) (mr_row m) (Nat.min (mr_start m) (mr_end m)) (Nat.max (mr_start m) (mr_end m))
      (map Symbol vs) (ed_input ed') /\
    ed_caret ed' = collapsed (mkMinPos (mr_row m) (Nat.min (mr_start m) (mr_end m) + length vs)).
Proof. exact @typing_total. Qed.
Print Assumptions C13_typing_partial.
(** The matcher is not asked if something is selected. *)
Theorem C13_selection_asks_no_matcher : forall (SyntaxNode : Type) (env : Env SyntaxNode) ed m,
  get_caret ed = Ok (MSelRow m) -> mr_start m <> mr_end m -> get_autocomplete env ed = Ok (ed, None).
Proof. exact @not_collapsed_autocomplete. Qed.
Print Assumptions C13_selection_asks_no_matcher.
(** After an empty symbol has been inserted, typing panics. *)
Theorem C13_refuted : forall cfg, exists ed, run (default_env cfg) (editor_new _) [OpInsertAtCaret [[]]] = Ok ed /\
  get_caret ed = Ok (MSelRow (mkMinRange [] 1 1)) /\
  exists k, step (default_env cfg) ed (OpInsertAtCaret [lit "a"]) = Panic k.
Proof.
  intros cfg. both_profiles; (eexists; split; [vm_compute; reflexivity|]; split; [vm_compute; reflexivity|]; eexists; vm_compute; reflexivity).
Qed.
Print Assumptions C13_refuted.

(** Typing "x" over the selected fraction, and next to the completely typed "sum". *)
Example C13_case : let ed := mkEditor (SyntaxNode := unit) sample None (mkMinCaret (here 0) (mkMinPos [(1, 0)] 2)) None None undo_new in
  wf_row (ed_input ed) /\ get_caret ed = Ok (MSelRow (mkMinRange [] 0 2)) /\
  get_autocomplete (default_env debug_profile) ed = Ok (ed, None).
Proof. cbv zeta. split; [exact sample_wf|]. split; vm_compute; reflexivity. Qed.
Example C13_case_pending : let ed := editor_with (typed "xxxsum") (here 6) in
  get_caret ed = Ok (MSelRow (mkMinRange [] 6 6)) /\ autocorrect_pending (default_env debug_profile) ed.
Proof.
  cbv zeta. split; [vm_compute; reflexivity|]. do 3 eexists. split; [vm_compute; reflexivity|]. split; vm_compute; reflexivity.
Qed.

(** * C14: Backspace and Delete *)
(** Missing: Delete with a completely typed token in front of the caret and something
    other than a symbol behind it. *)
Theorem C14_remove_partial : forall (SyntaxNode : Type) (env : Env SyntaxNode) ed q mode d ed' out,
  wf_row (ed_input ed) -> valid_pos (ed_input ed) q -> ed_caret ed = collapsed q -> remove_dir mode = Some d ->
  ~ autocorrect_pending env ed \/ d = HLeft \/ (exists s, node_get (ed_input ed) (mp_row q) (mp_offset q) = Some (Symbol s)) ->
  step env ed (OpRemoveAtCaret mode) = Ok (ed', out) ->
  symbol_removed (ed_input ed) q d (ed_input ed') \/
  (row_symbols (ed_input ed') = row_symbols (ed_input ed) /\
   (ed_input ed' = ed_input ed \/ exists path i content, unwrapped (ed_input ed) q path i content (ed_input ed'))).
Proof. exact @remove_effect_any. Qed.
Print Assumptions C14_remove_partial.
(** Next to a symbol, exactly this symbol is removed. *)
Theorem C14_symbol_removed : forall (SyntaxNode : Type) (env : Env SyntaxNode) ed q mode d i s,
  wf_row (ed_input ed) -> ed_caret ed = collapsed q -> (exists x, get_autocomplete env ed = Ok x) ->
  remove_dir mode = Some d -> match d with HLeft => mp_offset q = S i | HRight => mp_offset q = i end ->
  node_get (ed_input ed) (mp_row q) i = Some (Symbol s) ->
  exists ed', step env ed (OpRemoveAtCaret mode) = Ok (ed', OutNone _) /\
    nodes_replaced (ed_input ed) (mp_row q) i (S i) [] (ed_input ed') /\ ed_caret ed' = collapsed (mkMinPos (mp_row q) i).
Proof. exact @symbol_remove. Qed.
Print Assumptions C14_symbol_removed.
(** Delete between "xxxsum" and a fraction moves into the fraction and thereby
    autocorrects "sum": three symbols are lost. *)
Theorem C14_refuted : forall cfg, exists ed q ed' out,
  wf_row (ed_input ed) /\ valid_pos (ed_input ed) q /\ ed_caret ed = collapsed q /\
  step (default_env cfg) ed (OpRemoveAtCaret RemoveRight) = Ok (ed', out) /\
  length (row_symbols (ed_input ed)) = 8 /\ length (row_symbols (ed_input ed')) = 6.
Proof.
  intros cfg. exists (editor_with [fraction (typed "xxxsum" ++ [fraction (typed "a") (typed "b")]) []] (mkMinPos [(0, 0)] 6)).
  exists (mkMinPos [(0, 0)] 6). do 2 eexists. split; [apply wf_rowb_ok; vm_compute; reflexivity|].
  split; [eexists; split; [vm_compute; reflexivity|vm_compute; lia]|]. split; [reflexivity|].
  split; [both_profiles; vm_compute; reflexivity|]. split; vm_compute; reflexivity.
Qed.
Print Assumptions C14_refuted.

(** Backspace at the start of a superscript unwraps it. *)
Example C14_case : let ed := editor_with sample (mkMinPos [(1, 0); (2, 0)] 0) in exists ed' out,
  wf_row (ed_input ed) /\ valid_pos (ed_input ed) (mkMinPos [(1, 0); (2, 0)] 0) /\
  ~ autocorrect_pending (default_env debug_profile) ed /\
  step (default_env debug_profile) ed (OpRemoveAtCaret RemoveLeft) = Ok (ed', out) /\
  row_get (ed_input ed') [(1, 0)] = Some [sym "b"; sym "c"; sym "2"].
Proof.
  cbv zeta. do 2 eexists. split; [exact sample_wf|]. split; [eexists; split; [vm_compute; reflexivity|vm_compute; lia]|].
  split; [intros (e&r&m&H&_); vm_compute in H; discriminate|]. split; vm_compute; reflexivity.
Qed.

(** * C15: deleting a selection *)
Theorem C15_remove_selection : forall (SyntaxNode : Type) (env : Env SyntaxNode) ed m mode,
  get_caret ed = Ok (MSelRow m) -> mr_start m <> mr_end m ->
  exists ed', step env ed (OpRemoveAtCaret mode) = Ok (ed', OutNone _) /\
    nodes_replaced (ed_input ed) (mr_row m) (Nat.min (mr_start m) (mr_end m)) (Nat.max (mr_start m) (mr_end m)) [] (ed_input ed') /\
    ed_caret ed' = collapsed (mkMinPos (mr_row m) (Nat.min (mr_start m) (mr_end m))).
Proof. exact @remove_selection. Qed.
Print Assumptions C15_remove_selection.
(** A backwards selection ending within a fraction covers the whole fraction. *)
Example C15_case : let ed := mkEditor (SyntaxNode := unit) sample None (mkMinCaret (here 3) (mkMinPos [(1, 0)] 2)) None None undo_new in
  get_caret ed = Ok (MSelRow (mkMinRange [] 3 1)) /\ exists ed',
  step (default_env debug_profile) ed (OpRemoveAtCaret RemoveRange) = Ok (ed', OutNone _) /\ ed_input ed' = [sym "a"].
Proof. cbv zeta. split; [vm_compute; reflexivity|]. eexists. split; vm_compute; reflexivity. Qed.

(** * C16: undo restores the state before an action *)
(** Document and history always; the caret except for an operation that only moves
    the caret and thereby autocorrects. *)
Theorem C16_undo_restores_partial : forall (SyntaxNode : Type) (env : Env SyntaxNode) ed op ed' out,
  step env ed op = Ok (ed', out) -> is_undo_redo op = false ->
  appends op (recorded_steps ed ed') /\
  exists ed2, undo_times env (recorded_steps ed ed') ed' = Ok ed2 /\ ed_input ed2 = ed_input ed /\
    undo_stack (ed_undo ed2) = undo_stack (ed_undo ed) /\
    (recorded_steps ed ed' > 0 ->
     ~ autocorrect_pending env ed \/ recorded_steps ed ed' = 2 \/ is_direct op = true -> ed_caret ed2 = ed_caret ed).
Proof. exact @undo_restores. Qed.
Print Assumptions C16_undo_restores_partial.
(** Right out of "sum" in "xxxsum+": undo brings back the text but not the caret. *)
Theorem C16_refuted : forall cfg, exists ed ed' out ed2,
  reachable (default_env cfg) ed /\ step (default_env cfg) ed (OpMoveCaret DRight MChar) = Ok (ed', out) /\
  recorded_steps ed ed' = 1 /\ undo_times (default_env cfg) 1 ed' = Ok ed2 /\
  ed_caret ed = collapsed (here 6) /\ ed_caret ed2 = collapsed (here 7).
Proof.
  intros cfg. both_profiles; (eexists; do 3 eexists;
    split; [exists (type_text "+" ++ [OpMoveCaret DLeft MChar] ++ type_text "xxxsum"); vm_compute; reflexivity|];
    split; [vm_compute; reflexivity|]; split; [vm_compute; reflexivity|]; split; [vm_compute; reflexivity|]; split; vm_compute; reflexivity).
Qed.
Print Assumptions C16_refuted.
(** Backspace over a selection records one step. *)
Example C16_case : let ed := mkEditor (SyntaxNode := unit) sample None (mkMinCaret (here 0) (mkMinPos [(1, 0)] 2)) None None undo_new in
  exists ed' out, step (default_env release_profile) ed (OpRemoveAtCaret RemoveLeft) = Ok (ed', out) /\ recorded_steps ed ed' = 1 /\
  ~ autocorrect_pending (default_env release_profile) ed /\ length (ed_input ed') = 1.
Proof.
  cbv zeta. do 2 eexists. split; [vm_compute; reflexivity|]. split; [vm_compute; reflexivity|].
  split; [intros (e&r&m&H&_); vm_compute in H; discriminate|]. vm_compute. reflexivity.
Qed.

(** * C17: undo and redo as a history of documents *)
Theorem C17_linear_history : forall (SyntaxNode : Type) (env : Env SyntaxNode) tr ed,
  traced env (@editor_new SyntaxNode) tr ed -> exists h, hist_trace empty_history tr h /\ present h = ed_input ed.
Proof. exact @history_trace. Qed.
Print Assumptions C17_linear_history.
Theorem C17_undo_redo_total : forall (SyntaxNode : Type) (env : Env SyntaxNode) ed, reachable env ed ->
  (exists ed' b, undo env ed = Ok (ed', b)) /\ (exists ed' b, redo env ed = Ok (ed', b)).
Proof. exact @undo_redo_total. Qed.
Print Assumptions C17_undo_redo_total.
Example C17_case : exists ed, traced (default_env debug_profile) (@editor_new unit)
  [(OpInsertAtCaret [lit "a"; lit "b"], OutNone _, [sym "a"; sym "b"]); (OpRemoveAtCaret RemoveLeft, OutNone _, [sym "a"]);
   (OpUndo, OutNone _, [sym "a"; sym "b"]); (OpRedo, OutNone _, [sym "a"]); (OpUndo, OutNone _, [sym "a"; sym "b"]);
   (OpUndo, OutNone _, []); (OpUndo, OutNo _, []); (OpRedo, OutNone _, [sym "a"; sym "b"])] ed.
Proof.
  eexists. repeat (eapply traced_cons with (ed1 := mkEditor _ _ _ _ _ _); [vm_compute; reflexivity|]). apply traced_nil.
Qed.

(** * C18: redo after undo *)
Theorem C18_undo_redo : forall (SyntaxNode : Type) (env : Env SyntaxNode) ed ed1, reachable env ed -> undo env ed = Ok (ed1, true) ->
  exists ed2, redo env ed1 = Ok (ed2, true) /\ ed_input ed2 = ed_input ed.
Proof. exact @undo_redo_same. Qed.
Print Assumptions C18_undo_redo.
Theorem C18_redo_undo : forall (SyntaxNode : Type) (env : Env SyntaxNode) ed ed1, reachable env ed -> redo env ed = Ok (ed1, true) ->
  exists ed2, undo env ed1 = Ok (ed2, true) /\ ed_input ed2 = ed_input ed.
Proof. exact @redo_undo_same. Qed.
Print Assumptions C18_redo_undo.
Theorem C18_undo_everything : forall (SyntaxNode : Type) (env : Env SyntaxNode) ed, reachable env ed ->
  exists n ed', undo_times env n ed = Ok ed' /\ undo env ed' = Ok (ed', false) /\ ed_input ed' = [].
Proof. exact @undo_everything. Qed.
Print Assumptions C18_undo_everything.
Theorem C18_nothing_to_undo : forall (SyntaxNode : Type) (env : Env SyntaxNode) ed ed', reachable env ed ->
  undo env ed = Ok (ed', false) -> ed_input ed = [] /\ ed' = ed.
Proof. exact @undo_at_root. Qed.
Print Assumptions C18_nothing_to_undo.
Example C18_case : exists ed ed1, reachable (default_env debug_profile) ed /\ undo (default_env debug_profile) ed = Ok (ed1, true) /\
  ed_input ed = typed "xy" /\ ed_input ed1 = typed "x".
Proof.
  do 2 eexists. split; [exists (type_text "xy"); vm_compute; reflexivity|]. split; [vm_compute; reflexivity|]. split; vm_compute; reflexivity.
Qed.

(** * C21: the syntax tree belongs to the document *)
Theorem C21_syntax_tree_current : forall (SyntaxNode : Type) (env : Env SyntaxNode) ed, reachable env ed ->
  match env_parse env (ed_input ed) with
  | Ok t => exists ed', get_syntax_tree env ed = Ok (ed', t) /\ ed_input ed' = ed_input ed
  | Panic k => get_syntax_tree env ed = Panic k
  end.
Proof. exact @syntax_tree_fresh. Qed.
Print Assumptions C21_syntax_tree_current.
(** An editor whose syntax trees are the documents themselves: after a cached parse and
    another edit, the tree is the new document. *)
Example C21_case : let env := mkEnv debug_profile default_rules (fun doc => Ok doc) (fun _ => []) (fun _ => None) in
  exists ed ed', reachable env ed /\ get_syntax_tree env ed = Ok (ed', typed "ab") /\
    run env (editor_new _) (type_text "a" ++ [OpGetSyntaxTree] ++ type_text "b") = Ok ed.
Proof.
  cbv zeta. do 2 eexists. split; [exists (type_text "a" ++ [OpGetSyntaxTree] ++ type_text "b"); vm_compute; reflexivity|].
  split; vm_compute; reflexivity.
Qed.

(** * C27: accepting a completion *)
(** All but the last claim: the caret stays where it was, which is a valid position
    only if the result is long enough. *)
Theorem C27_accept_completion_partial : forall (SyntaxNode : Type) (env : Env SyntaxNode) ed ed1 r m,
  wf_row (ed_input ed) -> get_autocomplete env ed = Ok (ed1, Some r) -> nth_error (ar_matches r) (ar_selected r) = Some m ->
  exists ed' ed2 q row syms, ed_caret ed = collapsed q /\ row_get (ed_input ed) (mp_row q) = Some row /\
    ends_in_symbols row (mp_offset q) syms /\ length syms = m_input_match_length m /\
    (exists rest, rule_parser (m_rule m) = concat syms ++ rest) /\
    step env ed (OpFinishAutocomplete true) = Ok (ed', OutNone _) /\
    nodes_replaced (ed_input ed) (mp_row q) (mp_offset q - length syms) (mp_offset q) (rule_result (m_rule m)) (ed_input ed') /\
    ed_caret ed' = collapsed q /\
    undo env ed' = Ok (ed2, true) /\ ed_input ed2 = ed_input ed /\ ed_caret ed2 = ed_caret ed /\
    (length syms <= length (rule_result (m_rule m)) -> valid_pos (ed_input ed') q) /\
    (length row + length (rule_result (m_rule m)) < length syms + mp_offset q -> ~ valid_pos (ed_input ed') q).
Proof. exact @accept_completion. Qed.
Print Assumptions C27_accept_completion_partial.
(** Typing "sum" and accepting the completion: the caret is behind the end of the row
    and the editor panics when asked for it. *)
Theorem C27_refuted : forall cfg, exists ed ed' out,
  run (default_env cfg) (editor_new _) (type_text "sum") = Ok ed /\
  step (default_env cfg) ed (OpFinishAutocomplete true) = Ok (ed', out) /\
  ed_input ed' = [Symbol [8721%N]] /\ ed_caret ed' = collapsed (here 3) /\ exists k, get_caret ed' = Panic k.
Proof.
  intros cfg. both_profiles; (do 3 eexists; split; [vm_compute; reflexivity|]; split; [vm_compute; reflexivity|];
    split; [vm_compute; reflexivity|]; split; [vm_compute; reflexivity|]; eexists; vm_compute; reflexivity).
Qed.
Print Assumptions C27_refuted.
Example C27_case : let ed := editor_with [sym "a"; fraction [sym "b"] (typed "xlim")] (mkMinPos [(1, 1)] 4) in
  exists ed1 r m, wf_row (ed_input ed) /\ get_autocomplete (default_env debug_profile) ed = Ok (ed1, Some r) /\
  nth_error (ar_matches r) (ar_selected r) = Some m /\ rule_parser (m_rule m) = lit "liminf" /\
  3 <= length (rule_result (m_rule m)).
Proof.
  cbv zeta. do 3 eexists. split; [apply wf_rowb_ok; vm_compute; reflexivity|]. split; [vm_compute; reflexivity|].
  split; [vm_compute; reflexivity|]. split; [vm_compute; reflexivity|]. vm_compute. lia.
Qed.

(** * C28: leaving a completely typed token *)
(** What happens in all cases: with the token of [n] symbols starting at offset [l],
    leaving it panics if [n < l], does nothing if [l < n], and corrects it if [l = n]
    (and the token is not in the root row with the new position in a nested one). *)
Theorem C28_leave_token_partial : forall (SyntaxNode : Type) (env : Env SyntaxNode) ed ed1 r m d c c' t,
  wf_row (ed_input ed) -> get_autocomplete env ed = Ok (ed1, Some r) ->
  nth_error (ar_matches r) (ar_selected r) = Some m -> is_complete_match m = true ->
  caret_from_minimal (ed_input ed) (ed_caret ed) = Ok c -> nav_move_caret (env_cfg env) (ed_input ed) c d MChar = Ok c' ->
  caret_to_minimal c' = collapsed t -> valid_pos (ed_input ed) t ->
  let n := m_input_match_length m in
  exists q, ed_caret ed = collapsed q /\ n <= mp_offset q /\
  (pos_in_range t (token q n) -> exists ed', step env ed (OpMoveCaret d MChar) = Ok (ed', OutNone _) /\
     ed_input ed' = ed_input ed /\ ed_caret ed' = collapsed t) /\
  (~ pos_in_range t (token q n) ->
   (n < mp_offset q - n -> exists k, step env ed (OpMoveCaret d MChar) = Panic k) /\
   (mp_offset q - n < n -> forall ed' out, step env ed (OpMoveCaret d MChar) = Ok (ed', out) -> ed_input ed' = ed_input ed) /\
   (n = mp_offset q - n -> mp_row q <> [] \/ mp_row t = [] -> exists ed', step env ed (OpMoveCaret d MChar) = Ok (ed', OutNone _) /\
     nodes_replaced (ed_input ed) (mp_row q) (mp_offset q - n) (mp_offset q) (rule_result (m_rule m)) (ed_input ed') /\
     ed_caret ed' = collapsed t)).
Proof. exact @leave_token. Qed.
Print Assumptions C28_leave_token_partial.
(** "sum" at the start of a row is not corrected. *)
Theorem C28_refuted : forall cfg, exists ed ed' out,
  autocorrect_pending (default_env cfg) ed /\ step (default_env cfg) ed (OpMoveCaret DRight MChar) = Ok (ed', out) /\
  ed_input ed = typed "sum+" /\ ed_input ed' = typed "sum+" /\ ed_caret ed = collapsed (here 3) /\ ed_caret ed' = collapsed (here 4).
Proof.
  intros cfg. exists (editor_with (typed "sum+") (here 3)). both_profiles; (do 2 eexists;
    split; [do 3 eexists; split; [vm_compute; reflexivity|]; split; vm_compute; reflexivity|];
    split; [vm_compute; reflexivity|]; split; [reflexivity|]; split; [vm_compute; reflexivity|]; split; vm_compute; reflexivity).
Qed.
Print Assumptions C28_refuted.
(** "sqrt" behind five symbols panics, and so does "sum" when a fraction follows. *)
Theorem C28_panics_refuted : forall cfg,
  (exists k, step (default_env cfg) (editor_with (typed "xxxxxsqrt+") (here 9)) (OpMoveCaret DRight MChar) = Panic k) /\
  (exists k, step (default_env cfg) (editor_with (typed "xxxsum" ++ [fraction [] []]) (here 6)) (OpMoveCaret DRight MChar) = Panic k).
Proof. intros cfg. both_profiles; (split; eexists; vm_compute; reflexivity). Qed.
Print Assumptions C28_panics_refuted.
(** "xx>=" in a numerator, moving down to the denominator: corrected. *)
Example C28_case : let ed := editor_with [fraction (typed "xx>=") []] (mkMinPos [(0, 0)] 4) in
  let env := default_env debug_profile in
  exists ed1 r m c c', wf_row (ed_input ed) /\ get_autocomplete env ed = Ok (ed1, Some r) /\
  nth_error (ar_matches r) (ar_selected r) = Some m /\ is_complete_match m = true /\
  caret_from_minimal (ed_input ed) (ed_caret ed) = Ok c /\ nav_move_caret debug_profile (ed_input ed) c DDown MChar = Ok c' /\
  caret_to_minimal c' = collapsed (mkMinPos [(0, 1)] 0) /\ valid_pos (ed_input ed) (mkMinPos [(0, 1)] 0) /\
  m_input_match_length m = 2 /\ ~ pos_in_range (mkMinPos [(0, 1)] 0) (token (mkMinPos [(0, 0)] 4) 2).
Proof.
  cbv zeta. do 5 eexists. split; [apply wf_rowb_ok; vm_compute; reflexivity|]. split; [vm_compute; reflexivity|].
  split; [vm_compute; reflexivity|]. split; [vm_compute; reflexivity|]. split; [vm_compute; reflexivity|]. split; [vm_compute; reflexivity|].
  split; [vm_compute; reflexivity|]. split; [eexists; split; [vm_compute; reflexivity|vm_compute; lia]|]. split; [vm_compute; reflexivity|].
  intros [_ [H|H]]; vm_compute in H; discriminate.
Qed.

(** * C40: operations that change nothing *)
(** Proved for all operations that do not replace nodes by equally many nodes. *)
Theorem C40_unchanged_partial : forall (SyntaxNode : Type) (env : Env SyntaxNode) ed op ed' out,
  ~ autocorrect_pending env ed -> resizes env ed op -> step env ed op = Ok (ed', out) -> ed_input ed' = ed_input ed ->
  ed_undo ed' = ed_undo ed.
Proof. exact @unchanged_same_undo. Qed.
Print Assumptions C40_unchanged_partial.
(** Inserting nothing discards what could be redone; so does removing an empty range. *)
Theorem C40_refuted : forall cfg op, In op [OpInsertAtCaret []; OpRemoveAtCaret RemoveRange] ->
  exists ed ed' out, reachable (default_env cfg) ed /\ step (default_env cfg) ed op = Ok (ed', out) /\
  ed_input ed' = ed_input ed /\ can_redo (ed_undo ed) = true /\ can_redo (ed_undo ed') = false /\
  can_undo (ed_undo ed) = false /\ can_undo (ed_undo ed') = true.
Proof.
  intros cfg op [<-|[<-|[]]]; both_profiles; (do 3 eexists; split; [exists (type_text "a" ++ [OpUndo]); vm_compute; reflexivity|];
    split; [vm_compute; reflexivity|]; repeat split; vm_compute; reflexivity).
Qed.
Print Assumptions C40_refuted.
(** Delete in front of a fraction. *)
Example C40_case : let ed := editor_with sample (here 1) in exists ed' out,
  step (default_env debug_profile) ed (OpRemoveAtCaret RemoveRight) = Ok (ed', out) /\ ed_input ed' = ed_input ed /\
  ed_caret ed' = collapsed (mkMinPos [(1, 0)] 0) /\ ~ autocorrect_pending (default_env debug_profile) ed /\
  resizes (default_env debug_profile) ed (OpRemoveAtCaret RemoveRight).
Proof.
  cbv zeta. do 2 eexists. split; [vm_compute; reflexivity|]. split; [vm_compute; reflexivity|]. split; [vm_compute; reflexivity|].
  split; [intros (e&r&m&H&_); vm_compute in H; discriminate|]. exact I.
Qed.

(** * C41: moving and selecting *)
Theorem C41_passive : forall (SyntaxNode : Type) (env : Env SyntaxNode) ed op ed' out,
  is_passive op = true -> ~ autocorrect_pending env ed -> step env ed op = Ok (ed', out) ->
  ed_input ed' = ed_input ed /\ ed_undo ed' = ed_undo ed.
Proof. exact @passive_same. Qed.
Print Assumptions C41_passive.
Example C41_case : let ed := editor_with sample (here 1) in exists ed' out,
  step (default_env debug_profile) ed (OpSelectWithCaret DRight MChar) = Ok (ed', out) /\
  ~ autocorrect_pending (default_env debug_profile) ed /\ ed_caret ed' = mkMinCaret (here 1) (mkMinPos [(1, 0)] 0).
Proof.
  cbv zeta. do 2 eexists. split; [vm_compute; reflexivity|]. split; [|vm_compute; reflexivity].
  intros (e&r&m&H&_). vm_compute in H. discriminate.
Qed.

(** * C42: splicing *)
(** Proved unless the range is in the root row and the caret is not. *)
Theorem C42_splice_partial : forall (SyntaxNode : Type) (env : Env SyntaxNode) ed range vs,
  wf_row (ed_input ed) -> valid_range (ed_input ed) range ->
  mr_row range <> [] \/ (mp_row (mc_start (ed_caret ed)) = [] /\ mp_row (mc_end (ed_caret ed)) = []) ->
  exists ed' ed2, step env ed (OpSpliceAtRange range vs) = Ok (ed', OutNone _) /\
    nodes_replaced (ed_input ed) (mr_row range) (Nat.min (mr_start range) (mr_end range)) (Nat.max (mr_start range) (mr_end range))
      vs (ed_input ed') /\ ed_caret ed' = ed_caret ed /\
    undo env ed' = Ok (ed2, true) /\ ed_input ed2 = ed_input ed /\ ed_caret ed2 = ed_caret ed.
Proof. exact @splice_step. Qed.
Print Assumptions C42_splice_partial.
(** In all states: if it does not panic. *)
Theorem C42_splice_any_partial : forall (SyntaxNode : Type) (env : Env SyntaxNode) ed range vs ed' out,
  step env ed (OpSpliceAtRange range vs) = Ok (ed', out) ->
  nodes_replaced (ed_input ed) (mr_row range) (Nat.min (mr_start range) (mr_end range)) (Nat.max (mr_start range) (mr_end range))
    vs (ed_input ed') /\
  exists ed2, undo env ed' = Ok (ed2, true) /\ ed_input ed2 = ed_input ed /\ ed_caret ed2 = ed_caret ed.
Proof. exact @splice_step_any. Qed.
Print Assumptions C42_splice_any_partial.
(** With the caret in a numerator, splicing in the root row panics. *)
Theorem C42_refuted : forall cfg, exists ed range, wf_row (ed_input ed) /\ valid_range (ed_input ed) range /\
  ed_input ed = [sym "x"; fraction [] []] /\ ed_caret ed = collapsed (mkMinPos [(1, 0)] 0) /\ range = mkMinRange [] 0 1 /\
  exists k, step (default_env cfg) ed (OpSpliceAtRange range [sym "y"]) = Panic k.
Proof.
  intros cfg. exists (editor_with [sym "x"; fraction [] []] (mkMinPos [(1, 0)] 0)), (mkMinRange [] 0 1).
  split; [apply wf_rowb_ok; vm_compute; reflexivity|]. split; [eexists; split; [reflexivity|vm_compute; lia]|].
  repeat (split; [reflexivity|]). both_profiles; (eexists; vm_compute; reflexivity).
Qed.
Print Assumptions C42_refuted.
(** A backwards range in a table cell, with the caret elsewhere. *)
Example C42_case : let ed := editor_with sample (mkMinPos [(1, 0)] 2) in let range := mkMinRange [(1, 1); (0, 2)] 2 0 in
  wf_row (ed_input ed) /\ valid_range (ed_input ed) range /\ mr_row range <> [].
Proof. cbv zeta. split; [exact sample_wf|]. split; [eexists; split; [vm_compute; reflexivity|vm_compute; lia]|discriminate]. Qed.

(** * C44: Backspace at the start and Delete at the end of the document *)
(** Nothing happens in the release profile; with overflow checks it always panics. *)
Theorem C44_edge_partial : forall (SyntaxNode : Type) (env : Env SyntaxNode) ed mode d,
  ed_caret ed = collapsed (here (match d with HLeft => 0 | HRight => length (ed_input ed) end)) -> remove_dir mode = Some d ->
  (exists x, get_autocomplete env ed = Ok x) ->
  if overflow_checks (env_cfg env) then step env ed (OpRemoveAtCaret mode) = Panic POverflow
  else exists a, step env ed (OpRemoveAtCaret mode) = Ok (set_autocomplete ed a, OutNo _).
Proof. exact @edge_remove. Qed.
Print Assumptions C44_edge_partial.
Theorem C44_refuted : exists k,
  step (default_env debug_profile) (editor_new _) (OpRemoveAtCaret RemoveLeft) = Panic k /\
  step (default_env debug_profile) (editor_new _) (OpRemoveAtCaret RemoveRight) = Panic k.
Proof. eexists. split; vm_compute; reflexivity. Qed.
Print Assumptions C44_refuted.
Example C44_case : let ed := editor_with sample (here 3) in
  ed_caret ed = collapsed (here (length (ed_input ed))) /\ exists x, get_autocomplete (default_env release_profile) ed = Ok x.
Proof. cbv zeta. split; [reflexivity|]. eexists. vm_compute. reflexivity. Qed.

(** * C45: the undo/redo manager *)
Theorem C45_stack_pair : forall T (inverse : T -> T) cs,
  let (m, rs) := calls (um_call inverse) undo_new cs in
  let (t, rs') := calls (tl_call inverse) (mkTimeline [] 0) cs in
  rs = rs' /\ can_undo m = (0 <? tl_cursor t) /\ can_redo m = (tl_cursor t <? length (tl_actions t)).
Proof. exact @um_timeline. Qed.
Print Assumptions C45_stack_pair.
Example C45_case : calls (tl_call (fun n => 100 - n)) (mkTimeline [] 0) [CPush 1; CPush 2; CUndo; CUndo; CUndo; CRedo; CPush 3; CRedo; CUndo] =
  (mkTimeline [1; 3] 1, [None; None; Some 98; Some 99; None; Some 1; None; None; Some 97]).
Proof. vm_compute. reflexivity. Qed.
(** The actions of the editor: the inverse goes from the caret after to the caret before with the inverse edits in reverse
    order, and the inverse of the inverse is the action itself. *)
Theorem C45_inverse : forall e, caret_edit_inverse (caret_edit_inverse e) = e /\ ce_before (caret_edit_inverse e) = ce_after e /\ ce_after (caret_edit_inverse e) = ce_before e.
Proof.
  intros [a b es]. split; [|split; reflexivity]. unfold caret_edit_inverse. cbn [ce_before ce_after ce_edits]. rewrite <- map_rev, rev_involutive, map_map. f_equal.
  rewrite <- (map_id es) at 2. apply map_ext. intros [[[] ? ?]|[[] ? ? ? ?]]; reflexivity.
Qed.
Print Assumptions C45_inverse.
