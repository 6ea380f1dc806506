(** Operations with and without rules (C16, C98). *)
From Coq Require Import String.
From Verif Require Import Base Str Grid Node Focus Edit Caret Autocomplete Editor Rules Spec SpecAuto SpecMove SpecEditor SpecPlain BaseFacts
  EditorFacts HistoryFacts OpFacts SpliceFacts TypingFacts PlainFacts Samples PropsAuto PropsEditor.
Open Scope list_scope.
Open Scope nat_scope.

(** * C98: rules only ever add one replacement *)
(** Every operation but those on the list of suggestions does what it does without rules: it has the same result and puts the caret at the same
    place. Then at most one range is replaced by the result of a rule, in an undo step of its own. *)
Theorem C98_rules : forall (SyntaxNode : Type) (env : Env SyntaxNode) ed op ed' out, of_popup op = false -> step env ed op = Ok (ed', out) ->
  exists ed0, step (without_rules env) ed op = Ok (ed0, out) /\ ed_caret ed' = ed_caret ed0 /\ ed_selection_mode ed' = ed_selection_mode ed0 /\
  (same_but_rule ed' ed0 \/ exists rule r, In rule (env_rules env) /\ nodes_replaced (ed_input ed0) (mr_row r) (lo r) (hi r) (rule_result rule) (ed_input ed') /\
    recorded_steps ed0 ed' = 1 /\ exists ed2, undo env ed' = Ok (ed2, true) /\ ed_input ed2 = ed_input ed0 /\ ed_caret ed2 = ed_caret ed0).
Proof.
  intros SyntaxNode env ed op ed' out Hop H. destruct (plain_step Hop H) as (ed0&H0&[[x ->]|(a&x&r&Ha&Hs)]); exists ed0; (split; [exact H0|]).
  - repeat split. left. repeat split.
  - pose proof (splice_result Hs) as (Hrep&Hc&Hm&_). destruct (splice_advanced Hs) as (ce&A&Hb&_). split; [exact Hc|]. split; [exact Hm|]. right. exists (ac_rule a), r. split; [exact Ha|]. split; [exact Hrep|].
    destruct (advanced_undo A) as (ed2&Hu&Hi&Hca). split; [|exists ed2; split; [exact Hu|]; split; [exact Hi|now rewrite Hca, Hb]]. exact (advanced_recorded A).
Qed.
Print Assumptions C98_rules.
(** Right out of "sum" in "xxxsum+": without rules only the caret moves; with them there is a sign for sums afterwards. *)
Example C98_case : exists ed ed' ed0, reachable (default_env debug_profile) ed /\ step (default_env debug_profile) ed (OpMoveCaret DRight MChar) = Ok (ed', OutNone _) /\
  step (without_rules (default_env debug_profile)) ed (OpMoveCaret DRight MChar) = Ok (ed0, OutNone _) /\ ed_input ed0 = typed "xxxsum+" /\ ed_input ed' = typed "xxx" ++ [Symbol [8721%N]] ++ typed "+" /\
  ed_caret ed' = collapsed (here 7).
Proof.
  do 3 eexists. split; [exists (type_text "+" ++ [OpMoveCaret DLeft MChar] ++ type_text "xxxsum"); vm_compute; reflexivity|]. split; [vm_compute; reflexivity|]. split; [vm_compute; reflexivity|].
  split; [vm_compute; reflexivity|]. split; vm_compute; reflexivity.
Qed.

(** * C16: exactly which caret undo restores *)
Lemma nothing_pending (SyntaxNode : Type) (env : Env SyntaxNode) ed : ~ autocorrect_pending (without_rules env) ed.
Proof.
  intros (ed'&r&m&H&_). destruct (plain_popup H) as (x&E). change (without_rules (without_rules env)) with (without_rules env) in E. congruence.
Qed.
(** The one from before the operation, if the operation itself changed the document; otherwise the one that it has moved the caret to. *)
Theorem C16_exact : forall (SyntaxNode : Type) (env : Env SyntaxNode) ed op ed' out, step env ed op = Ok (ed', out) -> is_undo_redo op = false -> of_popup op = false ->
  recorded_steps ed ed' > 0 -> exists ed0 ed2, step (without_rules env) ed op = Ok (ed0, out) /\ undo_times env (recorded_steps ed ed') ed' = Ok ed2 /\
  ed_input ed2 = ed_input ed /\ ed_caret ed2 = if recorded_steps ed ed0 =? 0 then ed_caret ed0 else ed_caret ed.
Proof.
  intros SyntaxNode env ed op ed' out H Hop Hpop Hn. destruct (plain_step Hpop H) as (ed0&H0&F).
  assert (Hst : op <> OpGetSyntaxTree) by (intros ->; cbn [step] in H; apply bind_ok in H as ([e t]&Ht&H); inv H; apply parse_step in Ht as (p&->); unfold recorded_steps in Hn; cbn in Hn; lia).
  destruct (@step_advanced _ (without_rules env) _ _ _ _ H0 Hop Hst) as (ces&A&_&_&Hf). specialize (Hf (or_introl (nothing_pending _ env ed))).
  assert (B : advanced env ed ces ed0) by (destruct A as [A1 A2 A3 A4]; split; assumption). exists ed0. rewrite (advanced_recorded B).
  destruct F as [[x ->]|(a&x&r&Ha&Hs)].
  - assert (C : advanced env ed ces (set_autocomplete ed0 x)) by (destruct B as [A1 A2 A3 A4]; split; assumption). rewrite (advanced_recorded C) in *.
    destruct (undo_times_spec (adv_committed C) (adv_undo C)) as (ed2&H1&H2&H3&H4). exists ed2. split; [exact H0|]. split; [exact H1|]. split; [exact H2|]. destruct ces as [|c ces]; cbn in *; [lia|]. congruence.
  - destruct (splice_advanced Hs) as (ce&A'&Hb&_). assert (C : advanced env ed (ces ++ [ce]) ed') by (eapply advanced_trans; [exact B|]; destruct A' as [A1 A2 A3 A4]; split; assumption). rewrite (advanced_recorded C) in *.
    destruct (undo_times_spec (adv_committed C) (adv_undo C)) as (ed2&H1&H2&H3&H4). exists ed2. split; [exact H0|]. split; [exact H1|]. split; [exact H2|]. destruct ces as [|c ces]; cbn [app length Nat.eqb first_before] in *; [rewrite H4; exact Hb|congruence].
Qed.
Print Assumptions C16_exact.

(** * C40: exactly which operations write to the history without changing anything *)
Theorem C40_exact : forall (SyntaxNode : Type) (env : Env SyntaxNode) ed op ed' out, ~ autocorrect_pending env ed -> is_undo_redo op = false ->
  step env ed op = Ok (ed', out) -> ed_input ed' = ed_input ed -> (ed_undo ed' = ed_undo ed <-> ~ writes_always op out).
Proof. exact @unchanged_iff. Qed.
Print Assumptions C40_exact.
(** Delete in front of a fraction, and inserting nothing there *)
Example C40_exact_case : let ed := editor_with sample (here 1) in ~ autocorrect_pending (default_env debug_profile) ed /\
  (exists ed' out, step (default_env debug_profile) ed (OpRemoveAtCaret RemoveRight) = Ok (ed', out) /\ ed_input ed' = ed_input ed /\ ~ writes_always (OpRemoveAtCaret RemoveRight) out) /\
  (exists ed' out, step (default_env debug_profile) ed (OpInsertAtCaret []) = Ok (ed', out) /\ ed_input ed' = ed_input ed /\ writes_always (OpInsertAtCaret []) out).
Proof.
  cbv zeta. split; [intros (e&r&m&H&_); vm_compute in H; discriminate|]. split; (do 2 eexists; split; [vm_compute; reflexivity|]; split; [vm_compute; reflexivity|]); [intros []|exact I].
Qed.

(** * C13: typing works exactly if the matcher does *)
Theorem C13_exact : forall (SyntaxNode : Type) (env : Env SyntaxNode) ed m vs, wf_row (ed_input ed) -> get_caret ed = Ok (MSelRow m) ->
  ((exists x, step env ed (OpInsertAtCaret vs) = Ok x) <-> exists x, get_autocomplete env ed = Ok x).
Proof.
  intros SyntaxNode env ed m vs Hwf Hc. split.
  - intros (x&H). cbn [step] in H. apply bind_ok in H as (ed1&H&_). unfold insert_at_caret in H. apply bind_ok in H as ([ed2 a]&H&_).
    unfold start_autocorrect in H. apply bind_ok in H as (y&H&_). now exists y.
  - intros H. destruct (C13_typing_partial _ env ed m vs Hwf Hc H) as (ed'&H'&_). eexists. exact H'.
Qed.
Print Assumptions C13_exact.
(** Both sides hold next to "sum", and neither behind an empty symbol. *)
Example C13_exact_case : (exists x, get_autocomplete (default_env debug_profile) (editor_with (typed "sum") (here 3)) = Ok x) /\
  get_caret (editor_with [Symbol []] (here 1)) = Ok (MSelRow (mkMinRange [] 1 1)) /\ exists k, get_autocomplete (default_env debug_profile) (editor_with [Symbol []] (here 1)) = Panic k.
Proof. split; [eexists; vm_compute; reflexivity|]. split; [reflexivity|]. eexists. vm_compute. reflexivity. Qed.

(** * C14: Backspace and Delete in full *)
(** Without rules they remove exactly the symbol, or keep all symbols; rules at most replace one range in a second undo step. *)
Theorem C14_exact : forall (SyntaxNode : Type) (env : Env SyntaxNode) ed q mode d ed' out,
  wf_row (ed_input ed) -> valid_pos (ed_input ed) q -> ed_caret ed = collapsed q -> remove_dir mode = Some d ->
  step env ed (OpRemoveAtCaret mode) = Ok (ed', out) -> exists ed0,
  (symbol_removed (ed_input ed) q d (ed_input ed0) \/
   (row_symbols (ed_input ed0) = row_symbols (ed_input ed) /\
    (ed_input ed0 = ed_input ed \/ exists path i content, unwrapped (ed_input ed) q path i content (ed_input ed0)))) /\
  ed_caret ed' = ed_caret ed0 /\
  (same_but_rule ed' ed0 \/ exists rule r, In rule (env_rules env) /\ nodes_replaced (ed_input ed0) (mr_row r) (lo r) (hi r) (rule_result rule) (ed_input ed') /\
    recorded_steps ed0 ed' = 1).
Proof.
  intros SyntaxNode env ed q mode d ed' out Hwf Hq Hc Hd H. destruct (C98_rules _ env ed (OpRemoveAtCaret mode) ed' out eq_refl H) as (ed0&H0&Hk&_&S). exists ed0. split; [|split; [exact Hk|]].
  - exact (C14_remove_partial _ (without_rules env) ed q mode d ed0 out Hwf Hq Hc Hd (or_introl (nothing_pending _ env ed)) H0).
  - destruct S as [S|(rule&r&H1&H2&H3&_)]; [now left|right]. exists rule, r. split; [exact H1|]. split; [exact H2|exact H3].
Qed.
Print Assumptions C14_exact.
(** Delete between "xxxsum" and a fraction within a fraction *)
Example C14_exact_case : let q := mkMinPos [(0, 0)] 6 in let ed := editor_with [fraction (typed "xxxsum" ++ [fraction (typed "a") (typed "b")]) []] q in
  wf_row (ed_input ed) /\ valid_pos (ed_input ed) q /\ autocorrect_pending (default_env debug_profile) ed /\
  exists ed' out, step (default_env debug_profile) ed (OpRemoveAtCaret RemoveRight) = Ok (ed', out) /\ ed_input ed' <> ed_input ed.
Proof.
  cbv zeta. split; [apply wf_rowb_ok; vm_compute; reflexivity|]. split; [eexists; split; [vm_compute; reflexivity|vm_compute; lia]|].
  split; [unfold autocorrect_pending; do 3 eexists; split; [vm_compute; reflexivity|]; vm_compute; split; reflexivity|].
  do 2 eexists. split; [vm_compute; reflexivity|]. intros E. apply (f_equal (fun d => List.length (row_symbols d))) in E. vm_compute in E. discriminate E.
Qed.
