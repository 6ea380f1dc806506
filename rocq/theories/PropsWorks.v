(** Exactly which operations panic (C20). *)
From Coq Require Import String.
From Verif Require Import Base Str Grid Node Focus Edit Caret Autocomplete Editor Rules Spec SpecAuto SpecMove SpecEditor SpecRemove SpecSafety SpecWorks BaseFacts
  TreeFacts OrderFacts EditFacts MoveFacts MoveProofs AutoFacts EditorFacts HistoryFacts OpFacts TypingFacts SafetyFacts SafetyProofs LeaveFacts
  Samples PropsAuto PropsEditor PropsSafety.
Open Scope list_scope.
Open Scope nat_scope.

Section Works.
Context {SyntaxNode : Type}.
Variable env : Env SyntaxNode.
Variable Q : Part -> Prop.
Hypothesis Hrules : forall rule, In rule (env_rules env) -> proper Q (rule_result rule).
Hypothesis Hascii : Forall ascii_rule (env_rules env).
Hypothesis Hnonempty : forall s, Q (PartSymbol s) -> s <> [].
Implicit Type ed : MathEditor SyntaxNode.

Lemma row_selected_dec ed : sound env Q ed -> row_selected ed \/ exists c g, caret_from_minimal (ed_input ed) (ed_caret ed) = Ok c /\ c_selection c = SelGrid g.
Proof.
  intros S. destruct (sound_caret S) as (c&Hc). destruct (c_selection c) as [r|g] eqn:Es; [|right; eauto]. left. eexists. eapply row_caret; eauto.
Qed.
Lemma grid_not_row ed c g : caret_from_minimal (ed_input ed) (ed_caret ed) = Ok c -> c_selection c = SelGrid g -> ~ row_selected ed.
Proof. intros Hc Hs (m&Hm). unfold get_caret in Hm. rewrite Hc in Hm. cbn [bind] in Hm. rewrite Hs in Hm. discriminate Hm. Qed.
Lemma leaves_keeps doc q : backspace_leaves doc q -> at_cell_zero q /\ forall p i k, ~ dissolves doc HLeft q p i k.
Proof.
  intros (p&i&v&g&cell&Hr&Ho&Hn&H1&H2&Hin&Hne). destruct q as [r o]. cbn in *. subst r o. split; [split; [reflexivity|exists p, i; reflexivity]|].
  intros p' i' k H. remember HLeft as d eqn:Ed. remember (mkMinPos (p ++ [(i, 0)]) 0) as q eqn:Eq.
  destruct H as [p1 i1 v1 g1 Hn1 Hv|p1 i1 j1 v1 g1 Hn1 Hv|p1 i1 v1 g1 c cells Hn1 Hv Hg|p1 i1 v1 g1 c cells Hn1 Hv Hg|p1 i1 v1 g1 Hn1 Ha|p1 i1 v1 g1 Hn1 Ha];
    try discriminate Ed; injection Eq as E; apply app_inj_tail in E as [-> E]; inversion E; subst; rewrite Hn in Hn1; inversion Hn1; subst; try tauto.
  exact (Hne (Ha _ Hin)).
Qed.
Lemma works_needed ed op x : sound env Q ed -> (op = OpGetSyntaxTree -> fresh env ed) -> step env ed op = Ok x -> works env ed op.
Proof.
  intros S F H. pose proof (sound_wf S) as Hwf. destruct (autocomplete_ok S Hnonempty Hascii) as (y&Hauto).
  assert (Hau : exists y, get_autocomplete env ed = Ok y) by eauto. clear y Hauto.
  assert (Hst : forall ed0 a, start_autocorrect env ed = Ok (ed0, a) -> ed_input ed0 = ed_input ed /\ ed_caret ed0 = ed_caret ed).
  { intros ed0 a Ha. destruct (sound_start S Ha) as (_&E1&E2&_). auto. }
  assert (Hrow : forall m, get_caret ed = Ok (MSelRow m) -> exists c r, caret_from_minimal (ed_input ed) (ed_caret ed) = Ok c /\ c_selection c = SelRow r /\ good_range (ed_input ed) r /\ rg_to_minimal r = m).
  { intros m Hm. exact (get_caret_row Hm). }
  destruct op as [d mode|d mode|mode|vs| | | |p mode|p| | |data json| |accept|d| | |range vs]; cbn [step works] in *; try exact I.
  - intros m Hm. destruct (Hrow m Hm) as (c&r&Hc&Hs&G&<-). apply bind_ok in H as (ed'&H&_). unfold move_caret in H.
    apply bind_ok in H as ([ed0 a]&Ha&H). destruct (Hst _ _ Ha) as [Ei Ec]. rewrite Ei, Ec in H. apply bind_ok in H as (c0&Hc0&H). rewrite Hc in Hc0. inv Hc0.
    apply bind_ok in H as (c1&Hn&_). unfold nav_move_caret in Hn. rewrite Hs in Hn. apply bind_ok in Hn as (p&Hp&_).
    destruct mode; try discriminate Hp. split; [reflexivity|]. intros Ho -> Hz. rewrite <- rg_left_position_minimal in Hz. unfold move_caret_range in Hp. rewrite (cell_zero_panics (good_left G) Ho Hz) in Hp. discriminate Hp.
  - apply bind_ok in H as ([ed' b]&H&_). unfold select_with_caret in H. apply bind_ok in H as ([ed0 a]&Ha&H). destruct (Hst _ _ Ha) as [Ei Ec]. rewrite Ei, Ec in H. apply bind_ok in H as (c&Hc&H).
    destruct (c_selection c) as [r|g] eqn:Es; [|discriminate H]. apply bind_ok in H as (p&Hp&_). destruct mode; try discriminate Hp. split; [reflexivity|].
    exists (rg_to_minimal r). split; [eapply row_caret; eauto|]. intros Ho -> Hz. destruct (caret_row_good Hc Es) as (G1&G2&G3).
    assert (Ge : good_pos (ed_input ed) (rg_end_position r)) by (split; auto).
    unfold move_caret_range in Hp. replace (rg_left_position (range_of_pos (rg_end_position r))) with (rg_end_position r) in Hp by (unfold rg_left_position, rg_left, rg_is_forwards; cbn; rewrite Nat.leb_refl; reflexivity).
    rewrite (cell_zero_panics Ge Ho Hz) in Hp. discriminate Hp.
  - assert (H' : step env ed (OpRemoveAtCaret mode) = Ok x) by exact H.
    apply bind_ok in H as ([ed' b]&H&_). unfold editor_remove_at_caret in H. apply bind_ok in H as ([ed0 a]&Ha&H). destruct (Hst _ _ Ha) as [Ei Ec]. rewrite Ei, Ec in H. apply bind_ok in H as (c&Hc&H).
    destruct (c_selection c) as [r|g] eqn:Es; [|discriminate H]. split; [eexists; eapply row_caret; eauto|]. intros Ho q Hq.
    assert (Hv : valid_pos (ed_input ed) q) by (pose proof (so_caret S) as [Hv _]; rewrite Hq in Hv; exact Hv).
    pose proof (fun d => edge_remove (env := env) (ed := ed) (mode := mode) (d := d)) as Hedge. rewrite Ho in Hedge.
    destruct (remove_dir mode) as [[]|] eqn:Em; [| |exact I].
    + split.
      * intros ->. rewrite (Hedge HLeft Hq eq_refl Hau) in H'. discriminate H'.
      * intros Hb. destruct (leaves_keeps _ _ Hb) as [Hz Hd]. destruct mode; try discriminate Em. rewrite (underflow_step Hwf Hv Hq Hau Hd Ho Hz) in H'. discriminate H'.
    + intros ->. rewrite (Hedge HRight Hq eq_refl Hau) in H'. discriminate H'.
  - apply bind_ok in H as (ed'&H&_). unfold insert_at_caret in H. apply bind_ok in H as ([ed0 a]&Ha&H). destruct (Hst _ _ Ha) as [Ei Ec]. apply bind_ok in H as ([ed1 o]&H&_).
    unfold insert_nodes_at_caret in H. rewrite Ei, Ec in H. apply bind_ok in H as (c&Hc&H). destruct (c_selection c) as [r|g] eqn:Es; [|discriminate H]. eexists. eapply row_caret; eauto.
  - apply bind_ok in H as (s&H&_). unfold copy in H. apply bind_ok in H as (c&Hc&H). destruct (c_selection c) as [r|g] eqn:Es; [|discriminate H]. eexists. eapply row_caret; eauto.
  - apply bind_ok in H as ([ed' b]&H&_). unfold paste in H. apply bind_ok in H as ([ed0 a]&Ha&H). destruct (Hst _ _ Ha) as [Ei Ec]. destruct json; [|discriminate H]. split; [reflexivity|]. cbn [negb] in H.
    destruct (env_deserialize env data) as [nodes|]; [left|right; reflexivity]. apply bind_ok in H as ([ed1 o]&H&_).
    unfold insert_nodes_at_caret in H. rewrite Ei, Ec in H. apply bind_ok in H as (c&Hc&H). destruct (c_selection c) as [r|g] eqn:Es; [|discriminate H]. eexists. eapply row_caret; eauto.
  - apply bind_ok in H as ([ed' t]&H&_). unfold get_syntax_tree in H. destruct (ed_parsed ed) as [t0|] eqn:Ep; [exists t0; apply (F eq_refl); exact Ep|]. apply bind_ok in H as (t1&H&_). eauto.
Qed.
Lemma works_enough ed op : sound env Q ed -> proper_args Q env ed op -> keeps_caret env ed op -> works env ed op -> exists x, step env ed op = Ok x.
Proof.
  intros S Hargs Hk Hw.
  assert (Hgo : avoids_panic env ed op -> exists x, step env ed op = Ok x) by (intros Hav; exact (step_total Hascii Hnonempty S Hargs Hk Hav)).
  destruct op as [d mode|d mode|mode|vs| | | |p mode|p| | |data json| |accept|d| | |range vs]; cbn [works] in Hw; try (apply Hgo; exact Hw).
  - destruct (row_selected_dec ed S) as [(m&Hm)|(c&g&Hc&Hs)].
    + apply Hgo. destruct (Hw m Hm) as [-> Hz]. split; [reflexivity|]. intros Ho Hd m' Hm'. rewrite Hm in Hm'. injection Hm' as <-. exact (Hz Ho Hd).
    + cbn [step]. unfold move_caret, start_autocorrect, get_autocomplete. rewrite Hc. cbn [bind]. rewrite Hs. cbn [bind]. rewrite Hc. cbn [bind]. unfold nav_move_caret. rewrite Hs. cbn. eauto.
  - destruct Hw as (->&m&Hm&Hz). apply Hgo. split; [reflexivity|]. split; [exists m; exact Hm|]. intros Ho Hd m' Hm'. rewrite Hm in Hm'. injection Hm' as <-. exact (Hz Ho Hd).
  - destruct Hw as [-> [Hw|Hw]]; [apply Hgo; split; [reflexivity|exact Hw]|]. destruct (autocomplete_ok S Hnonempty Hascii) as ([ed0 res]&Hauto). destruct (start_autocorrect_ok Hauto) as (a&Ha&_).
    cbn [step]. unfold paste. rewrite Ha. cbn [bind negb]. rewrite Hw. cbn. eauto.
Qed.
End Works.

(** * C20: exactly which operations panic *)
(** After any operations that met [keeps_caret], with the arguments that a caller has to provide. *)
Theorem C20_exact : forall (SyntaxNode : Type) (env : Env SyntaxNode) ops ed op,
  Forall ascii_rule (env_rules env) -> (forall rule, In rule (env_rules env) -> proper nonempty (rule_result rule)) ->
  all_along env (fun ed op => proper_args nonempty env ed op /\ keeps_caret env ed op) (@editor_new SyntaxNode) ops -> run env (@editor_new SyntaxNode) ops = Ok ed ->
  proper_args nonempty env ed op -> keeps_caret env ed op ->
  ((exists x, step env ed op = Ok x) <-> works env ed op).
Proof.
  intros SyntaxNode env ops ed op Ha Hr H Hrun Hargs Hk. assert (S : sound env nonempty ed) by exact (run_sound Hr (sound_new env nonempty) H Hrun). split.
  - intros (x&Hx). apply (works_needed env nonempty Ha (fun s h => h) ed op x S); [|exact Hx]. intros _. apply reachable_fresh. exists ops. exact Hrun.
  - exact (works_enough env nonempty Ha (fun s h => h) ed op S Hargs Hk).
Qed.
Print Assumptions C20_exact.
(** So a whole run does not panic exactly if all of its operations work. *)
Theorem C20_run_exact : forall (SyntaxNode : Type) (env : Env SyntaxNode) ops,
  Forall ascii_rule (env_rules env) -> (forall rule, In rule (env_rules env) -> proper nonempty (rule_result rule)) ->
  all_along env (fun ed op => proper_args nonempty env ed op /\ keeps_caret env ed op) (@editor_new SyntaxNode) ops ->
  ((exists ed, run env (@editor_new SyntaxNode) ops = Ok ed) <-> all_along env (works env) (@editor_new SyntaxNode) ops).
Proof.
  intros SyntaxNode env ops Ha Hr H.
  assert (G : forall ops (ed : MathEditor SyntaxNode), sound env nonempty ed -> fresh env ed -> all_along env (fun ed op => proper_args nonempty env ed op /\ keeps_caret env ed op) ed ops ->
    ((exists ed', run env ed ops = Ok ed') <-> all_along env (works env) ed ops)).
  { clear H ops. induction ops as [|op ops IH]; intros ed S F H; [cbn; split; [auto|eauto]|]. cbn [all_along run] in *. destruct H as [[H1 H2] H]. split.
    - intros (ed'&Hrun). apply bind_ok in Hrun as ([ed1 out]&Hs&Hrun). split; [exact (works_needed env nonempty Ha (fun s h => h) ed op _ S (fun _ => F) Hs)|].
      intros ed2 out2 Hs2. rewrite Hs in Hs2. injection Hs2 as <- <-. apply IH; [exact (step_sound Hr S H1 H2 Hs)|exact (step_fresh F Hs)|exact (H _ _ Hs)|eauto].
    - intros [Hw Hrest]. destruct (works_enough env nonempty Ha (fun s h => h) ed op S H1 H2 Hw) as ([ed1 out]&Hs). rewrite Hs. cbn [bind].
      apply IH; [exact (step_sound Hr S H1 H2 Hs)|exact (step_fresh F Hs)|exact (H _ _ Hs)|exact (Hrest _ _ Hs)]. }
  apply G; [exact (sound_new env nonempty)|intros t Ht; discriminate|exact H].
Qed.
Print Assumptions C20_run_exact.
(** After the run of [C20_case]: a key that works, and pasting of plain text, which does not *)
Example C20_exact_case : let env := default_env debug_profile in exists ed,
  all_along env (fun ed op => proper_args nonempty env ed op /\ keeps_caret env ed op) (editor_new _) C20_run /\ run env (editor_new _) C20_run = Ok ed /\
  (proper_args nonempty env ed (OpRemoveAtCaret RemoveLeft) /\ keeps_caret env ed (OpRemoveAtCaret RemoveLeft) /\ works env ed (OpRemoveAtCaret RemoveLeft)) /\
  proper_args nonempty env ed (OpPaste (lit "x") false) /\ keeps_caret env ed (OpPaste (lit "x") false) /\ ~ works env ed (OpPaste (lit "x") false).
Proof.
  cbv zeta. eexists. split; [eapply all_along_impl; [|exact C20_case]; intros ed op (H1&H2&_); split; [exact H1|exact H2]|]. split; [vm_compute; reflexivity|].
  split; [split; [exact I|split; [exact I|split; [in_row|]]]|].
  - intros _ q Hq. vm_compute in Hq. injection Hq as <-. split; [discriminate|]. intros (p&i&v&g&cell&Hp&_). destruct p; discriminate Hp.
  - split; [|split; [exact I|intros [H _]; discriminate H]]. intros nodes Hn. vm_compute in Hn. discriminate Hn.
Qed.
