(** Operations with and without rules. *)
From Verif Require Import Base Str Grid Node Focus Edit Caret Autocomplete Editor Rules Spec SpecAuto SpecMove SpecEditor SpecPlain BaseFacts
  TreeFacts EditFacts AutoFacts PopupFacts EditorFacts HistoryFacts OpFacts SpliceFacts.
From Coq Require Import Permutation.
Set Implicit Arguments.
Unset Strict Implicit.

Section Plain.
Context {SyntaxNode : Type}.
Variable env : Env SyntaxNode.
Implicit Type ed : MathEditor SyntaxNode.
Notation plain := (without_rules env).

Lemma rules_matches_rule rules input caret min ms m : rules_matches rules input caret min = Ok ms -> In m ms -> In (m_rule m) rules.
Proof.
  revert ms. induction rules as [|r rules IH]; intros ms H Hm; [inv H; destruct Hm|]. cbn [rules_matches] in H. apply bind_ok in H as (a&Ha&H). apply bind_ok in H as (b&Hb&H). inv H.
  apply in_app_or in Hm as [Hm|Hm]; [left|right; eauto]. destruct (match_sound Ha Hm) as (_&_&_&_&_&E&_). now symmetry.
Qed.
Lemma plain_popup ed ed1 r : get_autocomplete env ed = Ok (ed1, r) -> exists x, get_autocomplete plain ed = Ok (set_autocomplete ed x, None).
Proof.
  unfold get_autocomplete. intros H. apply bind_ok in H as (c&Hc&H). rewrite Hc. cbn [bind].
  destruct (c_selection c) as [range|]; [|exists (ed_autocomplete ed); now rewrite set_autocomplete_same].
  destruct (rg_is_collapsed range); [|exists (ed_autocomplete ed); now rewrite set_autocomplete_same]. cbn. eauto.
Qed.
Lemma plain_start ed ed1 a : start_autocorrect env ed = Ok (ed1, a) -> exists x, start_autocorrect plain ed = Ok (set_autocomplete ed x, None).
Proof. unfold start_autocorrect. intros H. apply bind_ok in H as ([ed2 r]&Hg&_). apply plain_popup in Hg as (x&->). cbn. eauto. Qed.
Lemma start_rule ed ed1 a : start_autocorrect env ed = Ok (ed1, Some a) -> In (ac_rule a) (env_rules env).
Proof.
  unfold start_autocorrect. intros H. apply bind_ok in H as ([ed2 r]&Hg&H). destruct r as [r|]; [|discriminate]. apply bind_ok in H as (a'&Ha&H). inv H.
  unfold results_start_autocorrect in Ha. apply bind_ok in Ha as (m&Hm&Ha). unfold get_selected in Hm. apply unwrap_ok in Hm. destruct (is_complete_match m); cbn in Ha; [|discriminate]. inv Ha. cbn [ac_rule].
  destruct (get_autocomplete_inv Hg) as (ms&p&c&Hst&_&_&_&range&_&_&_&Hms). destruct (popup_shown Hst) as (Hperm&_). eapply rules_matches_rule; [exact Hms|]. eapply Permutation_in; [exact Hperm|]. eapply nth_error_In; eauto.
Qed.
(** What autocorrection does at the end of an operation *)
Definition corrected ed0 ed' : Prop := exists a x r, In (ac_rule a) (env_rules env) /\ splice_at_range env (set_autocomplete ed0 x) r (rule_result (ac_rule a)) = Ok ed'.
Lemma finish_corrected ed1 x a ce ed' : finish_autocorrect env (set_autocomplete ed1 x) a ce = Ok ed' -> (forall b, a = Some b -> In (ac_rule b) (env_rules env)) -> ed' = set_autocomplete ed1 x \/ corrected ed1 ed'.
Proof.
  unfold finish_autocorrect. intros H Ha. apply bind_ok in H as (a'&Hf&H). destruct a as [b|]; cbn [autocorrect_finish] in Hf; [|inv Hf; cbn in H; inv H; auto].
  apply bind_ok in Hf as (r&_&Hf). inv Hf. cbn [apply_autocorrect] in H. apply bind_ok in H as (c&_&H). destruct (c_selection c); [|inv H; auto].
  cbv zeta in H. apply bind_ok in H as (ar&_&H). destruct (rg_contains _ _); [inv H; auto|]. apply bind_ok in H as (v&_&H). apply bind_ok in H as (ms&_&H). destruct (negb _); [inv H; auto|].
  right. exists b, x, (rg_to_minimal ar). split; [now apply Ha|exact H].
Qed.
(** Without rules nothing is corrected. *)
Lemma finish_plain ed ce : finish_autocorrect plain ed None ce = Ok ed.
Proof. reflexivity. Qed.
Lemma builder_rule ed x y cb es ca ed1 ce : builder_finish env (set_autocomplete ed x) cb es ca = Ok (ed1, ce) ->
  exists ed0, builder_finish plain (set_autocomplete ed y) cb es ca = Ok (set_autocomplete ed0 y, ce) /\ ed1 = set_autocomplete ed0 x.
Proof.
  unfold builder_finish. destruct es as [|e es]; intros H.
  - inv H. exists (set_caret ed ca). split; reflexivity.
  - apply bind_ok in H as (input&Hi&H). inv H. cbn [set_autocomplete ed_input] in Hi. change (env_cfg plain) with (env_cfg env). cbn [set_autocomplete ed_input]. rewrite Hi. cbn [bind].
    exists (mkEditor input None ca (ed_selection_mode ed) None (undo_push (ed_undo ed) (mkCaretEdit cb ca (e :: es)))). split; reflexivity.
Qed.
Lemma insert_rule ed x y vs ed1 act : insert_nodes_at_caret env (set_autocomplete ed x) vs = Ok (ed1, act) ->
  exists ed0, insert_nodes_at_caret plain (set_autocomplete ed y) vs = Ok (set_autocomplete ed0 y, act) /\ ed1 = set_autocomplete ed0 x.
Proof.
  unfold insert_nodes_at_caret. intros H. cbn [set_autocomplete ed_input ed_caret] in *. apply bind_ok in H as (c&Hc&H). rewrite Hc. cbn [bind]. destruct (c_selection c); [|discriminate].
  apply bind_ok in H as (q&Hr&H). rewrite Hr. cbn [bind]. destruct q as [[es p]|]; [|inv H; exists ed; split; reflexivity].
  apply bind_ok in H as ([ed2 ce]&Hb&H). inv H. apply (builder_rule y) in Hb as (ed0&Hb&->). cbn [set_autocomplete ed_input ed_caret] in *. rewrite Hb. cbn [bind]. eauto.
Qed.
Definition follows ed0 ed' : Prop := (exists x, ed' = set_autocomplete ed0 x) \/ corrected ed0 ed'.
Lemma follows_finish ed0 x y a ce ed' : finish_autocorrect env (set_autocomplete ed0 x) a ce = Ok ed' -> (forall b, a = Some b -> In (ac_rule b) (env_rules env)) -> follows (set_autocomplete ed0 y) ed'.
Proof.
  intros H Ha. apply finish_corrected in H as [->|(b&z&r&Hb&H)]; [left; exists x; reflexivity| |exact Ha]. right. exists b, z, r. split; [exact Hb|exact H].
Qed.
Ltac started ed1 a x y Ha H Hp Hr :=
  apply bind_ok in H as ([ed1 a]&Ha&H); pose proof (plain_start Ha) as (y&Hp); assert (Hr : forall b, a = Some b -> In (ac_rule b) (env_rules env)) by (let z := fresh in let Ez := fresh in intros z Ez; rewrite Ez in Ha; exact (start_rule Ha));
  let E := fresh in pose proof (start_autocorrect_only Ha) as (x&E); subst ed1.
Lemma plain_step ed op ed' out : of_popup op = false -> step env ed op = Ok (ed', out) -> exists ed0, step plain ed op = Ok (ed0, out) /\ follows ed0 ed'.
Proof.
  intros Hop H. assert (Same : forall r, r = Ok (ed', out) -> exists ed0, r = Ok (ed0, out) /\ follows ed0 ed').
  { intros r ->. exists ed'. split; [reflexivity|]. left. exists (ed_autocomplete ed'). symmetry. apply set_autocomplete_same. }
  destruct op; try discriminate Hop; cbn [step] in *; try (apply Same; exact H).
  - apply bind_ok in H as (ed1&Hm&H). inv H. unfold move_caret in *. started ed1 a x y Ha Hm Hp Hr. rewrite Hp. cbn [bind set_autocomplete ed_input ed_caret] in *.
    apply bind_ok in Hm as (c&Hc&H). rewrite Hc. cbn [bind]. apply bind_ok in H as (c'&Hc'&H). change (env_cfg plain) with (env_cfg env). rewrite Hc'. cbn [bind].
    apply bind_ok in H as ([ed2 ce]&Hb&H). change (mkEditor (ed_input ed) (ed_parsed ed) (ed_caret ed) (ed_selection_mode ed) y (ed_undo ed)) with (set_autocomplete ed y).
    apply (builder_rule y) in Hb as (ed0&Hb&->). rewrite Hb. cbn [bind]. rewrite finish_plain. cbn [bind]. eexists. split; [reflexivity|]. eapply follows_finish; eauto.
  - apply bind_ok in H as ([ed1 b]&Hm&H). inv H. unfold select_with_caret in *. started ed1 a x y Ha Hm Hp Hr. rewrite Hp. cbn [bind set_autocomplete ed_input ed_caret] in *.
    apply bind_ok in Hm as (c&Hc&H). rewrite Hc. cbn [bind]. destruct (c_selection c); [|discriminate]. apply bind_ok in H as (ne&Hne&H). change (env_cfg plain) with (env_cfg env). rewrite Hne. cbn [bind].
    destruct ne as [ne|]; [|inv H; cbn [bind]; eexists; split; [reflexivity|]; left; exists x; reflexivity].
    apply bind_ok in H as ([ed2 ce]&Hb&H). change (mkEditor (ed_input ed) (ed_parsed ed) (ed_caret ed) (ed_selection_mode ed) y (ed_undo ed)) with (set_autocomplete ed y).
    apply (builder_rule y) in Hb as (ed0&Hb&->). rewrite Hb. cbn [bind]. rewrite finish_plain. cbn [bind]. apply bind_ok in H as (ed3&Hf&H). inv H. eexists. split; [reflexivity|]. eapply follows_finish; eauto.
  - apply bind_ok in H as ([ed1 b]&Hm&H). inv H. unfold editor_remove_at_caret in *. started ed1 a x y Ha Hm Hp Hr. rewrite Hp. cbn [bind set_autocomplete ed_input ed_caret] in *.
    apply bind_ok in Hm as (c&Hc&H). rewrite Hc. cbn [bind]. destruct (c_selection c); [|discriminate]. apply bind_ok in H as (ne&Hne&H). change (env_cfg plain) with (env_cfg env). rewrite Hne. cbn [bind].
    destruct ne as [[es p]|]; [|inv H; cbn [bind]; eexists; split; [reflexivity|]; left; exists x; reflexivity].
    apply bind_ok in H as ([ed2 ce]&Hb&H). change (mkEditor (ed_input ed) (ed_parsed ed) (ed_caret ed) (ed_selection_mode ed) y (ed_undo ed)) with (set_autocomplete ed y).
    apply (builder_rule y) in Hb as (ed0&Hb&->). rewrite Hb. cbn [bind]. rewrite finish_plain. cbn [bind]. apply bind_ok in H as (ed3&Hf&H). inv H. eexists. split; [reflexivity|]. eapply follows_finish; eauto.
  - apply bind_ok in H as (ed1&Hm&H). inv H. unfold insert_at_caret in *. started ed1 a x y Ha Hm Hp Hr. rewrite Hp. cbn [bind].
    apply bind_ok in Hm as ([ed2 act]&Hi&H). apply (insert_rule y) in Hi as (ed0&Hi&->). rewrite Hi. cbn [bind]. destruct act as [ce|]; cbn [bind].
    + rewrite finish_plain. cbn [bind]. eexists. split; [reflexivity|]. eapply follows_finish; eauto.
    + inv H. eexists. split; [reflexivity|]. left. exists x. reflexivity.
  - apply bind_ok in H as (ed1&Hm&H). inv H. unfold start_selection in *. started ed1 a x y Ha Hm Hp Hr. rewrite Hp. cbn [bind]. apply bind_ok in Hm as ([ed2 ce]&Hb&H).
    apply (builder_rule y) in Hb as (ed0&Hb&->). cbn [set_autocomplete ed_input ed_caret set_selection_mode] in *. rewrite Hb. cbn [bind]. rewrite finish_plain. cbn [bind]. eexists. split; [reflexivity|]. eapply follows_finish; eauto.
  - apply bind_ok in H as (ed1&Hm&H). inv H. unfold extend_selection in *. started ed1 a x y Ha Hm Hp Hr. rewrite Hp. cbn [bind]. apply bind_ok in Hm as ([ed2 ce]&Hb&H).
    apply (builder_rule y) in Hb as (ed0&Hb&->). cbn [set_autocomplete ed_input ed_caret] in *. rewrite Hb. cbn [bind]. rewrite finish_plain. cbn [bind]. eexists. split; [reflexivity|]. eapply follows_finish; eauto.
  - apply bind_ok in H as ([ed1 b]&Hm&H). inv H. unfold paste in *. started ed1 a x y Ha Hm Hp Hr. rewrite Hp. cbn [bind]. destruct (negb json); [discriminate|]. change (env_deserialize plain) with (env_deserialize env).
    destruct (env_deserialize env data) as [nodes|]; [|inv Hm; cbn [bind]; eexists; split; [reflexivity|]; left; exists x; reflexivity].
    apply bind_ok in Hm as ([ed2 act]&Hi&H). apply (insert_rule y) in Hi as (ed0&Hi&->). rewrite Hi. cbn [bind]. destruct act as [ce|]; cbn [bind].
    + rewrite finish_plain. cbn [bind]. apply bind_ok in H as (ed3&Hf&H). inv H. eexists. split; [reflexivity|]. eapply follows_finish; eauto.
    + inv H. eexists. split; [reflexivity|]. left. exists x. reflexivity.
Qed.
(** ** Operations that change nothing *)
Lemma advanced_differs ed ce ces ed' : advanced env ed (ce :: ces) ed' -> ed_undo ed' <> ed_undo ed.
Proof. intros [_ H _ _] E. rewrite E in H. apply (f_equal (@length _)) in H. rewrite app_length, rev_length in H. cbn in H. lia. Qed.
Lemma removes_something ed r es p a ed1 ce ed' c : caret_from_minimal (ed_input ed) (ed_caret ed) = Ok c -> c_selection c = SelRow r -> remove_range r = Ok (es, p) -> builder_finish env ed (ed_caret ed) es (mkMinCaret p p) = Ok (ed1, ce) ->
  finish_autocorrect env ed1 a ce = Ok ed' -> exists ce ces, advanced env ed (ce :: ces) ed'.
Proof.
  intros Hc Es Hr Hb Hf. pose proof (caret_row_good Hc Es) as G. pose proof (builder_advanced Hb (remove_range_makes (env_cfg env) G Hr)) as A. rewrite (remove_range_eq G) in Hr. inv Hr.
  apply finish_autocorrect_advanced in Hf as [->|(_&ce'&A'&_)]; [eauto|]. pose proof (advanced_trans A A') as B. cbn [app] in B. eauto.
Qed.
Lemma writes_differs ed op ed' out : step env ed op = Ok (ed', out) -> writes_always op out -> ed_undo ed' <> ed_undo ed.
Proof.
  intros H W. destruct op as [| |mode|vs| | | | | | | |data json| |accept| | | |range vs]; try (exfalso; exact W).
  - destruct mode; try (exfalso; exact W). cbn [step] in H. apply bind_ok in H as ([ed1 b]&Hm&H). inv H. unfold editor_remove_at_caret in Hm. apply bind_ok in Hm as ([ed1 a]&Ha&H). pose proof (start_autocorrect_only Ha) as (x&->).
    apply bind_ok in H as (c&Hc&H). destruct (c_selection c) as [r|] eqn:Es; [|discriminate]. apply bind_ok in H as (q&Hq&H).
    assert (R : exists es p, q = Some (es, p) /\ remove_range r = Ok (es, p)).
    { unfold remove_at_caret in Hq. destruct (negb _); apply bind_ok in Hq as ([es p]&Hr&Hq); inv Hq; eauto. }
    destruct R as (es&p&->&Hr). apply bind_ok in H as ([ed2 ce]&Hb&H). apply bind_ok in H as (ed3&Hf&H). inv H.
    destruct (removes_something Hc Es Hr Hb Hf) as (ce'&ces&A). exact (advanced_differs A).
  - destruct (@step_advanced _ env _ _ _ _ H eq_refl) as (ces&A&Hap&_); [discriminate|]. destruct ces as [|ce ces]; [destruct Hap as [Hap|Hap]; discriminate Hap|exact (advanced_differs A)].
  - cbn [writes_always] in W. cbn [step] in H. apply bind_ok in H as ([ed1 b]&Hm&H). inv H. destruct b; [|discriminate]. unfold paste in Hm. apply bind_ok in Hm as ([ed1 a]&Ha&H). pose proof (start_autocorrect_only Ha) as (x&->). destruct (negb json); [discriminate|].
    destruct (env_deserialize env data) as [nodes|]; [|discriminate]. apply bind_ok in H as ([ed2 act]&Hi&H). apply insert_nodes_advanced in Hi as (ce&->&A&_). apply bind_ok in H as (ed3&Hf&H). inv H.
    apply finish_autocorrect_advanced in Hf as [->|(_&ce'&A'&_)]; [exact (advanced_differs A)|]. exact (advanced_differs (advanced_trans A A')).
  - cbn [writes_always] in W. cbn [step] in H. apply bind_ok in H as ([ed1 b]&Hm&H). inv H. destruct b; [|discriminate]. unfold finish_autocomplete in Hm. destruct (negb accept); [discriminate|].
    apply bind_ok in Hm as ([ed1 r]&Hg&H). pose proof (get_autocomplete_only Hg) as (x&->). destruct r as [r|]; [|discriminate]. apply bind_ok in H as (m&_&H). cbv zeta in H. apply bind_ok in H as (ed2&Hs&H). inv H.
    destruct (splice_advanced Hs) as (ce&A&_). exact (advanced_differs A).
  - cbn [step] in H. apply bind_ok in H as (ed1&Hs&H). inv H. destruct (splice_advanced Hs) as (ce&A&_). exact (advanced_differs A).
Qed.
Lemma unchanged_iff ed op ed' out : ~ autocorrect_pending env ed -> is_undo_redo op = false -> step env ed op = Ok (ed', out) -> ed_input ed' = ed_input ed ->
  (ed_undo ed' = ed_undo ed <-> ~ writes_always op out).
Proof.
  intros Hp Hop H E. split; [intros Eu W; exact (writes_differs H W Eu)|]. intros W.
  destruct (is_passive op) eqn:Ep; [now apply (passive_same Ep Hp) in H|].
  destruct op as [| |mode|vs| | | | | | | |data json| |accept| | | |range vs]; try discriminate; try (exfalso; exact (W I)).
  - destruct mode; try (exfalso; exact (W I)); refine (unchanged_same_undo Hp _ H E); exact I.
  - cbn [writes_always] in W. cbn [step] in H. apply bind_ok in H as ([ed1 b]&Hm&H). inv H. destruct b; [exfalso; apply W; reflexivity|]. unfold paste in Hm. apply bind_ok in Hm as ([ed1 a]&Ha&H). pose proof (start_autocorrect_only Ha) as (x&->). destruct (negb json); [discriminate|].
    destruct (env_deserialize env data) as [nodes|]; [|inv H; reflexivity]. apply bind_ok in H as ([ed2 act]&Hi&H). destruct act; [apply bind_ok in H as (ed3&_&H); discriminate|discriminate].
  - cbn [writes_always] in W. cbn [step] in H. apply bind_ok in H as ([ed1 b]&Hm&H). inv H. destruct b; [exfalso; apply W; reflexivity|]. unfold finish_autocomplete in Hm. destruct (negb accept); [inv Hm; reflexivity|].
    apply bind_ok in Hm as ([ed1 r]&Hg&H). pose proof (get_autocomplete_only Hg) as (x&->). destruct r as [r|]; [|inv H; reflexivity]. apply bind_ok in H as (m&_&H). cbv zeta in H. apply bind_ok in H as (ed2&_&H). discriminate.
Qed.
End Plain.
