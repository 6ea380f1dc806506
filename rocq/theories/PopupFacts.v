(** The autocomplete popup of the editor. *)
From Verif Require Import Base Str Grid Node Focus Edit Caret Autocomplete Editor Rules Spec SpecAuto SpecMove BaseFacts
  TreeFacts MoveFacts AutoFacts.
From Coq Require Import Permutation Sorted.
Set Implicit Arguments.
Unset Strict Implicit.

Section Popup.
Context {SyntaxNode : Type}.
Implicit Type env : Env SyntaxNode.
Implicit Type ed : MathEditor SyntaxNode.

Lemma set_autocomplete_same ed : set_autocomplete ed (ed_autocomplete ed) = ed.
Proof. destruct ed; reflexivity. Qed.

(** A lookup that opens the popup only changes the remembered rule. *)
Lemma get_autocomplete_inv env ed ed' r : get_autocomplete env ed = Ok (ed', Some r) -> exists ms p c,
  state_get_autocomplete (ed_autocomplete ed) ms p = Ok (ed_autocomplete ed', Some r) /\
  ed' = set_autocomplete ed (ed_autocomplete ed') /\
  (forall cur cur' r', state_get_autocomplete cur ms p = Ok (cur', r') ->
     get_autocomplete env (set_autocomplete ed cur) = Ok (set_autocomplete ed cur', r')) /\
  caret_from_minimal (ed_input ed) (ed_caret ed) = Ok c /\
  exists range, c_selection c = SelRow range /\ rg_is_collapsed range = true /\ p = pos_to_minimal (rg_start_position range) /\
    rules_matches (env_rules env) (fr_row (rg_focus range)) (rg_start range) 2 = Ok ms.
Proof.
  unfold get_autocomplete. intros H. apply bind_ok in H as (c&Hc&H).
  destruct (c_selection c) as [range|] eqn:Es; [|discriminate].
  destruct (rg_is_collapsed range) eqn:Ec; [|discriminate]. cbv zeta in H.
  apply bind_ok in H as (ms&Hms&H). apply bind_ok in H as ([cur res]&Hst&H). inv H.
  exists ms, (pos_to_minimal (rg_start_position range)), c. cbn [ed_autocomplete set_autocomplete].
  split; auto. split; auto. split.
  - intros cur' cur'' r' H. cbn [set_autocomplete ed_input ed_caret ed_autocomplete]. rewrite Hc. cbn [bind]. rewrite Es, Ec.
    cbv zeta. rewrite Hms. cbn [bind]. rewrite H. reflexivity.
  - split; auto. exists range. auto.
Qed.

Definition steps (d : VerticalDirection) (k n last : nat) : nat :=
  match d with VUp => n - k | VDown => Nat.min (n + k) last end.

Lemma state_ms ms p : forall cur1 cur2 cur1' cur2' r1 r2,
  state_get_autocomplete cur1 ms p = Ok (cur1', Some r1) -> state_get_autocomplete cur2 ms p = Ok (cur2', Some r2) ->
  ar_matches r1 = ar_matches r2 /\ ar_position r1 = ar_position r2.
Proof.
  intros cur1 cur2 cur1' cur2' r1 r2 H1 H2. unfold state_get_autocomplete in *. destruct ms as [|m ms]; [discriminate|].
  apply bind_ok in H1 as (?&H1&E1), H2 as (?&H2&E2). inv E1. inv E2. unfold results_new in *.
  apply bind_ok in H1 as (?&_&H1), H2 as (?&_&H2). inv H1. inv H2. auto.
Qed.

Lemma move_step env ed ed1 r d : get_autocomplete env ed = Ok (ed1, Some r) -> NoDup (map m_rule (ar_matches r)) ->
  exists ed2 ed3 r', move_in_autocomplete env ed d = Ok (ed2, true) /\ get_autocomplete env ed2 = Ok (ed3, Some r') /\
    ar_matches r' = ar_matches r /\ ar_selected r' = ar_selected (move_selection r d) /\
    ed2 = set_autocomplete ed (ed_autocomplete ed2).
Proof.
  intros H Hnd. unfold move_in_autocomplete. rewrite H. cbn [bind].
  destruct (get_autocomplete_inv H) as (ms&p&c&Hst&Hed&Hre&_).
  destruct (popup_shown Hst) as (Hperm&_&_&_&m&Hm&_).
  assert (Hlt : ar_selected r < length (ar_matches r)) by (apply nth_error_Some; congruence).
  destruct (move_selection_spec d Hlt) as (Hms&_&Hlt'&_).
  destruct (nth_error (ar_matches r) (ar_selected (move_selection r d))) as [m'|] eqn:Em'; [|apply nth_error_None in Em'; lia].
  unfold get_selected. rewrite Hms, Em'. cbn [unwrap bind].
  destruct (popup_total (Some (m_rule m')) ms p) as (cur'&res&Hst'&Hnone).
  destruct res as [r'|]; [|exfalso; unfold state_get_autocomplete in Hst; rewrite (proj1 Hnone eq_refl) in Hst; discriminate].
  eexists _, _, r'. split; [reflexivity|]. split.
  { rewrite Hed. apply (Hre (Some (m_rule m')) cur' (Some r') Hst'). }
  destruct (state_ms Hst' Hst) as [Hmm _]. split; auto. split; [|rewrite Hed; reflexivity].
  destruct (popup_shown Hst') as (Hperm'&_&_&_&m2&Hm2&_&Hkeep&_).
  destruct (Hkeep _ eq_refl) as [Hr _].
  { exists m'. split; auto. eapply Permutation_in; [exact Hperm|]. eapply nth_error_In; eauto. }
  rewrite Hmm in Hm2. apply (proj1 (NoDup_nth_error _) Hnd).
  - rewrite map_length. apply nth_error_Some. congruence.
  - rewrite !nth_error_map, Hm2, Em'. cbn. congruence.
Qed.

Lemma move_steps env d k : forall ed ed1 r, get_autocomplete env ed = Ok (ed1, Some r) -> NoDup (map m_rule (ar_matches r)) ->
  exists ed2 ed3 r', run env ed (repeat (OpMoveInAutocomplete d) k) = Ok ed2 /\ get_autocomplete env ed2 = Ok (ed3, Some r') /\
    ar_matches r' = ar_matches r /\ ar_selected r' = steps d k (ar_selected r) (length (ar_matches r) - 1).
Proof.
  induction k as [|k IH]; intros ed ed1 r H Hnd.
  - exists ed, ed1, r. split; auto. split; auto. split; auto.
    destruct (get_autocomplete_inv H) as (ms&p&c&Hst&_). destruct (popup_shown Hst) as (_&_&_&_&m&Hm&_).
    assert (Hlt : ar_selected r < length (ar_matches r)) by (apply nth_error_Some; congruence). destruct d; cbn [steps]; lia.
  - destruct (move_step d H Hnd) as (ed2&ed3&r2&Hmv&Hg&Hm&Hs&_).
    destruct (IH _ _ _ Hg) as (ed4&ed5&r'&Hrun&Hg'&Hm'&Hs'); [congruence|].
    exists ed4, ed5, r'. cbn [repeat run step]. rewrite Hmv. cbn [bind out_opt]. split; auto. split; auto. split; [congruence|].
    destruct (get_autocomplete_inv H) as (ms&p&c&Hst&_). destruct (popup_shown Hst) as (_&_&_&_&m&Hm0&_).
    assert (Hlt : ar_selected r < length (ar_matches r)) by (apply nth_error_Some; congruence).
    destruct (move_selection_spec d Hlt) as (_&_&Hlt'&Hms).
    rewrite Hs', Hm, Hs, Hms. destruct d; cbn [steps]; lia.
Qed.

(** The popup shows every rule whose text was typed in front of the caret. *)
Lemma typed_popup env ed q row before rule :
  wf_row (ed_input ed) -> ed_caret ed = collapsed q -> row_get (ed_input ed) (mp_row q) = Some row -> mp_offset q <= length row ->
  Forall ascii_rule (env_rules env) -> In rule (env_rules env) -> 2 <= length (rule_parser rule) ->
  firstn (mp_offset q) row = before ++ map typed_symbol (rule_parser rule) -> (forall b, before <> b ++ [Symbol []]) ->
  exists ed' r m, get_autocomplete env ed = Ok (ed', Some r) /\ In m (ar_matches r) /\ m_rule m = rule /\
    m_input_match_length m = length (rule_parser rule) /\ is_complete_match m = true.
Proof.
  intros Hwf Hc Hrow Ho Hrules Hin H2 Hf Hb.
  destruct (@collapsed_caret (ed_input ed) q) as (p&Gp&Mp&Hcar); auto. { now exists row. }
  assert (Hprow : fr_row (pos_focus p) = row /\ pos_offset p = mp_offset q).
  { destruct Gp as [Gp _]. apply canonical_row in Gp. rewrite <- Mp in *. cbn in *. split; auto. unfold pos_indices in *. congruence. }
  destruct Hprow as [Hr Hoff].
  destruct (@typed_text_matches rule (env_rules env) row (mp_offset q) 2 before) as (ms&m&Hms&Him&Hm&Hl&Hcm); auto.
  { rewrite Hf, map_map. reflexivity. }
  unfold get_autocomplete. rewrite Hc, Hcar. cbn [bind c_selection].
  replace (rg_is_collapsed (range_of_pos p)) with true by (unfold rg_is_collapsed, range_of_pos; cbn; symmetry; apply Nat.eqb_refl).
  cbv zeta. change (pos_focus (rg_start_position (range_of_pos p))) with (pos_focus p).
  change (pos_offset (rg_start_position (range_of_pos p))) with (pos_offset p).
  rewrite Hr, Hoff, Hms. cbn [bind].
  destruct (popup_total (ed_autocomplete ed) ms (pos_to_minimal (rg_start_position (range_of_pos p)))) as (cur'&res&Hst&Hnone).
  rewrite Hst. cbn [bind]. destruct res as [r|]; [|exfalso; rewrite (proj1 Hnone eq_refl) in Him; destruct Him].
  do 2 eexists. exists m. split; [reflexivity|]. split; auto.
  destruct (popup_shown Hst) as (Hperm&_). eapply Permutation_in; [symmetry; exact Hperm|exact Him].
Qed.
End Popup.

Lemma default_rules_ascii : Forall ascii_rule default_rules.
Proof.
  apply Forall_forall. intros r Hr. split.
  - intros E. repeat (destruct Hr as [<-|Hr]; [discriminate|]). destruct Hr.
  - intros c Hc. assert (H : forallb (fun r => forallb (fun c => utf8_len c =? 1) (rule_parser r)) default_rules = true) by (vm_compute; reflexivity).
    rewrite forallb_forall in H. specialize (H r Hr). rewrite forallb_forall in H. specialize (H c Hc). now apply Nat.eqb_eq in H.
Qed.
