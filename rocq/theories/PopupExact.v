(** Moving in the list of suggestions if rules occur several times. *)
From Verif Require Import Base Str Grid Node Focus Edit Caret Autocomplete Editor Rules Spec SpecAuto SpecMove SpecPopup BaseFacts
  TreeFacts MoveFacts AutoFacts PopupFacts.
From Coq Require Import Permutation Sorted.
Set Implicit Arguments.
Unset Strict Implicit.

Section Popup.
Context {SyntaxNode : Type}.
Implicit Type env : Env SyntaxNode.
Implicit Type ed : MathEditor SyntaxNode.

Lemma popup_selected env ed ed1 r : get_autocomplete env ed = Ok (ed1, Some r) -> ar_selected r < length (ar_matches r).
Proof.
  intros H. destruct (get_autocomplete_inv H) as (ms&p&c&Hst&_). destruct (popup_shown Hst) as (_&_&_&_&m&Hm&_). apply nth_error_Some. congruence.
Qed.
Lemma press env ed ed1 r d : get_autocomplete env ed = Ok (ed1, Some r) ->
  exists ed2 ed3 r', move_in_autocomplete env ed d = Ok (ed2, true) /\ get_autocomplete env ed2 = Ok (ed3, Some r') /\
    ar_matches r' = ar_matches r /\ first_like (map m_rule (ar_matches r)) (beside d (ar_selected r) (length (ar_matches r))) (ar_selected r').
Proof.
  intros H. unfold move_in_autocomplete. rewrite H. cbn [bind]. pose proof (popup_selected H) as Hlt.
  destruct (get_autocomplete_inv H) as (ms&p&c&Hst&Hed&Hre&_). destruct (popup_shown Hst) as (Hperm&_).
  destruct (move_selection_spec d Hlt) as (Hms&_&Hlt'&Hs).
  destruct (nth_error (ar_matches r) (ar_selected (move_selection r d))) as [m'|] eqn:Em'; [|apply nth_error_None in Em'; lia].
  unfold get_selected. rewrite Hms, Em'. cbn [unwrap bind].
  destruct (popup_total (Some (m_rule m')) ms p) as (cur'&res&Hst'&Hnone).
  destruct res as [r'|]; [|exfalso; unfold state_get_autocomplete in Hst; rewrite (proj1 Hnone eq_refl) in Hst; discriminate].
  eexists _, _, r'. split; [reflexivity|]. split.
  { rewrite Hed. apply (Hre (Some (m_rule m')) cur' (Some r') Hst'). }
  destruct (state_ms Hst' Hst) as [Hmm _]. split; auto.
  destruct (popup_shown Hst') as (_&_&_&_&m2&Hm2&_&Hkeep&_). destruct (Hkeep _ eq_refl) as [Hr Hfirst].
  { exists m'. split; auto. eapply Permutation_in; [exact Hperm|]. eapply nth_error_In; eauto. }
  rewrite Hmm in Hm2, Hfirst. assert (Hb : beside d (ar_selected r) (length (ar_matches r)) = ar_selected (move_selection r d)) by (rewrite Hs; destruct d; cbn [beside]; lia).
  rewrite Hb. split.
  - rewrite !nth_error_map, Hm2, Em'. cbn. congruence.
  - intros k Hk. rewrite !nth_error_map, Em'. cbn. destruct (nth_error (ar_matches r) k) as [m3|] eqn:E3; [|discriminate]. cbn. intros E. injection E as E. exact (Hfirst _ _ Hk E3 E).
Qed.
Lemma presses env ds : forall ed ed1 r, get_autocomplete env ed = Ok (ed1, Some r) ->
  exists ed2 ed3 r', run env ed (map OpMoveInAutocomplete ds) = Ok ed2 /\ get_autocomplete env ed2 = Ok (ed3, Some r') /\
    ar_matches r' = ar_matches r /\ leads (map m_rule (ar_matches r)) ds (ar_selected r) (ar_selected r').
Proof.
  induction ds as [|d ds IH]; intros ed ed1 r H.
  - exists ed, ed1, r. split; [reflexivity|]. split; [exact H|]. split; [reflexivity|constructor].
  - destruct (press d H) as (ed2&ed3&r2&Hmv&Hg&Hm&Hs). destruct (IH _ _ _ Hg) as (ed4&ed5&r'&Hrun&Hg'&Hm'&Hl).
    exists ed4, ed5, r'. cbn [map run step]. rewrite Hmv. cbn [bind out_opt]. split; [exact Hrun|]. split; [exact Hg'|]. split; [congruence|].
    rewrite Hm in Hl. econstructor; [|exact Hl]. rewrite map_length. exact Hs.
Qed.
End Popup.

(** ** Which entries can be selected *)
Section Leads.
Context {A : Type}.
Implicit Type l : list A.
Lemma first_like_unique l i j j' : first_like l i j -> first_like l i j' -> j = j'.
Proof.
  intros [H1 H2] [H3 H4]. destruct (lt_eq_lt_dec j j') as [[H|H]|H]; [|exact H|].
  - exfalso. exact (H4 _ H H1).
  - exfalso. exact (H2 _ H H3).
Qed.
Lemma leads_unique l ds : forall i j j', leads l ds i j -> leads l ds i j' -> j = j'.
Proof.
  induction ds as [|d ds IH]; intros i j j' H H'; inversion H; inversion H'; subst; [reflexivity|].
  match goal with H1 : first_like _ _ ?a, H2 : first_like _ _ ?b |- _ => pose proof (first_like_unique H1 H2); subst a end. eauto.
Qed.
Lemma firstn_nodup l i j k : NoDup (firstn (S i) l) -> j <= i -> k <= i -> i < length l -> nth_error l j = nth_error l k -> j = k.
Proof.
  intros Hn Hj Hk Hi E. apply (proj1 (NoDup_nth_error _) Hn); [rewrite firstn_length; lia|].
  assert (F : forall x, x <= i -> nth_error (firstn (S i) l) x = nth_error l x).
  { intros x Hx. rewrite <- (firstn_skipn (S i) l) at 2. rewrite nth_error_app1; [reflexivity|]. rewrite firstn_length. lia. }
  now rewrite !F.
Qed.
Lemma firstn_less l i j : NoDup (firstn (S i) l) -> j <= i -> NoDup (firstn (S j) l).
Proof.
  intros H Hj. rewrite <- (firstn_skipn (S j) (firstn (S i) l)) in H. rewrite firstn_firstn, Nat.min_l in H by lia.
  apply NoDup_rev in H. rewrite rev_app_distr in H. 
  assert (G : forall a b : list A, NoDup (a ++ b) -> NoDup b) by (induction a as [|x a IHa]; intros b Hb; [exact Hb|inversion Hb; auto]).
  apply G, NoDup_rev in H. now rewrite rev_involutive in H.
Qed.
Lemma firstn_more l i : NoDup (firstn i l) -> (forall j, j < i -> nth_error l j <> nth_error l i) -> i < length l -> NoDup (firstn (S i) l).
Proof.
  intros H Hn Hi. destruct (nth_error l i) as [x|] eqn:Ex; [|apply nth_error_None in Ex; lia].
  assert (E : firstn (S i) l = firstn i l ++ [x]).
  { revert Ex. clear. revert l. induction i as [|i IH]; intros [|y l] E; try discriminate; cbn in *; [congruence|]. now rewrite <- (IH l E). }
  rewrite E.
  apply (Permutation_NoDup (l := x :: firstn i l)); [apply Permutation_cons_append|]. constructor; [|exact H].
  intros Hx. apply In_nth_error in Hx as (j&Ej). assert (Hj : j < i) by (assert (j < length (firstn i l)) by (apply nth_error_Some; congruence); rewrite firstn_length in *; lia).
  apply (Hn j Hj). rewrite <- Ej. rewrite <- (firstn_skipn i l) at 1. rewrite nth_error_app1; [reflexivity|]. rewrite firstn_length. lia.
Qed.
(** Entries up to the first repetition are never left, *)
Lemma leads_within l ds : forall i j, leads l ds i j -> i < length l -> NoDup (firstn (S i) l) -> j < length l /\ NoDup (firstn (S j) l).
Proof.
  induction ds as [|d ds IH]; intros i j H Hi Hn; inversion H as [|d' ds' i' j' k Hf Hl]; subst; [auto|].
  assert (Hb : beside d i (length l) < length l) by (destruct d; cbn; lia).
  destruct Hf as [Hf1 Hf2]. assert (Hj : j' < length l) by (apply nth_error_Some; rewrite Hf1; apply nth_error_Some; exact Hb).
  apply (IH j' j Hl Hj). destruct (le_lt_dec j' i) as [Hle|Hgt]; [exact (firstn_less Hn Hle)|].
  assert (E : j' <= beside d i (length l)) by (destruct (le_lt_dec j' (beside d i (length l))) as [E|E]; [exact E|exfalso; exact (Hf2 _ E eq_refl)]).
  assert (E' : j' = S i /\ beside d i (length l) = S i) by (destruct d; cbn in *; lia). destruct E' as [-> Eb]. rewrite Eb in *.
  apply firstn_more; [exact Hn|exact Hf2|exact Hj].
Qed.
(** and all of them can be reached. *)
Lemma leads_up l k : forall i, i < length l -> NoDup (firstn (S i) l) -> leads l (repeat VUp k) i (i - k).
Proof.
  induction k as [|k IH]; intros i Hi Hn; [rewrite Nat.sub_0_r; constructor|]. cbn [repeat]. econstructor; [|replace (i - S k) with (i - 1 - k) by lia; apply IH; [lia|eapply firstn_less; eauto; lia]].
  cbn [beside]. split; [reflexivity|]. intros j Hj E. apply (firstn_nodup Hn) in E; lia.
Qed.
Lemma leads_down l k : forall i, i + k < length l -> NoDup (firstn (S (i + k)) l) -> leads l (repeat VDown k) i (i + k).
Proof.
  induction k as [|k IH]; intros i Hi Hn; [rewrite Nat.add_0_r; constructor|]. cbn [repeat]. apply leads_cons with (j := i + 1); [|replace (i + S k) with (i + 1 + k) by lia; apply IH; [lia|now replace (i + 1 + k) with (i + S k) by lia]].
  cbn [beside]. replace (Nat.min (i + 1) (length l - 1)) with (i + 1) by lia. split; [reflexivity|]. intros j Hj E. apply (firstn_nodup Hn) in E; lia.
Qed.
Lemma leads_iff l i j : i < length l -> NoDup (firstn (S i) l) -> ((exists ds, leads l ds i j) <-> j < length l /\ NoDup (firstn (S j) l)).
Proof.
  intros Hi Hn. split.
  - intros [ds H]. exact (leads_within H Hi Hn).
  - intros [Hj Hn']. destruct (le_lt_dec j i) as [H|H].
    + exists (repeat VUp (i - j)). pose proof (@leads_up l (i - j) i Hi Hn) as L. now replace (i - (i - j)) with j in L by lia.
    + exists (repeat VDown (j - i)). replace j with (i + (j - i)) at 2 by lia. apply leads_down; replace (i + (j - i)) with j by lia; assumption.
Qed.
End Leads.
