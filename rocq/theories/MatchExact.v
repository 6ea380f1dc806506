(** The matcher exactly: which matches it reports, in which order, and when it panics. *)
From Coq Require Import Sorted.
From Verif Require Import Base Str Grid Node Focus Autocomplete SpecAuto BaseFacts TreeFacts AutoFacts.
Set Implicit Arguments.
Unset Strict Implicit.

(** ** Order *)
Lemma indices_of_fuel_sorted fuel n h i l : indices_of_fuel fuel n h i = Ok l -> StronglySorted lt l.
Proof.
  revert i l; induction fuel as [|fuel IH]; intros i l H; cbn [indices_of_fuel] in H; [discriminate H|].
  apply bind_ok in H as (s&Hs&H). destruct (find s n) as [v|]; [|inv H; constructor].
  apply bind_ok in H as (rest&Hr&H). inv H. constructor; [eapply IH; eauto|]. apply Forall_forall. intros x Hx.
  apply (indices_of_fuel_sound Hr) in Hx. lia.
Qed.
Lemma collect_matches_sorted rule rev_in min potential ms : StronglySorted lt potential -> collect_matches rule rev_in min potential = Ok ms ->
  StronglySorted (fun a b => m_rule_match_length a < m_rule_match_length b) ms /\ (forall m, In m ms -> exists x, In x potential /\ m_rule_match_length m = x + 1).
Proof.
  revert ms; induction potential as [|x potential IH]; intros ms Hs H; cbn [collect_matches] in H.
  - inv H. split; [constructor|intros m []].
  - inversion Hs as [|? ? Hs' Hx]; subst. apply bind_ok in H as ([cur count]&E&H). apply bind_ok in H as (rest&Hr&H).
    destruct (IH _ Hs' Hr) as [I1 I2].
    assert (Hrest : StronglySorted (fun a b => m_rule_match_length a < m_rule_match_length b) rest /\
      (forall m, In m rest -> exists y, In y (x :: potential) /\ m_rule_match_length m = y + 1)).
    { split; auto. intros m Hm. destruct (I2 _ Hm) as (y&Hy&Ey). exists y. split; auto. now right. }
    destruct (cur =? 0); [|inv H; exact Hrest]. destruct (count <? min); [inv H; exact Hrest|]. inv H. split.
    + constructor; auto. apply Forall_forall. intros m Hm. destruct (I2 _ Hm) as (y&Hy&->). cbn [m_rule_match_length].
      rewrite Forall_forall in Hx. specialize (Hx _ Hy). lia.
    + intros m [<-|Hm]; [exists x; split; [now left|reflexivity]|apply Hrest; auto].
Qed.
Lemma rule_matches_sorted rule input caret min ms : rule_matches rule input caret min = Ok ms ->
  StronglySorted (fun a b => m_rule_match_length a < m_rule_match_length b) ms.
Proof.
  unfold rule_matches. intros H. apply bind_ok in H as (u0&_&H). apply bind_ok in H as (inp&_&H). apply bind_ok in H as (pot&Hp&H).
  refine (proj1 (collect_matches_sorted _ H)). destruct (rev inp) as [|[v g|s] tl]; [inv Hp; constructor|inv Hp; constructor|].
  exact (indices_of_fuel_sorted Hp).
Qed.

(** ** Panics *)
(** A text that begins with a character of several bytes: after finding it the search goes on inside of this character. *)
Lemma indices_of_wide n c n' h l : n = c :: n' -> utf8_len c <> 1 -> indices_of n h = Ok l -> l = [].
Proof.
  intros -> Hc H. unfold indices_of in H. rewrite Nat.add_comm in H. cbn [Nat.add indices_of_fuel] in H.
  change (slice_from h 0) with (slice_from ([] ++ h) (byte_len [])) in H. rewrite slice_from_ok in H. cbn [bind] in H.
  destruct (find h (c :: n')) as [v|] eqn:Ef; [|now inv H]. apply bind_ok in H as (rest&Hr&_).
  exfalso. destruct (find_some Ef) as (p&q&->&<-). cbn [indices_of_fuel] in Hr. apply bind_ok in Hr as (t&Ht&_).
  apply slice_from_inv in Ht as (a&Ha&La). pose proof (utf8_len_pos c).
  assert (Hle : byte_len p <= byte_len a) by lia. cbn [app] in Ha.
  destruct (prefix_shorter Ha Hle) as (e&->&He). rewrite byte_len_app in La. destruct e as [|d e]; [change (byte_len []) with 0 in La; lia|].
  cbn [app] in He. injection He as -> _. rewrite byte_len_cons in La. lia.
Qed.

(** The node in front of the caret is a symbol that the matcher can look for in the text. *)
Definition searchable (text : str) (n : InputNode) : Prop :=
  match n with
  | Container _ _ => True
  | Symbol s => ascii_start s \/ (s <> [] /\ forall a b, text <> a ++ s ++ b)
  end.
Lemma rule_matches_exact rule input caret min :
  (exists ms, rule_matches rule input caret min = Ok ms) <->
  rule_parser rule <> [] /\ caret <= length input /\ forall b n, firstn caret input = b ++ [n] -> searchable (rule_parser rule) n.
Proof.
  split.
  - intros (ms&H). pose proof (rule_matches_inv H) as [Hc _]. unfold rule_matches in H. apply bind_ok in H as (u0&Ha&H).
    split; [intros E; rewrite E in Ha; discriminate Ha|]. split; [exact Hc|]. intros b n Hn. destruct n as [v g|s]; [exact I|].
    rewrite slice_prefix in H by auto. cbn [bind] in H. rewrite Hn, rev_app_distr in H. cbn [rev app] in H. apply bind_ok in H as (pot&Hp&_).
    cbn [searchable]. destruct s as [|c s]; [exfalso; exact (empty_needle Hp)|].
    destruct (Nat.eq_dec (utf8_len c) 1) as [E|E]; [left; exists c, s; auto|]. right. split; [discriminate|]. intros a b' Hab.
    pose proof (indices_of_wide eq_refl E Hp) as ->. apply (indices_of_sound Hp (byte_len a)). exists a, b'. auto.
  - intros (Hr&Hc&Hn). apply rule_matches_ok; auto. intros b s Hs. specialize (Hn _ _ Hs). cbn [searchable] in Hn.
    destruct Hn as [Hn|[Hn1 Hn2]]; [now left|]. right. split; auto. intros x (a&b'&Hab&_). exact (Hn2 _ _ Hab).
Qed.
