(** Strings and the autocomplete matcher. *)
From Verif Require Import Base Str Grid Node Focus Edit Caret Autocomplete SpecAuto BaseFacts.
From Coq Require Import Permutation Sorted.
Set Implicit Arguments.
Unset Strict Implicit.

(** ** Strings *)
Lemma utf8_len_pos c : 1 <= utf8_len c.
Proof. unfold utf8_len. destruct (c <? 128)%N, (c <? 2048)%N, (c <? 65536)%N; lia. Qed.
Lemma byte_len_app a b : byte_len (a ++ b) = byte_len a + byte_len b.
Proof. unfold byte_len. rewrite map_app. induction a; simpl; [reflexivity|]. simpl in IHa. lia. Qed.
Lemma byte_len_cons c s : byte_len (c :: s) = utf8_len c + byte_len s.
Proof. reflexivity. Qed.
Lemma byte_len_0 s : byte_len s = 0 -> s = [].
Proof. destruct s; [reflexivity|]. rewrite byte_len_cons. pose proof (utf8_len_pos n). lia. Qed.
Lemma byte_len_pos s : s <> [] -> 0 < byte_len s.
Proof. destruct s; [congruence|]. rewrite byte_len_cons. pose proof (utf8_len_pos n). lia. Qed.

Lemma slice_from_ok p s : slice_from (p ++ s) (byte_len p) = Ok s.
Proof.
  induction p as [|c p IH]; simpl; [destruct s; reflexivity|].
  rewrite byte_len_cons. pose proof (utf8_len_pos c).
  destruct (utf8_len c + byte_len p) eqn:E; [lia|]. rewrite <- E.
  replace (utf8_len c <=? utf8_len c + byte_len p) with true by lia.
  now replace (utf8_len c + byte_len p - utf8_len c) with (byte_len p) by lia.
Qed.
Lemma slice_from_inv s i t : slice_from s i = Ok t -> exists p, s = p ++ t /\ byte_len p = i.
Proof.
  revert i; induction s as [|c s IH]; intros [|i] H; cbn [slice_from] in H; try discriminate; try (inv H; now exists []).
  destruct (utf8_len c <=? S i) eqn:E; [|discriminate]. apply IH in H as (p&->&Hp).
  exists (c :: p). rewrite byte_len_cons. split; [reflexivity|lia].
Qed.
Lemma slice_to_ok t q : slice_to (t ++ q) (byte_len t) = Ok t.
Proof.
  induction t as [|c p IH]; simpl; [destruct q; reflexivity|].
  rewrite byte_len_cons. pose proof (utf8_len_pos c).
  destruct (utf8_len c + byte_len p) eqn:E; [lia|]. rewrite <- E.
  replace (utf8_len c <=? utf8_len c + byte_len p) with true by lia.
  replace (utf8_len c + byte_len p - utf8_len c) with (byte_len p) by lia. now rewrite IH.
Qed.
Lemma slice_to_inv s i t : slice_to s i = Ok t -> exists q, s = t ++ q /\ byte_len t = i.
Proof.
  revert i t; induction s as [|c s IH]; intros [|i] t H; cbn [slice_to] in H; try discriminate; try (inv H; simpl; eauto; fail).
  destruct (utf8_len c <=? S i) eqn:E; [|discriminate]. apply bind_ok in H as (r&Hr&H). inv H.
  apply IH in Hr as (q&->&Hp). exists q. rewrite byte_len_cons. split; [reflexivity|lia].
Qed.
Lemma starts_with_iff s p : starts_with s p = true <-> exists q, s = p ++ q.
Proof.
  revert s; induction p as [|x p IH]; intros s.
  - split; [intros _; now exists s|]. now destruct s.
  - destruct s as [|y s]; [split; [discriminate|intros [q H]; discriminate]|].
    cbn [starts_with]. rewrite andb_true_iff, N.eqb_eq, IH. split.
    + intros [-> [q ->]]. now exists q.
    + intros [q H]. injection H as -> ->. split; auto. now exists q.
Qed.
Lemma ends_with_iff s p : ends_with s p = true <-> exists q, s = q ++ p.
Proof.
  unfold ends_with. rewrite starts_with_iff. split.
  - intros [q H]. exists (rev q). rewrite <- (rev_involutive s), H, rev_app_distr, rev_involutive. reflexivity.
  - intros [q ->]. exists (rev q). apply rev_app_distr.
Qed.

(** Prefixes of one string are determined by their byte length. *)
Lemma prefix_bytes (a b c d : str) : a ++ b = c ++ d -> byte_len a = byte_len c -> a = c /\ b = d.
Proof.
  revert c; induction a as [|x a IH]; intros [|y c] H L; simpl in H.
  - auto.
  - rewrite byte_len_cons in L. pose proof (utf8_len_pos y). simpl in L. unfold byte_len in L; simpl in L. lia.
  - rewrite byte_len_cons in L. pose proof (utf8_len_pos x). unfold byte_len in L at 2; simpl in L. lia.
  - injection H as -> H. rewrite !byte_len_cons in L. destruct (IH c) as [-> ->]; auto. lia.
Qed.
Lemma prefix_shorter (a b c d : str) : a ++ b = c ++ d -> byte_len a <= byte_len c -> exists e, c = a ++ e /\ b = e ++ d.
Proof.
  revert c; induction a as [|x a IH]; intros [|y c] H L; simpl in H.
  - exists []. auto.
  - exists (y :: c). auto.
  - rewrite byte_len_cons in L. pose proof (utf8_len_pos x). unfold byte_len in L at 2; simpl in L. lia.
  - injection H as -> H. rewrite !byte_len_cons in L. destruct (IH c) as (e&->&->); auto; [lia|]. exists e. auto.
Qed.

Lemma find_some s n i : find s n = Some i -> exists p q, s = p ++ n ++ q /\ byte_len p = i.
Proof.
  revert i; induction s as [|c s IH]; intros i H; cbn [find] in H.
  - destruct (starts_with [] n) eqn:E; [|discriminate]. inv H. apply starts_with_iff in E as [q E]. exists [], q. auto.
  - destruct (starts_with (c :: s) n) eqn:E.
    + inv H. apply starts_with_iff in E as [q E]. exists [], q. auto.
    + destruct (find s n) as [j|]; [|discriminate]. inv H. destruct (IH _ eq_refl) as (p&q&->&<-).
      exists (c :: p), q. auto.
Qed.
Lemma find_first s n p q : s = p ++ n ++ q -> exists i, find s n = Some i /\ i <= byte_len p.
Proof.
  revert s; induction p as [|c p IH]; intros s ->.
  - assert (E : starts_with (n ++ q) n = true) by (apply starts_with_iff; now exists q).
    exists 0. cbn [app]. destruct (n ++ q); cbn [find]; rewrite E; auto.
  - cbn [app find]. destruct (starts_with (c :: p ++ n ++ q) n).
    + exists 0. split; auto. lia.
    + destruct (IH _ eq_refl) as (i&Hi&Hl). rewrite Hi. eexists. split; [reflexivity|].
      rewrite byte_len_cons. lia.
Qed.

(** ** [indices_of] *)
Definition occurs (needle hay : str) (x : nat) : Prop := exists a b, hay = a ++ needle ++ b /\ byte_len a = x.

Lemma indices_of_fuel_sound fuel n h i l : indices_of_fuel fuel n h i = Ok l ->
  forall x, In x l <-> occurs n h x /\ i <= x.
Proof.
  revert i l; induction fuel as [|fuel IH]; intros i l H; simpl in H; [discriminate|].
  apply bind_ok in H as (s&Hs&H). apply slice_from_inv in Hs as (p0&->&Hi).
  destruct (find s n) as [v|] eqn:Ef.
  - apply bind_ok in H as (rest&Hr&H). inv H. specialize (IH _ _ Hr).
    destruct (find_some Ef) as (p&q&->&<-). intros x. cbn [In]. rewrite IH. split.
    + intros [<-|[Ho Hx]]; [|split; auto; lia]. split; [|lia].
      exists (p0 ++ p), q. rewrite byte_len_app, <- app_assoc. split; auto. lia.
    + intros [Ho Hx]. destruct (Nat.eq_dec (byte_len p + byte_len p0) x); auto.
      right. split; auto. destruct Ho as (a&b&Hab&<-).
      destruct (prefix_shorter Hab) as (e&->&He); [lia|].
      destruct (find_first He) as (v&Hv&Hle). rewrite Ef in Hv. inv Hv.
      rewrite byte_len_app in *. lia.
  - inv H. intros x. split; [intros []|]. intros [(a&b&Hab&<-) Hx].
    destruct (prefix_shorter Hab) as (e&->&He); [lia|]. destruct (find_first He) as (v&Hv&_). congruence.
Qed.

(** The search does not panic if the needle begins with an ASCII character. *)
Lemma indices_of_fuel_ok fuel n h p s : ascii_start n -> h = p ++ s -> byte_len s < fuel ->
  exists l, indices_of_fuel fuel n h (byte_len p) = Ok l.
Proof.
  intros (c&n'&->&Hc). revert p s; induction fuel as [|fuel IH]; intros p s -> Hf; [lia|].
  cbn [indices_of_fuel]. rewrite slice_from_ok. cbn [bind].
  destruct (find s (c :: n')) as [v|] eqn:Ef; [|eauto].
  destruct (find_some Ef) as (a&b&->&<-).
  destruct (IH (p ++ a ++ [c]) (n' ++ b)) as (l&Hl).
  { rewrite <- !app_assoc. reflexivity. }
  { rewrite byte_len_app in Hf. cbn [app] in Hf. rewrite byte_len_cons in Hf. lia. }
  assert (Hb : byte_len (p ++ a ++ [c]) = byte_len a + byte_len p + 1).
  { rewrite !byte_len_app, byte_len_cons, Hc. unfold byte_len at 3; simpl. lia. }
  rewrite Hb in Hl. cbn [app] in *.
  rewrite Hl. cbn [bind]. eauto.
Qed.
Lemma indices_of_ok n h : ascii_start n -> exists l, indices_of n h = Ok l /\ forall x, In x l <-> occurs n h x.
Proof.
  intros Ha. destruct (@indices_of_fuel_ok (byte_len h + 2) n h [] h Ha eq_refl) as (l&Hl); [lia|]. change (byte_len []) with 0 in Hl.
  exists l. split; [exact Hl|]. intros x. rewrite (indices_of_fuel_sound Hl). split; [tauto|]. intros; split; auto. lia.
Qed.
Lemma indices_of_sound n h l : indices_of n h = Ok l -> forall x, In x l <-> occurs n h x.
Proof. intros H x. rewrite (indices_of_fuel_sound H). split; [tauto|]. intros; split; auto. lia. Qed.

(** A needle that does not occur is also harmless. *)
Lemma indices_of_none n h : (forall x, ~ occurs n h x) -> indices_of n h = Ok [].
Proof.
  intros H. unfold indices_of. rewrite Nat.add_comm. cbn [Nat.add indices_of_fuel].
  change (slice_from h 0) with (slice_from ([] ++ h) (byte_len [])). rewrite slice_from_ok. cbn [bind].
  destruct (find h n) as [v|] eqn:Ef; auto. destruct (find_some Ef) as (p&q&->&<-).
  exfalso. eapply H. exists p, q. eauto.
Qed.

(** ** [match_back] *)
Lemma match_back_spec t rest : forall rev_in q count,
  rev_in = rest -> exists t' syms rest',
  match_back (t ++ q) rev_in (byte_len t) count = Ok (byte_len t', count + length syms) /\
  t = t' ++ concat syms /\ rest = map Symbol (rev syms) ++ rest' /\
  (forall s rest'', rest' = Symbol s :: rest'' -> forall a, t' <> a ++ s).
Proof.
  revert t. induction rest as [|n rest IH]; intros t rev_in q count ->.
  - exists t, [], []. cbn [match_back length concat map rev app]. rewrite app_nil_r, Nat.add_0_r.
    split; auto. split; auto. split; auto. discriminate.
  - destruct n as [v g|s].
    + exists t, [], (Container v g :: rest). cbn [match_back length concat map rev app]. rewrite app_nil_r, Nat.add_0_r.
      split; auto. split; auto. split; auto. discriminate.
    + cbn [match_back]. rewrite slice_to_ok. cbn [bind].
      destruct (ends_with t s) eqn:Ee.
      * apply ends_with_iff in Ee as [a ->].
        destruct (IH a rest (s ++ q) (count + 1) eq_refl) as (t'&syms&rest'&Hm&->&->&Hmax).
        exists t', (syms ++ [s]), rest'. split.
        { rewrite <- (app_assoc (t' ++ concat syms) s q).
          replace (byte_len ((t' ++ concat syms) ++ s) - byte_len s) with (byte_len (t' ++ concat syms))
            by (rewrite (byte_len_app _ s); lia).
          rewrite Hm. do 2 f_equal. rewrite app_length. simpl. lia. }
        split; [rewrite concat_app; simpl; now rewrite app_nil_r, app_assoc|].
        split; [|exact Hmax]. rewrite rev_app_distr. reflexivity.
      * exists t, [], (Symbol s :: rest). cbn [length concat map rev app]. rewrite app_nil_r, Nat.add_0_r.
        split; auto. split; auto. split; auto. intros s' r' H a Ha. inv H.
        assert (ends_with (a ++ s') s' = true) by (apply ends_with_iff; now exists a). congruence.
Qed.

(** ** The matcher *)
Definition boundary (h : str) (x : nat) : Prop := exists a b, h = a ++ b /\ byte_len a = x.
Lemma occurs_boundary n h x : occurs n h x -> boundary h x.
Proof. intros (a&b&->&<-). exists a, (n ++ b). auto. Qed.

Lemma match_back_ok h rest x count : boundary h x -> exists r, match_back h rest x count = Ok r.
Proof.
  intros (a&b&->&<-). destruct (match_back_spec a b count (@eq_refl _ rest)) as (t'&syms&rest'&H&_). eauto.
Qed.

Lemma collect_matches_ok rule rev_in min potential :
  (forall x, In x potential -> boundary (rule_parser rule) x) ->
  exists ms, collect_matches rule rev_in min potential = Ok ms /\
    forall m, In m ms <-> exists x count, In x potential /\
      match_back (rule_parser rule) (skipn 1 rev_in) x 1 = Ok (0, count) /\ min <= count /\ m = mkMatch rule (x + 1) count.
Proof.
  induction potential as [|x potential IH]; intros H; cbn [collect_matches].
  - exists []. split; auto. intros m. split; [intros []|]. intros (y&c&[]&_).
  - destruct (match_back_ok (skipn 1 rev_in) 1 (H x (or_introl eq_refl))) as ([cur count]&E). rewrite E. cbn [bind].
    destruct IH as (ms&Hms&Hin). { intros y Hy. apply H. now right. } rewrite Hms. cbn [bind].
    assert (Hskip : (cur <> 0 \/ count < min) -> forall m, In m ms <-> exists y c, In y (x :: potential) /\
      match_back (rule_parser rule) (skipn 1 rev_in) y 1 = Ok (0, c) /\ min <= c /\ m = mkMatch rule (y + 1) c).
    { intros Hne m. rewrite Hin. split.
      - intros (y&c&H1&H2). exists y, c. split; auto. now right.
      - intros (y&c&[<-|H1]&H2&H3&H4); [|exists y, c; auto]. rewrite E in H2. inv H2. lia. }
    destruct (cur =? 0) eqn:Ec; [|exists ms; split; auto; apply Hskip; lia].
    destruct (count <? min) eqn:El; [exists ms; split; auto; apply Hskip; lia|].
    assert (cur = 0) by lia. subst cur.
    exists (mkMatch rule (x + 1) count :: ms). split; auto. intros m. cbn [In]. rewrite Hin. split.
    + intros [<-|(y&c&H1&H2)].
      * exists x, count. split; auto. split; auto. split; auto. lia.
      * exists y, c. auto.
    + intros (y&c&[<-|H1]&H2&H3&H4); [|right; exists y, c; auto]. left. rewrite E in H2. inv H2. auto.
Qed.

Lemma empty_needle fuel h i l : indices_of_fuel fuel [] h i <> Ok l.
Proof.
  revert i l; induction fuel as [|fuel IH]; intros i l H; cbn [indices_of_fuel] in H; [discriminate|].
  apply bind_ok in H as (s&Hs&H). replace (find s []) with (Some 0) in H by (destruct s; reflexivity).
  apply bind_ok in H as (r&Hr&_). exact (IH _ _ Hr).
Qed.

Lemma slice_prefix A (l : list A) n : n <= length l -> slice l 0 n = Ok (firstn n l).
Proof. intros H. unfold slice. replace ((0 <=? n) && (n <=? length l)) with true by lia. now rewrite Nat.sub_0_r. Qed.

(** All matches, exactly. *)
Lemma rule_matches_inv rule input caret min ms : rule_matches rule input caret min = Ok ms ->
  caret <= length input /\ forall m, In m ms <-> exists before syms last rest,
    firstn caret input = before ++ map Symbol (syms ++ [last]) /\ rule_parser rule = concat syms ++ last ++ rest /\
    min <= length syms + 1 /\ m = mkMatch rule (byte_len (concat syms) + 1) (length syms + 1) /\
    last <> [] /\ (forall b', before <> b' ++ [Symbol []]).
Proof.
  unfold rule_matches. intros H. apply bind_ok in H as (u0&_&H). apply bind_ok in H as (inp&Hs&H).
  unfold slice in Hs. destruct ((0 <=? caret) && (caret <=? length input)) eqn:Ec; [|discriminate]. inv Hs.
  rewrite Nat.sub_0_r in H. cbn [skipn] in H. split; [lia|].
  destruct (rev (firstn caret input)) as [|n tl] eqn:Er.
  { inv H. apply (f_equal (@rev _)) in Er. rewrite rev_involutive in Er. rewrite Er. intros m. split; [intros []|].
    intros (b&sy&la&re&Hf&_). rewrite map_app in Hf. destruct b, (map Symbol sy); discriminate. }
  apply (f_equal (@rev _)) in Er. rewrite rev_involutive in Er. cbn [rev] in Er.
  destruct n as [v g|s].
  { cbn [bind collect_matches] in H. inv H. intros m. split; [intros []|].
    intros (b&sy&la&re&Hf&_). rewrite Er, map_app, app_assoc in Hf. apply app_inj_tail in Hf as [_ Hf]. discriminate. }
  apply bind_ok in H as (pot&Hp&H). pose proof (indices_of_sound Hp) as Hocc.
  assert (Hne : s <> []). { intros ->. exact (empty_needle Hp). }
  destruct (@collect_matches_ok rule (Symbol s :: tl) min pot) as (ms'&Hms&Hin).
  { intros x Hx. apply Hocc in Hx. eapply occurs_boundary; eauto. }
  rewrite Hms in H. inv H. intros m. rewrite Hin. cbn [skipn]. split.
  - intros (x&count&Hx&Hm&Hmin&->). apply Hocc in Hx as (a&b&Hab&<-). rewrite Hab in Hm.
    destruct (match_back_spec a (s ++ b) 1 (@eq_refl _ tl)) as (t'&syms&rest'&Hm'&Ha&->&Hmax).
    rewrite Hm in Hm'. assert (H1 : byte_len t' = 0) by congruence. assert (H2 : count = 1 + length syms) by congruence. clear Hm Hm'.
    apply byte_len_0 in H1. subst t'. cbn [app] in Ha. subst a.
    exists (rev rest'), syms, s, b. split.
    { rewrite Er, rev_app_distr, map_rev, rev_involutive, map_app, app_assoc. reflexivity. }
    split; auto. unfold str in *. split; [lia|]. split; [f_equal; lia|]. split; auto.
    intros b' Hb. apply (f_equal (@rev _)) in Hb. rewrite rev_involutive, rev_app_distr in Hb. cbn in Hb.
    apply (Hmax _ _ Hb []). reflexivity.
  - intros (before&syms&last&rest&Hf&Hpar&Hmin&->&Hl&Hb).
    rewrite Er, map_app, app_assoc in Hf. cbn [map] in Hf. apply app_inj_tail in Hf as [Hf Hs]. inv Hs.
    apply (f_equal (@rev _)) in Hf. rewrite rev_involutive, rev_app_distr, <- map_rev in Hf. subst tl.
    exists (byte_len (concat syms)), (length syms + 1). split.
    { apply Hocc. exists (concat syms), rest. auto. }
    split; [|split; auto]. rewrite Hpar. 
    destruct (match_back_spec (concat syms) (last ++ rest) 1 (@eq_refl _ (map Symbol (rev syms) ++ rev before)))
      as (t'&syms'&rest'&Hm&Hc&Hrest&Hmax).
    rewrite Hm. clear Hm Hin Hms Hp Hocc Hmin Hpar Er.
    (* the greedy walk stops exactly at the beginning *)
    assert (Hd : t' = [] /\ length syms' = length syms).
    { clear - Hc Hrest Hmax Hb. revert syms' Hc Hrest. induction syms as [|y syms IH] using rev_ind; intros syms' Hc Hrest.
      - cbn [concat map rev app] in *. symmetry in Hc. apply app_eq_nil in Hc as [-> Hc]. split; auto.
        destruct syms' as [|x syms'] using rev_ind; auto. exfalso.
        rewrite concat_app in Hc. apply app_eq_nil in Hc as [_ Hc]. cbn in Hc. rewrite app_nil_r in Hc. subst x.
        rewrite rev_app_distr in Hrest. cbn in Hrest. apply (f_equal (@rev _)) in Hrest. rewrite rev_involutive in Hrest.
        cbn in Hrest. exact (Hb _ Hrest).
      - rewrite rev_app_distr in Hrest. cbn [rev map app] in Hrest.
        destruct syms' as [|x syms' _] using rev_ind.
        + cbn [map rev app] in Hrest. cbn [concat] in Hc. rewrite app_nil_r, concat_app in Hc. cbn in Hc. rewrite app_nil_r in Hc.
          exfalso. symmetry in Hrest. apply (Hmax _ _ Hrest (concat syms)). auto.
        + rewrite rev_app_distr in Hrest. cbn [rev map app] in Hrest. injection Hrest as -> Hrest.
          rewrite !concat_app in Hc. cbn [concat] in Hc. rewrite !app_nil_r in Hc. rewrite app_assoc in Hc.
          apply app_inv_tail in Hc. destruct (IH _ Hc Hrest) as [Ht Hl]. split; auto. rewrite !app_length. simpl. lia. }
    destruct Hd as [-> Hd]. rewrite Hd. do 2 f_equal. lia.
Qed.

Lemma rule_matches_ok rule input caret min : rule_parser rule <> [] -> caret <= length input ->
  (forall b s, firstn caret input = b ++ [Symbol s] -> ascii_start s \/ (s <> [] /\ forall x, ~ occurs s (rule_parser rule) x)) ->
  exists ms, rule_matches rule input caret min = Ok ms.
Proof.
  intros Hr Hc Hs. unfold rule_matches. replace (match rule_parser rule with [] => false | _ => true end) with true
    by (destruct (rule_parser rule); congruence). cbn [assert_ bind]. rewrite slice_prefix by auto. cbn [bind].
  destruct (rev (firstn caret input)) as [|n tl] eqn:Er; cbn [bind]; [eexists; reflexivity|].
  apply (f_equal (@rev _)) in Er. rewrite rev_involutive in Er. cbn [rev] in Er.
  destruct n as [v g|s]; [eexists; reflexivity|].
  destruct (Hs _ _ Er) as [Ha|[_ Hn]].
  - destruct (indices_of_ok (rule_parser rule) Ha) as (l&Hl&Hin). rewrite Hl. cbn [bind].
    destruct (@collect_matches_ok rule (Symbol s :: tl) min l) as (ms&Hms&_); eauto.
    intros x Hx. apply Hin in Hx. eapply occurs_boundary; eauto.
  - rewrite indices_of_none by auto. eexists; reflexivity.
Qed.

(** ** Theorems *)
Lemma match_sound rule input caret min ms m : rule_matches rule input caret min = Ok ms -> In m ms ->
  exists syms rest, ends_in_symbols input caret syms /\ length syms = m_input_match_length m /\
    rule_parser rule = concat syms ++ rest /\ m_rule m = rule /\ 1 <= length syms /\ min <= length syms /\
    (is_complete_match m = true -> rest = []) /\
    (forall syms' last, syms = syms' ++ [last] -> byte_len last = 1 ->
       m_rule_match_length m = byte_len (concat syms) /\ (rest = [] -> is_complete_match m = true)).
Proof.
  intros H Hin. destruct (rule_matches_inv H) as [_ Hi]. apply Hi in Hin as (before&syms&last&rest&Hf&Hp&Hmin&->&Hl&_).
  exists (syms ++ [last]), rest. cbn [m_input_match_length m_rule m_rule_match_length].
  assert (Hcat : concat (syms ++ [last]) = concat syms ++ last) by (rewrite concat_app; cbn; now rewrite app_nil_r).
  rewrite app_length, Hcat. cbn [length].
  split; [now exists before|]. split; [reflexivity|]. split; [now rewrite <- app_assoc|]. split; auto. split; [lia|]. split; [lia|].
  unfold is_complete_match. cbn [m_rule_match_length m_rule]. rewrite Hp, !byte_len_app. split.
  - intros Hc. apply Nat.eqb_eq in Hc. apply byte_len_pos in Hl. apply byte_len_0. lia.
  - intros syms' last' He Hl1. apply app_inj_tail in He as [<- <-]. rewrite Hl1. split; auto. intros ->.
    change (byte_len []) with 0. apply Nat.eqb_eq. lia.
Qed.

Lemma match_complete rule input caret min before syms rest :
  caret <= length input -> firstn caret input = before ++ map Symbol syms -> syms <> [] ->
  rule_parser rule = concat syms ++ rest -> min <= length syms ->
  ascii_start (last syms []) -> (forall b', before <> b' ++ [Symbol []]) ->
  exists ms m, rule_matches rule input caret min = Ok ms /\ In m ms /\ m_rule m = rule /\ m_input_match_length m = length syms.
Proof.
  intros Hc Hf Hne Hp Hmin Ha Hb. destruct (exists_last Hne) as (sy&la&->). rewrite last_last in Ha.
  rewrite concat_app in Hp. cbn in Hp. rewrite app_nil_r, <- app_assoc in Hp.
  destruct (@rule_matches_ok rule input caret min) as (ms&Hms); auto.
  { destruct Ha as (c&s'&->&_). rewrite Hp. destruct (concat sy); discriminate. }
  { intros b s Hbs. rewrite Hf, map_app, app_assoc in Hbs. apply app_inj_tail in Hbs as [_ Hbs]. inv Hbs. auto. }
  exists ms, (mkMatch rule (byte_len (concat sy) + 1) (length sy + 1)). split; auto. split; [|split; auto].
  - apply (rule_matches_inv Hms). exists before, sy, la, rest. rewrite app_length in Hmin.
    split; auto. split; auto. split; auto. split; auto. split; auto. destruct Ha as (c&s'&->&_). discriminate.
  - cbn. rewrite app_length. reflexivity.
Qed.

(** ** The popup *)
Lemma list_eqb_iff A (eqb : A -> A -> bool) a b :
  (forall x y, In x a -> (eqb x y = true <-> x = y)) -> (list_eqb eqb a b = true <-> a = b).
Proof.
  revert b; induction a as [|x a IH]; destruct b as [|y b]; cbn [list_eqb]; intros H; split; try discriminate; auto.
  - intros E. apply andb_prop in E as [E1 E2]. apply H in E1; [|now left]. apply IH in E2; [congruence|].
    intros ? ? ?. apply H. now right.
  - intros E. inv E. apply andb_true_intro. split; [now apply H; [left|]|]. apply IH; auto. intros ? ? ?. apply H. now right.
Qed.

Lemma variant_eqb_iff a b : variant_eqb a b = true <-> a = b.
Proof. destruct a, b; cbn; split; intros; congruence. Qed.

Lemma node_eqb_iff a : forall b, node_eqb a b = true <-> a = b.
Proof.
  induction a as [s|v rows w IH] using node_ind'; intros [v' [rows' w']|s']; cbn [node_eqb]; try (split; discriminate).
  - rewrite str_eqb_eq. split; intros; congruence.
  - match goal with |- _ && ?f rows rows' = true <-> _ =>
      assert (Hf : forall a b, f a b = list_eqb (list_eqb node_eqb) a b) end.
    { induction a as [|x a IHa]; destruct b as [|y b]; auto. cbn [list_eqb]. rewrite <- IHa. cbn [node_eqb]. f_equal.
      clear. revert y. induction x as [|n x IHx]; intros [|m y]; auto. cbn [list_eqb]. rewrite <- IHx. reflexivity. }
    rewrite Hf. clear Hf.
    assert (Hr : list_eqb (list_eqb node_eqb) rows rows' = true <-> rows = rows').
    { apply list_eqb_iff. intros x y Hx. apply list_eqb_iff. intros n m Hn.
      eapply IH; eauto. }
    split.
    + intros H. apply andb_prop in H as [H1 H2]. apply andb_prop in H1 as [H0 H1]. apply Nat.eqb_eq in H1.
      apply variant_eqb_iff in H0. apply Hr in H2. congruence.
    + intros H. inv H. rewrite Nat.eqb_refl. replace (variant_eqb v' v') with true by (symmetry; now apply variant_eqb_iff).
      now apply Hr.
Qed.

Lemma rule_eqb_iff a b : rule_eqb a b = true <-> a = b.
Proof.
  destruct a as [p r], b as [p' r']. unfold rule_eqb. cbn. split.
  - intros H. apply andb_prop in H as [H1 H2]. apply str_eqb_eq in H1. apply list_eqb_iff in H2; [congruence|].
    intros; apply node_eqb_iff.
  - intros H. inv H. apply andb_true_intro. split; [now apply str_eqb_eq|]. apply list_eqb_iff; auto.
    intros; apply node_eqb_iff.
Qed.

Lemma position_some A (f : A -> bool) l i : position f l = Some i ->
  exists x, nth_error l i = Some x /\ f x = true /\ forall j y, j < i -> nth_error l j = Some y -> f y = false.
Proof.
  revert i; induction l as [|x l IH]; cbn [position]; intros i H; [discriminate|].
  destruct (f x) eqn:E.
  - inv H. exists x. split; auto. split; auto. lia.
  - destruct (position f l) as [k|]; [|discriminate]. inv H. destruct (IH _ eq_refl) as (y&H1&H2&H3).
    exists y. split; auto. split; auto. intros [|j] z Hj Hz; cbn in Hz; [congruence|]. apply (H3 j z); auto. lia.
Qed.
Lemma position_none A (f : A -> bool) l : position f l = None -> forall x, In x l -> f x = false.
Proof.
  induction l as [|x l IH]; cbn [position]; intros H y []; subst.
  - destruct (f y); [discriminate|auto].
  - destruct (f x); [discriminate|]. destruct (position f l); [discriminate|]. auto.
Qed.

Lemma insert_match_perm m l : Permutation (insert_match m l) (m :: l).
Proof.
  induction l as [|x l IH]; cbn [insert_match]; auto. destruct (_ <=? _); auto.
  rewrite IH. constructor.
Qed.
Lemma sort_matches_perm l : Permutation (sort_matches l) l.
Proof. unfold sort_matches. induction l as [|m l IH]; cbn [fold_right]; auto. now rewrite insert_match_perm, IH. Qed.

Lemma insert_match_sorted m l : StronglySorted by_length l -> StronglySorted by_length (insert_match m l).
Proof.
  induction 1 as [|x l Hs IH Hx]; cbn [insert_match]; [repeat constructor|].
  destruct (m_rule_match_length m <=? m_rule_match_length x) eqn:E.
  - constructor; [now constructor|]. constructor; [unfold by_length; lia|].
    eapply Forall_impl; [|exact Hx]. unfold by_length. intros; lia.
  - constructor; auto. eapply Permutation_Forall; [symmetry; apply insert_match_perm|]. constructor; auto. unfold by_length; lia.
Qed.
Lemma sort_matches_sorted l : StronglySorted by_length (sort_matches l).
Proof. unfold sort_matches. induction l; cbn [fold_right]; [constructor|]. now apply insert_match_sorted. Qed.

Lemma insert_match_stable k m l : StronglySorted by_length l ->
  filter (of_length k) (insert_match m l) = filter (of_length k) (m :: l).
Proof.
  induction 1 as [|x l Hs IH Hx]; cbn [insert_match]; auto.
  destruct (m_rule_match_length m <=? m_rule_match_length x) eqn:E; auto.
  cbn [filter] in *. rewrite IH.
  destruct (of_length k x) eqn:E1, (of_length k m) eqn:E2; auto. exfalso. unfold of_length in *. lia.
Qed.
Lemma sort_matches_stable k l : filter (of_length k) (sort_matches l) = filter (of_length k) l.
Proof.
  unfold sort_matches. induction l as [|m l IH]; cbn [fold_right]; auto.
  rewrite insert_match_stable by apply sort_matches_sorted. cbn [filter]. unfold sort_matches in *. now rewrite IH.
Qed.

Lemma popup_shown current ms p current' r : state_get_autocomplete current ms p = Ok (current', Some r) ->
  Permutation (ar_matches r) ms /\ StronglySorted by_length (ar_matches r) /\
  (forall k, filter (of_length k) (ar_matches r) = filter (of_length k) ms) /\ ar_position r = p /\
  exists m, nth_error (ar_matches r) (ar_selected r) = Some m /\ current' = Some (m_rule m) /\
    (forall rule, current = Some rule -> (exists m', In m' ms /\ m_rule m' = rule) ->
       m_rule m = rule /\ forall j m', j < ar_selected r -> nth_error (ar_matches r) j = Some m' -> m_rule m' <> rule) /\
    ((forall rule, current = Some rule -> forall m', In m' ms -> m_rule m' <> rule) -> ar_selected r = 0).
Proof.
  unfold state_get_autocomplete. intros H. destruct ms as [|m0 ms0] eqn:Ems; [discriminate|]. rewrite <- Ems in *.
  apply bind_ok in H as (r'&Hr&H). inv H. unfold results_new in Hr. apply bind_ok in Hr as (u&Hu&Hr). inv Hr.
  cbn [ar_matches ar_selected ar_position].
  set (sorted := sort_matches (m0 :: ms0)) in *.
  split; [exact (sort_matches_perm (m0 :: ms0))|]. split; [exact (sort_matches_sorted (m0 :: ms0))|].
  split; [intros k; exact (sort_matches_stable k (m0 :: ms0))|]. split; auto.
  set (sel := match current with Some _ => _ | None => 0 end) in *.
  destruct (sel <? length sorted) eqn:E; [|discriminate]. clear Hu.
  destruct (nth_error sorted sel) as [m|] eqn:Em; [|apply nth_error_None in Em; lia].
  exists m. split; auto. split; auto. split.
  - intros rule -> (m'&Hin&Hm'). unfold sel in *. clear sel.
    destruct (position (fun m => rule_eqb (m_rule m) rule) sorted) as [i|] eqn:Ep.
    + apply position_some in Ep as (x&Hx&Hf&Hlt). rewrite Hx in Em. inv Em. apply rule_eqb_iff in Hf. split; auto.
      intros j m'' Hj Hm'' He. apply (Hlt _ _ Hj) in Hm''. apply rule_eqb_iff in He. congruence.
    + exfalso. assert (Hs : In m' sorted). { eapply Permutation_in; [symmetry; exact (sort_matches_perm (m0 :: ms0))|exact Hin]. }
      pose proof (position_none Ep Hs) as Hf. cbv beta in Hf. apply rule_eqb_iff in Hm'. congruence.
  - intros Hno. unfold sel. destruct current as [rule|]; auto.
    destruct (position (fun m => rule_eqb (m_rule m) rule) sorted) as [i|] eqn:Ep; auto.
    apply position_some in Ep as (x&Hx&Hf&_). apply rule_eqb_iff in Hf. exfalso. apply (Hno rule eq_refl x); auto.
    eapply Permutation_in; [exact (sort_matches_perm (m0 :: ms0))|]. eapply nth_error_In; eauto.
Qed.

Lemma popup_total current ms p : exists current' r, state_get_autocomplete current ms p = Ok (current', r) /\
  (r = None <-> ms = []).
Proof.
  unfold state_get_autocomplete. destruct ms as [|m0 ms0] eqn:Ems; [exists None, None; split; auto; tauto|].
  set (sorted := sort_matches (m0 :: ms0)) in *.
  assert (Hl : 0 < length sorted).
  { unfold sorted. rewrite (Permutation_length (sort_matches_perm (m0 :: ms0))). simpl. lia. }
  set (sel := match current with Some _ => _ | None => 0 end).
  assert (Hs : sel < length sorted).
  { unfold sel. destruct current; auto. destruct (position _ sorted) eqn:Ep; auto.
    apply position_some in Ep as (x&Hx&_). apply nth_error_Some. congruence. }
  unfold results_new. replace (sel <? length sorted) with true by lia. cbn [assert_ bind].
  do 2 eexists. split; [reflexivity|]. split; discriminate.
Qed.

Lemma move_selection_spec r d : ar_selected r < length (ar_matches r) ->
  ar_matches (move_selection r d) = ar_matches r /\ ar_position (move_selection r d) = ar_position r /\
  ar_selected (move_selection r d) < length (ar_matches r) /\
  ar_selected (move_selection r d) =
    match d with VUp => Nat.pred (ar_selected r) | VDown => Nat.min (S (ar_selected r)) (Nat.pred (length (ar_matches r))) end.
Proof.
  intros H. unfold move_selection. cbn [ar_matches ar_position ar_selected]. split; auto. split; auto.
  destruct d.
  - destruct (0 <? ar_selected r) eqn:E; lia.
  - destruct (ar_selected r <? length (ar_matches r) - 1) eqn:E; lia.
Qed.

(** ** Rule sets *)
Lemma rules_matches_inv rules input caret min ms : rules_matches rules input caret min = Ok ms ->
  forall m, In m ms <-> exists rule ms', In rule rules /\ rule_matches rule input caret min = Ok ms' /\ In m ms'.
Proof.
  revert ms; induction rules as [|r rules IH]; cbn [rules_matches]; intros ms H m.
  - inv H. split; [intros []|]. intros (?&?&[]&_).
  - apply bind_ok in H as (a&Ha&H). apply bind_ok in H as (b&Hb&H). inv H. rewrite in_app_iff, (IH _ Hb). split.
    + intros [Hm|(rule&ms'&H1&H2&H3)]; [exists r, a; cbn; auto|exists rule, ms'; cbn; auto].
    + intros (rule&ms'&[<-|H1]&H2&H3); [left; congruence|right; eauto].
Qed.

Lemma rules_matches_ok rules input caret min :
  (forall rule, In rule rules -> exists ms, rule_matches rule input caret min = Ok ms) ->
  exists ms, rules_matches rules input caret min = Ok ms.
Proof.
  induction rules as [|r rules IH]; cbn [rules_matches]; intros H; [eauto|].
  destruct (H r (or_introl eq_refl)) as (a&Ha). rewrite Ha. cbn [bind].
  destruct IH as (b&Hb). { intros. apply H. now right. } rewrite Hb. cbn [bind]. eauto.
Qed.

Lemma ascii_rule_matches rule input caret min : ascii_rule rule -> caret <= length input ->
  (forall b, firstn caret input <> b ++ [Symbol []]) ->
  exists ms, rule_matches rule input caret min = Ok ms.
Proof.
  intros [Hne Ha] Hc Hb. apply rule_matches_ok; auto. intros b s Hf.
  destruct s as [|c s]; [now apply Hb in Hf|].
  destruct (Nat.eq_dec (utf8_len c) 1) as [E|E]; [left; now exists c, s|]. right. split; [discriminate|].
  intros x (a'&b'&Hx&_). apply E, Ha. rewrite Hx. apply in_or_app. right. now left.
Qed.

Lemma ascii_rules_total rules input caret min : Forall ascii_rule rules -> caret <= length input ->
  (forall b, firstn caret input <> b ++ [Symbol []]) ->
  exists ms, rules_matches rules input caret min = Ok ms.
Proof.
  intros Hr Hc Hb. apply rules_matches_ok. intros rule Hin. apply ascii_rule_matches; auto.
  eapply Forall_forall in Hr; eauto.
Qed.

Lemma ascii_match_complete rule rules input caret min before syms rest :
  Forall ascii_rule rules -> In rule rules ->
  caret <= length input -> firstn caret input = before ++ map Symbol syms -> syms <> [] ->
  rule_parser rule = concat syms ++ rest -> min <= length syms ->
  (forall s, In s syms -> s <> []) -> (forall b', before <> b' ++ [Symbol []]) ->
  exists ms m, rules_matches rules input caret min = Ok ms /\ In m ms /\ m_rule m = rule /\ m_input_match_length m = length syms.
Proof.
  intros Hr Hin Hc Hf Hne Hp Hmin Hs Hb.
  destruct (exists_last Hne) as (sy&la&Hl).
  assert (Hla : la <> []). { apply Hs. rewrite Hl. apply in_or_app. right. now left. }
  destruct (@ascii_rules_total rules input caret min) as (ms&Hms); auto.
  { intros b Hfb. rewrite Hf, Hl, map_app, app_assoc in Hfb. apply app_inj_tail in Hfb as [_ Hfb]. inv Hfb. congruence. }
  destruct (@match_complete rule input caret min before syms rest) as (ms'&m&Hm&Hi&H1&H2); auto.
  { rewrite Hl, last_last. destruct la as [|c la]; [congruence|]. exists c, la. split; auto.
    eapply Forall_forall in Hr; [|exact Hin]. apply Hr. rewrite Hp, Hl, concat_app. cbn. rewrite app_nil_r, <- app_assoc.
    apply in_or_app. right. now left. }
  exists ms, m. split; auto. split; auto. apply (rules_matches_inv Hms). eauto.
Qed.

(** A rule's text typed one character per symbol is matched completely. *)
Lemma typed_text_matches rule rules input caret min before :
  Forall ascii_rule rules -> In rule rules -> caret <= length input ->
  firstn caret input = before ++ map Symbol (map (fun c => [c]) (rule_parser rule)) ->
  min <= length (rule_parser rule) -> (forall b', before <> b' ++ [Symbol []]) ->
  exists ms m, rules_matches rules input caret min = Ok ms /\ In m ms /\ m_rule m = rule /\
    m_input_match_length m = length (rule_parser rule) /\ is_complete_match m = true.
Proof.
  intros Hr Hin Hc Hf Hmin Hb. set (text := rule_parser rule) in *. 
  assert (Ha : ascii_rule rule) by (eapply Forall_forall in Hr; eauto).
  destruct Ha as [Hne Hasc]. fold text in Hne, Hasc. destruct (exists_last Hne) as (t0&c0&Ht).
  set (sy := map (fun c => [c]) t0) in *.
  assert (Hsy : map (fun c : N => [c]) text = sy ++ [[c0]]) by (rewrite Ht, map_app; reflexivity).
  assert (Hcsy : concat sy = t0). { unfold sy. clear. induction t0; cbn; congruence. }
  assert (Hc0 : utf8_len c0 = 1). { apply Hasc. rewrite Ht. apply in_or_app. right. now left. }
  destruct (@ascii_rules_total rules input caret min) as (ms&Hms); auto.
  { intros b Hfb. rewrite Hf, Hsy, map_app, app_assoc in Hfb. apply app_inj_tail in Hfb as [_ Hfb]. discriminate. }
  destruct (@ascii_rule_matches rule input caret min) as (ms'&Hms'); auto. { now split. }
  { intros b Hfb. rewrite Hf, Hsy, map_app, app_assoc in Hfb. apply app_inj_tail in Hfb as [_ Hfb]. discriminate. }
  set (m := mkMatch rule (byte_len (concat sy) + 1) (length sy + 1)).
  assert (Him : In m ms').
  { apply (rule_matches_inv Hms'). exists before, sy, [c0], []. rewrite Hf, Hsy. split; auto. fold text.
    rewrite app_nil_r. split; [rewrite Hcsy; exact Ht|]. split; [|split; auto; split; [discriminate|auto]].
    rewrite Ht, app_length in Hmin. unfold sy. rewrite map_length. auto. }
  exists ms, m. split; auto. split; [apply (rules_matches_inv Hms); eauto|]. split; auto.
  assert (Hl : length sy = length t0) by (unfold sy; now rewrite map_length).
  unfold is_complete_match. cbn [m_rule m_rule_match_length m_input_match_length]. fold text. unfold m.
  cbn [m_rule m_rule_match_length m_input_match_length]. rewrite Hl, Hcsy. fold text. rewrite Ht, app_length, byte_len_app, byte_len_cons, Hc0.
  change (byte_len []) with 0. split; [reflexivity|]. apply Nat.eqb_eq. lia.
Qed.
