(** Reading JSON accepts exactly the grammar, and decoding exactly the values that stand for nodes. *)
From Coq Require Import String DecimalN DecimalFacts.
From Verif Require Import Base Str Grid Node Spec Print Json SpecJson BaseFacts PrintFacts JsonFacts.
Open Scope list_scope.
Open Scope nat_scope.
Set Implicit Arguments.
Unset Strict Implicit.

(** ** Matches on characters *)
Ltac chars c := destruct c as [|?p]; try reflexivity; repeat (match goal with q : positive |- _ => destruct q end; try reflexivity; try congruence).
Lemma read_number_eq s : read_number s = match s with c :: s' => if (c =? 45)%N then read_unsigned true s' else read_unsigned false s | [] => read_unsigned false [] end.
Proof. destruct s as [|c s]; [reflexivity|]. cbn [read_number]. destruct (N.eqb_spec c 45); [subst; reflexivity|]. chars c. Qed.
Lemma read_fraction_eq s : read_fraction s = match s with
  | c :: s' => if (c =? 46)%N then match read_digits s' with (Decimal.Nil, _) => None | (_, r) => Some (true, r) end else Some (false, s)
  | [] => Some (false, s) end.
Proof. destruct s as [|c s]; [reflexivity|]. cbn [read_fraction]. destruct (N.eqb_spec c 46); [subst; reflexivity|]. chars c. Qed.
Lemma digit_of_iff c : match digit_of c with Some f => digit_char c /\ (forall u, digits (f u) = c :: digits u) /\ (forall u, f u <> Decimal.Nil) | None => ~ digit_char c end.
Proof.
  unfold digit_char. destruct (digit_of c) as [f|] eqn:E.
  - unfold digit_of in E. destruct c as [|p]; [discriminate E|].
    repeat (destruct p as [p|p|]; try discriminate E).
    all: injection E as <-; split; [lia|split; [reflexivity|discriminate]].
  - intros H. assert (K : (c = 48 \/ c = 49 \/ c = 50 \/ c = 51 \/ c = 52 \/ c = 53 \/ c = 54 \/ c = 55 \/ c = 56 \/ c = 57)%N) by lia.
    repeat destruct K as [->|K]; try discriminate E. subst c. discriminate E.
Qed.

(** ** Spaces *)
Lemma is_space_iff c : is_space c = true <-> blank_char c.
Proof. unfold is_space, blank_char. rewrite !Bool.orb_true_iff, !N.eqb_eq. cbn. intuition. Qed.
Definition starts (P : N -> Prop) (s : str) : Prop := match s with [] => True | c :: _ => P c end.
Lemma skip_split s : exists a, s = a ++ skip_space s /\ blanks a /\ starts (fun c => ~ blank_char c) (skip_space s).
Proof.
  induction s as [|c s (a & E & Ha & Hs)]; [exists []; repeat split; constructor|]. cbn [skip_space].
  destruct (is_space c) eqn:Ec.
  - apply is_space_iff in Ec. exists (c :: a). repeat split; [cbn; congruence|now constructor|exact Hs].
  - exists []. repeat split; [constructor|]. cbn [starts]. rewrite <- is_space_iff. congruence.
Qed.
Lemma skip_blanks a s : blanks a -> starts (fun c => ~ blank_char c) s -> skip_space (a ++ s) = s.
Proof.
  intros Ha Hs. induction Ha as [|c a Hc Ha IH]; cbn [app skip_space].
  - destruct s as [|c s]; [reflexivity|]. cbn [starts] in Hs. cbn [skip_space]. rewrite <- is_space_iff in Hs. destruct (is_space c); [congruence|reflexivity].
  - apply is_space_iff in Hc. now rewrite Hc.
Qed.
Lemma skip_blanks_app a s : blanks a -> skip_space (a ++ s) = skip_space s.
Proof. intros Ha. induction Ha as [|c a Hc Ha IH]; cbn [app skip_space]; [reflexivity|]. apply is_space_iff in Hc. now rewrite Hc. Qed.
Lemma skip_nil_iff s : skip_space s = [] <-> blanks s.
Proof.
  split.
  - intros E. destruct (skip_split s) as (a & E' & Ha & _). rewrite E, app_nil_r in E'. now subst.
  - intros H. rewrite <- (app_nil_r s), skip_blanks; [reflexivity|exact H|exact I].
Qed.

(** ** Numbers *)
Lemma digits_char u : Forall digit_char (digits u).
Proof. unfold digit_char. induction u; cbn [digits]; constructor; try assumption; lia. Qed.
Lemma digits_text l : Forall digit_char l -> exists u, l = digits u.
Proof.
  induction 1 as [|c l Hc Hl (u & IH)]; [exists Decimal.Nil; reflexivity|].
  pose proof (digit_of_iff c) as K. destruct (digit_of c) as [f|]; [|contradiction]. destruct K as (_ & K & _). exists (f u). rewrite K. congruence.
Qed.
Lemma digits_nil u : digits u = [] <-> u = Decimal.Nil.
Proof. destruct u; cbn; split; congruence. Qed.
Lemma digits_inj u v : digits u = digits v -> u = v.
Proof. revert v. induction u; intros []; cbn; intros E; try discriminate E; try reflexivity; injection E as E; f_equal; auto. Qed.
Lemma read_digits_split s : s = digits (fst (read_digits s)) ++ snd (read_digits s) /\ starts (fun c => ~ digit_char c) (snd (read_digits s)).
Proof.
  induction s as [|c s (E & IH)]; [split; [reflexivity|exact I]|]. cbn [read_digits].
  pose proof (digit_of_iff c) as K. destruct (digit_of c) as [f|].
  - destruct (read_digits s) as [u r]. cbn [fst snd] in *. destruct K as (_ & K & _). rewrite K. cbn [app]. split; [congruence|exact IH].
  - cbn [fst snd digits app starts]. auto.
Qed.
Lemma read_digits_app u r : starts (fun c => ~ digit_char c) r -> read_digits (digits u ++ r) = (u, r).
Proof.
  intros Hr. induction u; cbn [digits app read_digits digit_of]; try (rewrite IHu; reflexivity).
  destruct r as [|c r]; [reflexivity|]. cbn [starts] in Hr. cbn [read_digits]. pose proof (digit_of_iff c) as K. destruct (digit_of c); [|reflexivity]. tauto.
Qed.
Lemma of_uint_acc_value u p : N.pos (Pos.of_uint_acc u p) = fold_left (fun n c => 10 * n + (c - 48))%N (digits u) (N.pos p).
Proof.
  revert p. induction u; intros p; cbn [Pos.of_uint_acc digits fold_left]; [reflexivity|..]; rewrite IHu; f_equal; cbn -[N.mul N.add Pos.mul Pos.add]; lia.
Qed.
Lemma of_uint_value u : N.of_uint u = decimal_value (digits u).
Proof.
  unfold N.of_uint, decimal_value. induction u; cbn [Pos.of_uint digits fold_left]; try reflexivity; try exact IHu; rewrite of_uint_acc_value; reflexivity.
Qed.
Lemma valid_integer_iff u : valid_integer u = true <-> integer_text (digits u).
Proof.
  unfold integer_text. pose proof (digits_char u) as K. split.
  - intros H. destruct u; cbn [digits] in *; try discriminate H; inversion K; subst.
    + destruct u; try discriminate H. do 2 eexists. repeat split; eauto; lia.
    + all: do 2 eexists; repeat split; eauto; try (unfold digit_char; lia); intros E; discriminate E.
    + all: do 2 eexists; repeat split; eauto; try (unfold digit_char; lia); intros E; discriminate E.
    + all: do 2 eexists; repeat split; eauto; try (unfold digit_char; lia); intros E; discriminate E.
    + all: do 2 eexists; repeat split; eauto; try (unfold digit_char; lia); intros E; discriminate E.
    + all: do 2 eexists; repeat split; eauto; try (unfold digit_char; lia); intros E; discriminate E.
    + all: do 2 eexists; repeat split; eauto; try (unfold digit_char; lia); intros E; discriminate E.
    + all: do 2 eexists; repeat split; eauto; try (unfold digit_char; lia); intros E; discriminate E.
    + all: do 2 eexists; repeat split; eauto; try (unfold digit_char; lia); intros E; discriminate E.
    + all: do 2 eexists; repeat split; eauto; try (unfold digit_char; lia); intros E; discriminate E.
  - intros (c & l & E & Hc & Hl & H0). destruct u; cbn [digits] in E; try discriminate E; try reflexivity. injection E as <- <-.
    specialize (H0 eq_refl). apply digits_nil in H0. subst u. reflexivity.
Qed.
Lemma fraction_text_iff s : fraction_text s <-> exists u, u <> Decimal.Nil /\ s = 46%N :: digits u.
Proof.
  unfold fraction_text. split.
  - intros (c & l & -> & H). apply digits_text in H as (u & E). exists u. split; [|congruence]. intros ->. discriminate E.
  - intros (u & Hu & ->). pose proof (digits_char u). destruct (digits u) as [|c l] eqn:E; [apply digits_nil in E; contradiction|]. eauto.
Qed.
Lemma exponent_text_iff s : exponent_text s <-> exists e sign u, u <> Decimal.Nil /\ s = e :: sign ++ digits u /\ In e [101; 69]%N /\ In sign [[]; [43%N]; [45%N]].
Proof.
  unfold exponent_text. split.
  - intros (e & sg & c & l & -> & He & Hs & H). apply digits_text in H as (u & E). exists e, sg, u. rewrite E. repeat split; auto. intros ->. discriminate E.
  - intros (e & sg & u & Hu & -> & He & Hs). pose proof (digits_char u). destruct (digits u) as [|c l] eqn:E; [apply digits_nil in E; contradiction|]. eauto 9.
Qed.
Definition ends (r : str) : Prop := starts (fun c => In c [32; 10; 9; 13; 44; 93; 125]%N) r.
Lemma ends_not (P : N -> Prop) r : ends r -> Forall (fun c => ~ P c) [32; 10; 9; 13; 44; 93; 125]%N -> starts (fun c => ~ P c) r.
Proof. destruct r as [|c r]; [constructor|]. intros H K. rewrite Forall_forall in K. exact (K c H). Qed.
Lemma ends_digit r : ends r -> starts (fun c => ~ digit_char c) r.
Proof. intros H. apply (ends_not H). unfold digit_char. repeat constructor; lia. Qed.
Lemma nil_digits u : u <> Decimal.Nil -> forall A (x y : A), match u with Decimal.Nil => x | _ => y end = y.
Proof. destruct u; congruence. Qed.
Lemma fraction_sound s b r : read_fraction s = Some (b, r) -> exists t, s = t ++ r /\ if b then fraction_text t else t = [].
Proof.
  rewrite read_fraction_eq. destruct s as [|c s]; [intros H; injection H as <- <-; exists []; auto|].
  destruct (N.eqb_spec c 46) as [->|]; [|intros H; injection H as <- <-; exists []; auto].
  pose proof (read_digits_split s) as [E _]. destruct (read_digits s) as [u r']. cbn [fst snd] in E.
  intros H. assert (Hu : u <> Decimal.Nil) by (intros ->; discriminate H). rewrite (nil_digits Hu) in H. injection H as <- <-.
  exists (46%N :: digits u). split; [cbn; congruence|]. apply fraction_text_iff. eauto.
Qed.
Lemma fraction_complete t r : fraction_text t -> starts (fun c => ~ digit_char c) r -> read_fraction (t ++ r) = Some (true, r).
Proof.
  intros H Hr. apply fraction_text_iff in H as (u & Hu & ->). cbn [app]. rewrite read_fraction_eq. cbn [N.eqb Pos.eqb].
  rewrite read_digits_app by exact Hr. apply (nil_digits Hu).
Qed.
Lemma fraction_none r : starts (fun c => c <> 46%N) r -> read_fraction r = Some (false, r).
Proof. rewrite read_fraction_eq. destruct r as [|c r]; [reflexivity|]. cbn. intros H. apply N.eqb_neq in H. now rewrite H. Qed.
Lemma exponent_sound s b r : read_exponent s = Some (b, r) -> exists t, s = t ++ r /\ if b then exponent_text t else t = [].
Proof.
  unfold read_exponent. destruct s as [|c s]; [intros H; injection H as <- <-; exists []; auto|].
  destruct ((c =? 101) || (c =? 69))%N eqn:Ec; [|intros H; injection H as <- <-; exists []; auto]. cbn zeta.
  set (s2 := match s with c' :: r => if ((c' =? 43) || (c' =? 45))%N then r else s | [] => [] end).
  assert (Hs : exists sg, s = sg ++ s2 /\ In sg [[]; [43%N]; [45%N]]).
  { unfold s2. destruct s as [|c' s]; [exists []; cbn; auto|]. destruct ((c' =? 43) || (c' =? 45))%N eqn:Es; [|exists []; cbn; auto].
    exists [c']. split; [reflexivity|]. apply Bool.orb_true_iff in Es. rewrite !N.eqb_eq in Es. cbn. destruct Es as [->| ->]; auto. }
  destruct Hs as (sg & Es & Hsg). pose proof (read_digits_split s2) as [E _]. destruct (read_digits s2) as [u r']. cbn [fst snd] in E.
  intros H. assert (Hu : u <> Decimal.Nil) by (intros ->; discriminate H). rewrite (nil_digits Hu) in H. injection H as <- <-.
  exists (c :: sg ++ digits u). split; [cbn; rewrite <- app_assoc; congruence|]. apply exponent_text_iff. exists c, sg, u. repeat split; auto.
  apply Bool.orb_true_iff in Ec. rewrite !N.eqb_eq in Ec. cbn. intuition.
Qed.
Lemma exponent_complete t r : exponent_text t -> starts (fun c => ~ digit_char c) r -> read_exponent (t ++ r) = Some (true, r).
Proof.
  intros H Hr. apply exponent_text_iff in H as (e & sg & u & Hu & -> & He & Hsg). cbn [app]. unfold read_exponent.
  assert (Ee : ((e =? 101) || (e =? 69))%N = true) by (cbn in He; destruct He as [<-|[<-|[]]]; reflexivity). rewrite Ee. cbn zeta.
  assert (Es : (match (sg ++ digits u) ++ r with c' :: r0 => if ((c' =? 43) || (c' =? 45))%N then r0 else (sg ++ digits u) ++ r | [] => [] end) = digits u ++ r).
  { cbn in Hsg. destruct Hsg as [<-|[<-|[<-|[]]]]; try reflexivity. cbn [app]. destruct u; try reflexivity. congruence. }
  rewrite Es, read_digits_app by exact Hr. apply (nil_digits Hu).
Qed.
Lemma exponent_none r : starts (fun c => ~ In c [101; 69]%N) r -> read_exponent r = Some (false, r).
Proof.
  unfold read_exponent. destruct r as [|c r]; [reflexivity|]. cbn [starts In]. intros H.
  destruct ((c =? 101) || (c =? 69))%N eqn:E; [|reflexivity]. apply Bool.orb_true_iff in E. rewrite !N.eqb_eq in E. exfalso; apply H. intuition.
Qed.
Lemma number_sound s j r : read_number s = Some (j, r) -> exists t, s = t ++ r /\ number_text t j.
Proof.
  rewrite read_number_eq.
  assert (K : forall neg sg s, (if neg : bool then sg = [45%N] else sg = []) -> read_unsigned neg s = Some (j, r) -> exists t, sg ++ s = t ++ r /\ number_text t j).
  { clear s. intros neg sg s Hsg H. unfold read_unsigned in H. pose proof (read_digits_split s) as [E _]. destruct (read_digits s) as [u r1]. cbn [fst snd] in E.
    destruct (valid_integer u) eqn:Ev; [|discriminate H]. apply valid_integer_iff in Ev. cbn [negb] in H.
    destruct (read_fraction r1) as [[f r2]|] eqn:Ef; [|discriminate H]. apply fraction_sound in Ef as (tf & -> & Hf).
    destruct (read_exponent r2) as [[e r3]|] eqn:Ee; [|discriminate H]. apply exponent_sound in Ee as (te & -> & He).
    injection H as <- <-. exists (sg ++ digits u ++ tf ++ te). split; [rewrite E, <- !app_assoc; reflexivity|].
    destruct (neg || f || e) eqn:En.
    - apply number_other; [exact Ev| | | |].
      + destruct neg; subst sg; cbn; auto.
      + destruct f; auto.
      + destruct e; auto.
      + destruct neg; subst sg; [discriminate|]. destruct f; [destruct Hf as (? & ? & -> & _); discriminate|]. destruct e; [destruct He as (? & ? & ? & ? & -> & _); discriminate|discriminate En].
    - destruct neg, f, e; try discriminate En. subst. rewrite of_uint_value. cbn [app]. rewrite app_nil_r. now apply number_natural. }
  destruct s as [|c s]; [intros H; exact (K false [] [] eq_refl H)|].
  destruct (N.eqb_spec c 45) as [->|]; intros H; [exact (K true [45%N] s eq_refl H)|exact (K false [] (c :: s) eq_refl H)].
Qed.
Lemma integer_start s : integer_text s -> exists c l, s = c :: l /\ digit_char c.
Proof. intros (c & l & E & H & _). eauto. Qed.
Lemma read_unsigned_complete neg s tf te r : integer_text s -> tf = [] \/ fraction_text tf -> te = [] \/ exponent_text te -> ends r ->
  read_unsigned neg (s ++ tf ++ te ++ r) = Some (match tf, te with [], [] => if neg then JOther else JNum (decimal_value s) | _, _ => JOther end, r).
Proof.
  intros Hs Hf He Hr.
  assert (Hd : Forall digit_char s) by (destruct Hs as (c & l & -> & ? & ? & _); now constructor).
  apply digits_text in Hd as (u & ->). apply valid_integer_iff in Hs.
  assert (Re : starts (fun c => ~ digit_char c) (te ++ r)).
  { destruct He as [->|He]; [apply ends_digit, Hr|]. apply exponent_text_iff in He as (e & sg & v & _ & -> & He & _). cbn [app starts]. cbn in He. unfold digit_char. destruct He as [<-|[<-|[]]]; lia. }
  assert (Rf : starts (fun c => ~ digit_char c) (tf ++ te ++ r)).
  { destruct Hf as [->|Hf]; [exact Re|]. apply fraction_text_iff in Hf as (v & _ & ->). cbn [app starts]. unfold digit_char. lia. }
  unfold read_unsigned. rewrite read_digits_app by exact Rf. rewrite Hs. cbn [negb]. rewrite of_uint_value.
  assert (Ef : read_fraction (tf ++ te ++ r) = Some (match tf with [] => false | _ => true end, te ++ r)).
  { destruct Hf as [->|Hf].
    - cbn [app]. apply fraction_none. destruct He as [->|He]; [apply (ends_not (P := eq 46%N)) in Hr; [destruct r; cbn in *; auto|repeat constructor; discriminate]|].
      apply exponent_text_iff in He as (e & sg & v & _ & -> & He & _). cbn [app starts]. cbn in He. destruct He as [<-|[<-|[]]]; discriminate.
    - rewrite (fraction_complete Hf Re). destruct Hf as (? & ? & -> & _). reflexivity. }
  assert (Ee : read_exponent (te ++ r) = Some (match te with [] => false | _ => true end, r)).
  { destruct He as [->|He].
    - cbn [app]. apply exponent_none. apply (ends_not Hr). cbn. repeat constructor; intros [?|[?|[]]]; discriminate.
    - rewrite (exponent_complete He (ends_digit Hr)). destruct He as (? & ? & ? & ? & -> & _). reflexivity. }
  rewrite Ef, Ee. destruct neg, tf, te; reflexivity.
Qed.
Lemma number_complete t j r : number_text t j -> ends r -> read_number (t ++ r) = Some (j, r).
Proof.
  intros H Hr. rewrite read_number_eq. destruct H as [s Hs|sg s tf te Hs Hsg Hf He Hne].
  - destruct (integer_start Hs) as (c & l & E & Hc). rewrite E. cbn [app]. assert (En : (c =? 45)%N = false) by (apply N.eqb_neq; intros ->; unfold digit_char in Hc; lia). rewrite En.
    pose proof (@read_unsigned_complete false s [] [] r Hs (or_introl eq_refl) (or_introl eq_refl) Hr) as K. cbn [app] in K. rewrite E in K. cbn [app] in K. exact K.
  - cbn in Hsg. rewrite <- !app_assoc. destruct Hsg as [<-|[<-|[]]].
    + cbn [app]. destruct (integer_start Hs) as (c & l & E & Hc). pose proof (@read_unsigned_complete false s tf te r Hs Hf He Hr) as K.
      rewrite E in K |- *. cbn [app] in *. assert (En : (c =? 45)%N = false) by (apply N.eqb_neq; intros ->; unfold digit_char in Hc; lia). rewrite En, K.
      destruct tf, te; try reflexivity. congruence.
    + cbn [app]. cbn [N.eqb Pos.eqb]. rewrite (@read_unsigned_complete true s tf te r Hs Hf He Hr). destruct tf, te; reflexivity.
Qed.

(** ** Strings *)
Lemma some_pair A B (a c : A) (b d : B) : Some (a, b) = Some (c, d) -> a = c /\ b = d.
Proof. intros H. injection H as <- <-. auto. Qed.
Lemma hex_value_iff c v : hex_value c = Some v <-> hex_char c v.
Proof.
  unfold hex_value, hex_char. split.
  - destruct ((48 <=? c) && (c <=? 57))%N eqn:E1; [intros H; injection H as <-; lia|].
    destruct ((97 <=? c) && (c <=? 102))%N eqn:E2; [intros H; injection H as <-; lia|].
    destruct ((65 <=? c) && (c <=? 70))%N eqn:E3; [intros H; injection H as <-; lia|discriminate].
  - intros H. destruct ((48 <=? c) && (c <=? 57))%N eqn:E1; [f_equal; lia|].
    destruct ((97 <=? c) && (c <=? 102))%N eqn:E2; [f_equal; lia|].
    destruct ((65 <=? c) && (c <=? 70))%N eqn:E3; [f_equal; lia|lia].
Qed.
Lemma hex4_sound s n r : read_hex4 s = Some (n, r) -> exists t, s = t ++ r /\ hex4 t n.
Proof.
  unfold read_hex4. destruct s as [|a [|b [|c [|d s]]]]; try discriminate.
  destruct (hex_value a) as [va|] eqn:Ea, (hex_value b) as [vb|] eqn:Eb, (hex_value c) as [vc|] eqn:Ec, (hex_value d) as [vd|] eqn:Ed; try discriminate.
  intros H. injection H as <- <-. exists [a; b; c; d]. split; [reflexivity|]. apply hex_value_iff in Ea, Eb, Ec, Ed.
  replace (((va * 16 + vb) * 16 + vc) * 16 + vd)%N with (4096 * va + 256 * vb + 16 * vc + vd)%N by lia. now constructor.
Qed.
Lemma hex4_complete t n r : hex4 t n -> read_hex4 (t ++ r) = Some (n, r).
Proof.
  intros [a b c d va vb vc vd Ha Hb Hc Hd]. apply hex_value_iff in Ha, Hb, Hc, Hd. cbn [app read_hex4]. rewrite Ha, Hb, Hc, Hd. do 2 f_equal. lia.
Qed.
Lemma pair_eq A (s : str) (f : str -> A) b : (match s with 92%N :: 117%N :: s' => f s' | _ => b end) =
  match s with c :: e :: s' => if ((c =? 92) && (e =? 117))%N then f s' else b | _ => b end.
Proof.
  destruct s as [|c [|e s]]; try reflexivity; [chars c|]. destruct (N.eqb_spec c 92) as [->|]; [|chars c].
  destruct (N.eqb_spec e 117) as [->|]; [reflexivity|]. cbn [andb]. chars e.
Qed.
Definition half_escape (t : str) : Prop := exists h n, t = 117%N :: h /\ hex4 h n /\ (55296 <= n <= 57343)%N.
Lemma escape_sound s c r : read_escape s = Some (c, r) -> exists t, s = t ++ r /\ match c with Some c => char_text (92%N :: t) c | None => half_escape t end.
Proof.
  unfold read_escape. destruct s as [|e s]; [discriminate|].
  assert (K : forall n v, (e = n) -> In (n, v) [(34, 34); (92, 92); (47, 47); (98, 8); (102, 12); (110, 10); (114, 13); (116, 9)]%N -> Some (Some v, s) = Some (c, r) ->
    exists t, e :: s = t ++ r /\ match c with Some c => char_text (92%N :: t) c | None => half_escape t end).
  { intros n v -> Hin H. injection H as <- <-. exists [n]. split; [reflexivity|]. now apply char_escaped. }
  destruct (N.eqb_spec e 34); [eapply K; [eassumption|cbn; tauto]|]. destruct (N.eqb_spec e 92); [eapply K; [eassumption|cbn; tauto]|].
  destruct (N.eqb_spec e 47); [eapply K; [eassumption|cbn; tauto]|]. destruct (N.eqb_spec e 98); [eapply K; [eassumption|cbn; tauto]|].
  destruct (N.eqb_spec e 102); [eapply K; [eassumption|cbn; tauto]|]. destruct (N.eqb_spec e 110); [eapply K; [eassumption|cbn; tauto]|].
  destruct (N.eqb_spec e 114); [eapply K; [eassumption|cbn; tauto]|]. destruct (N.eqb_spec e 116); [eapply K; [eassumption|cbn; tauto]|].
  destruct (N.eqb_spec e 117) as [->|]; [|discriminate]. clear K. destruct (read_hex4 s) as [[nn s1]|] eqn:E1; [|discriminate].
  apply hex4_sound in E1 as (t1 & -> & H1).
  assert (Half : (55296 <= nn <= 57343)%N -> Some (None, s1) = Some (c, r) -> exists t, 117%N :: t1 ++ s1 = t ++ r /\ match c with Some c => char_text (92%N :: t) c | None => half_escape t end).
  { intros Hn H. injection H as <- <-. exists (117%N :: t1). split; [reflexivity|]. exists t1, nn. auto. }
  destruct ((56320 <=? nn) && (nn <=? 57343))%N eqn:Ea; [apply Half; lia|]. destruct ((55296 <=? nn) && (nn <=? 56319))%N eqn:Eb.
  - assert (Hn : (55296 <= nn <= 57343)%N) by lia. specialize (Half Hn). rewrite pair_eq. destruct s1 as [|x [|y s1]]; [exact Half|exact Half|]. destruct ((x =? 92) && (y =? 117))%N eqn:Exy; [|exact Half].
    apply andb_prop in Exy as [Ex Ey]. apply N.eqb_eq in Ex, Ey. subst x y. destruct (read_hex4 s1) as [[m s2]|] eqn:E2; [|exact Half].
    destruct ((56320 <=? m) && (m <=? 57343))%N eqn:Ec; [|exact Half]. apply hex4_sound in E2 as (t2 & -> & H2). intros H. apply some_pair in H as [<- <-].
    exists (117%N :: t1 ++ 92%N :: 117%N :: t2). split; [cbn [app]; rewrite <- app_assoc; reflexivity|]. apply char_pair; auto; lia.
  - intros H. injection H as <- <-. exists (117%N :: t1). split; [reflexivity|]. apply char_hex; [assumption|lia].
Qed.
Lemma char_complete t c : char_text t c -> t = [c] /\ (32 <= c)%N /\ c <> 34%N /\ c <> 92%N \/ exists t', t = 92%N :: t' /\ forall r, read_escape (t' ++ r) = Some (Some c, r).
Proof.
  intros [c' H1 H2 H3|e c' Hin|s n Hs Hn|s n t' m Hs Hn Ht Hm]; [left; auto|right..].
  - exists [e]. split; [reflexivity|]. intros r. cbn in Hin. repeat destruct Hin as [Hin|Hin]; try contradiction; injection Hin as <- <-; reflexivity.
  - exists (117%N :: s). split; [reflexivity|]. intros r. cbn [app]. unfold read_escape. cbn [N.eqb Pos.eqb]. rewrite (hex4_complete r Hs).
    destruct ((56320 <=? n) && (n <=? 57343))%N eqn:Ea; [lia|]. destruct ((55296 <=? n) && (n <=? 56319))%N eqn:Eb; [lia|]. reflexivity.
  - exists (117%N :: s ++ 92%N :: 117%N :: t'). split; [reflexivity|]. intros r. cbn [app]. unfold read_escape. cbn [N.eqb Pos.eqb].
    rewrite <- app_assoc, (hex4_complete _ Hs). destruct ((56320 <=? n) && (n <=? 57343))%N eqn:Ea; [lia|]. destruct ((55296 <=? n) && (n <=? 56319))%N eqn:Eb; [|lia].
    cbn [app]. rewrite (hex4_complete _ Ht). destruct ((56320 <=? m) && (m <=? 57343))%N eqn:Ec; [reflexivity|lia].
Qed.
(** A half of a pair is read on its own, or with the half after it. *)
Lemma hex4_inj t n t' n' r r' : hex4 t n -> hex4 t' n' -> t ++ r = t' ++ r' -> t = t' /\ n = n' /\ r = r'.
Proof.
  intros H H' E. pose proof (hex4_complete r H) as K. rewrite E, (hex4_complete r' H') in K. apply some_pair in K as [-> ->]. split; [|auto]. now apply app_inv_tail in E.
Qed.
Lemma half_complete s n rest r : hex4 s n -> (55296 <= n <= 57343)%N -> loose_text rest ->
  exists c rest', read_escape (117%N :: s ++ rest ++ 34%N :: r) = Some (c, rest' ++ 34%N :: r) /\ loose_text rest' /\ length rest' <= length rest.
Proof.
  intros Hs Hn Hl. unfold read_escape. cbn [N.eqb Pos.eqb]. rewrite (hex4_complete _ Hs).
  assert (Half : exists c rest', Some (None, rest ++ 34%N :: r) = Some (c : option N, rest' ++ 34%N :: r) /\ loose_text rest' /\ length rest' <= length rest) by (exists None, rest; auto).
  destruct ((56320 <=? n) && (n <=? 57343))%N eqn:Ea; [exact Half|]. destruct ((55296 <=? n) && (n <=? 56319))%N eqn:Eb; [|lia].
  rewrite pair_eq. destruct (rest ++ 34%N :: r) as [|x [|y s1]] eqn:Er; [exact Half|exact Half|]. destruct ((x =? 92) && (y =? 117))%N eqn:Exy; [|exact Half].
  apply andb_prop in Exy as [Ex Ey]. apply N.eqb_eq in Ex, Ey. subst x y. destruct (read_hex4 s1) as [[m s2]|] eqn:E2; [|exact Half].
  destruct ((56320 <=? m) && (m <=? 57343))%N eqn:Ec; [|exact Half]. apply hex4_sound in E2 as (t2 & -> & H2). clear Half.
  destruct Hl as [|t c rest' Hc Hl|s' n' rest' Hs' Hn' Hl].
  - discriminate Er.
  - exfalso. destruct Hc as [c H1 H3 H4|e c Hin|s' n' Hs' Hn'|s' n' t' m' Hs' Hn' Ht Hm]; cbn [app] in Er.
    + injection Er as -> _. congruence.
    + injection Er as -> _. cbn in Hin. repeat destruct Hin as [Hin|Hin]; try contradiction; discriminate Hin.
    + injection Er as Er. rewrite <- app_assoc in Er. destruct (hex4_inj Hs' H2 Er) as (_ & <- & _). lia.
    + injection Er as Er. rewrite <- !app_assoc in Er. destruct (hex4_inj Hs' H2 Er) as (_ & <- & _). lia.
  - cbn [app] in Er. injection Er as Er. rewrite <- app_assoc in Er. destruct (hex4_inj Hs' H2 Er) as (_ & _ & <-). do 2 eexists. split; [reflexivity|]. split; [exact Hl|].
    cbn [length]. rewrite app_length. lia.
Qed.
Lemma string_more fuel fuel' s x : read_string fuel s = Some x -> fuel <= fuel' -> read_string fuel' s = Some x.
Proof.
  revert fuel' s x. induction fuel as [|fuel IH]; intros fuel' s x H Hf; [discriminate H|]. destruct fuel' as [|fuel']; [lia|]. destruct s as [|c s]; [discriminate H|]. cbn [read_string] in *.
  destruct (c =? 34)%N; [exact H|]. destruct (c =? 92)%N.
  - destruct (read_escape s) as [[c' s']|]; [|discriminate H]. destruct (read_string fuel s') as [[t r]|] eqn:E; [|discriminate H]. rewrite (IH fuel' _ _ E) by lia. exact H.
  - destruct (c <? 32)%N; [discriminate H|]. destruct (read_string fuel s) as [[t r]|] eqn:E; [|discriminate H]. rewrite (IH fuel' _ _ E) by lia. exact H.
Qed.
Lemma string_sound fuel s v r : read_string fuel s = Some (v, r) -> exists t, s = t ++ 34%N :: r /\ loose_text t /\ match v with Some v => chars_text t v | None => True end.
Proof.
  revert s v r. induction fuel as [|fuel IH]; intros [|c s] v r H; try discriminate H. cbn [read_string] in H.
  destruct (N.eqb_spec c 34) as [->|N1]; [injection H as <- <-; exists []; repeat split; constructor|].
  destruct (N.eqb_spec c 92) as [->|N2].
  - destruct (read_escape s) as [[c' s1]|] eqn:Ee; [|discriminate H]. apply escape_sound in Ee as (t1 & -> & H1).
    destruct (read_string fuel s1) as [[v' r']|] eqn:Es; [|discriminate H]. injection H as <- <-. apply IH in Es as (t2 & -> & Hl & H2).
    exists ((92%N :: t1) ++ t2). split; [cbn; rewrite <- app_assoc; reflexivity|]. destruct c' as [c'|].
    + split; [now apply (loose_char _ c')|]. destruct v' as [v'|]; [now constructor|exact I].
    + split; [|exact I]. destruct H1 as (h & n & -> & Hh & Hn). cbn [app]. now apply (loose_half _ n).
  - destruct (c <? 32)%N eqn:Ec; [discriminate H|]. destruct (read_string fuel s) as [[v' r']|] eqn:Es; [|discriminate H]. injection H as <- <-.
    apply IH in Es as (t2 & -> & Hl & H2). exists ([c] ++ t2). split; [reflexivity|]. assert (Hc : char_text [c] c) by (constructor; auto; lia).
    split; [now apply (loose_char _ c)|]. destruct v' as [v'|]; [now constructor|exact I].
Qed.
Lemma string_complete t v : chars_text t v -> forall fuel r, length t < fuel -> read_string fuel (t ++ 34%N :: r) = Some (Some v, r).
Proof.
  induction 1 as [|t c rest s Hc Hs IH]; intros fuel r Hf; (destruct fuel as [|fuel]; [lia|]); [reflexivity|].
  rewrite app_length in Hf. rewrite <- app_assoc. apply char_complete in Hc as [(-> & H1 & H2 & H3)|(t' & -> & He)].
  - cbn [app read_string]. apply N.eqb_neq in H2, H3. rewrite H2, H3. destruct (c <? 32)%N eqn:Ec; [lia|]. cbn in Hf. rewrite IH by lia. reflexivity.
  - cbn [app read_string]. cbn [N.eqb Pos.eqb]. rewrite He. cbn in Hf. rewrite IH by lia. reflexivity.
Qed.
Lemma loose_complete k t : loose_text t -> length t <= k -> forall fuel r, length t < fuel -> exists v, read_string fuel (t ++ 34%N :: r) = Some (v, r).
Proof.
  revert t. induction k as [|k IH]; intros t Hl Hk fuel r Hf; (destruct fuel as [|fuel]; [lia|]).
  - destruct t; [|cbn in Hk; lia]. eexists. reflexivity.
  - destruct Hl as [|t c rest Hc Hl|s n rest Hs Hn Hl].
    + eexists. reflexivity.
    + rewrite app_length in *. rewrite <- app_assoc. apply char_complete in Hc as [(-> & H1 & H2 & H3)|(t' & -> & He)]; cbn [length] in *.
      * destruct (IH rest Hl ltac:(lia) fuel r ltac:(lia)) as (v & E). cbn [app read_string]. apply N.eqb_neq in H2, H3. rewrite H2, H3. destruct (c <? 32)%N eqn:Ec; [lia|]. rewrite E. eauto.
      * destruct (IH rest Hl ltac:(lia) fuel r ltac:(lia)) as (v & E). cbn [app read_string]. cbn [N.eqb Pos.eqb]. rewrite He, E. eauto.
    + cbn [length] in *. rewrite app_length in *. destruct (half_complete r Hs Hn Hl) as (c & rest' & E & Hl' & Hlen).
      destruct (IH rest' Hl' ltac:(lia) fuel r ltac:(lia)) as (v & Ev). cbn [app read_string]. cbn [N.eqb Pos.eqb]. rewrite <- app_assoc, E, Ev. eauto.
Qed.
Lemma string_value fuel t v s r : chars_text t s -> read_string fuel (t ++ 34%N :: r) = Some (v, r) -> v = Some s.
Proof.
  intros H E. pose proof (@string_complete t s H (fuel + Datatypes.S (length t)) r ltac:(lia)) as K. apply (@string_more _ (fuel + Datatypes.S (length t))) in E; [|lia]. congruence.
Qed.
Lemma quote_inj t t' : 34%N :: t ++ [34%N] = 34%N :: t' ++ [34%N] -> t = t'.
Proof. intros E. injection E as E. now apply app_inv_tail in E. Qed.

(** ** Values *)
Ltac head s := let c := fresh "c" in destruct s as [|c s]; [reflexivity|]; repeat match goal with |- context [(c =? ?n)%N] => destruct (N.eqb_spec c n); [subst; reflexivity|] end; chars c.
Lemma head93 A (s : str) (f : str -> A) b : (match s with 93%N :: r => f r | _ => b end) = match s with c :: r => if (c =? 93)%N then f r else b | [] => b end.
Proof. head s. Qed.
Lemma head125 A (s : str) (f : str -> A) b : (match s with 125%N :: r => f r | _ => b end) = match s with c :: r => if (c =? 125)%N then f r else b | [] => b end.
Proof. head s. Qed.
Lemma head34 A (s : str) (f : str -> A) b : (match s with 34%N :: r => f r | _ => b end) = match s with c :: r => if (c =? 34)%N then f r else b | [] => b end.
Proof. head s. Qed.
Lemma head58 A (s : str) (f : str -> A) b : (match s with 58%N :: r => f r | _ => b end) = match s with c :: r => if (c =? 58)%N then f r else b | [] => b end.
Proof. head s. Qed.
Lemma comma93 A (s : str) (f g : str -> A) b : (match s with 44%N :: r => f r | 93%N :: r => g r | _ => b end) =
  match s with c :: r => if (c =? 44)%N then f r else if (c =? 93)%N then g r else b | [] => b end.
Proof. head s. Qed.
Lemma comma125 A (s : str) (f g : str -> A) b : (match s with 44%N :: r => f r | 125%N :: r => g r | _ => b end) =
  match s with c :: r => if (c =? 44)%N then f r else if (c =? 125)%N then g r else b | [] => b end.
Proof. head s. Qed.
Lemma literal_sound l s r : expect_lit l s = Some r -> s = l ++ r.
Proof.
  unfold expect_lit. destruct (starts_with s l) eqn:E; [|discriminate]. intros H. injection H as <-. revert s E.
  induction l as [|x l IH]; intros s E; [reflexivity|]. destruct s as [|y s]; [discriminate E|]. cbn in E. apply andb_prop in E as [Ex E]. apply N.eqb_eq in Ex. subst y.
  cbn. f_equal. now apply IH.
Qed.
Lemma literal_complete l r : expect_lit l (l ++ r) = Some r.
Proof.
  unfold expect_lit. assert (E : starts_with (l ++ r) l = true) by (induction l as [|x l IH]; [destruct r; reflexivity|cbn; rewrite N.eqb_refl; exact IH]).
  rewrite E. f_equal. induction l as [|x l IH]; [reflexivity|]. cbn in E |- *. rewrite N.eqb_refl in E. now apply IH.
Qed.
Lemma quote_sound fuel s v r : read_string fuel s = Some (v, r) -> exists t, 34%N :: s = t ++ r /\ quoted_text t v.
Proof.
  intros H. pose proof H as K. apply string_sound in H as (t & -> & Hl & H). exists (34%N :: t ++ [34%N]). split; [cbn; rewrite <- app_assoc; reflexivity|].
  destruct v as [v|]; [constructor; exists t; auto|]. eapply quoted_half; [reflexivity|exact Hl|]. intros s' (inner & E & Hc). apply quote_inj in E. subst inner.
  apply (string_value Hc) in K. discriminate K.
Qed.
Lemma values_sound fuel :
  (forall depth s j r, read_value fuel depth s = Some (j, r) -> exists a t, s = a ++ t ++ r /\ blanks a /\ value_text (depth - 1) t j) /\
  (forall depth s l r, read_elements fuel depth s = Some (l, r) -> exists t, s = t ++ 93%N :: r /\ elements_text (depth - 1) t l) /\
  (forall depth s l r, read_members fuel depth s = Some (l, r) -> exists t, s = t ++ 125%N :: r /\ members_text (depth - 1) t l).
Proof.
  induction fuel as [|fuel (IHv & IHe & IHm)]; [repeat split; intros; discriminate|]. repeat split.
  - intros depth s j r H. cbn [read_value] in H. destruct (skip_split s) as (a & E & Ha & _). destruct (skip_space s) as [|c s']; [discriminate H|].
    assert (K : forall t, c :: s' = t ++ r -> value_text (depth - 1) t j -> exists a t, s = a ++ t ++ r /\ blanks a /\ value_text (depth - 1) t j) by (intros t Et Ht; exists a, t; rewrite <- Et; auto).
    destruct (N.eqb_spec c 110); [destruct (expect_lit _ _) as [r'|] eqn:El; [|discriminate H]; apply literal_sound in El; cbn [option_map] in H; apply some_pair in H as [<- <-]; eapply K; [exact El|constructor]|].
    destruct (N.eqb_spec c 116); [destruct (expect_lit _ _) as [r'|] eqn:El; [|discriminate H]; apply literal_sound in El; cbn [option_map] in H; apply some_pair in H as [<- <-]; eapply K; [exact El|constructor]|].
    destruct (N.eqb_spec c 102); [destruct (expect_lit _ _) as [r'|] eqn:El; [|discriminate H]; apply literal_sound in El; cbn [option_map] in H; apply some_pair in H as [<- <-]; eapply K; [exact El|constructor]|].
    destruct (N.eqb_spec c 34) as [->|].
    { destruct (read_string _ s') as [[v r']|] eqn:Es; [|discriminate H]. apply some_pair in H as [<- <-]. apply quote_sound in Es as (t & Et & Ht).
      eapply K; [exact Et|]. now apply text_string. }
    assert (Hd : depth <= 1 /\ (depth <=? 1) = true /\ depth - 1 = 0 /\ depth - 1 - 1 = 0 \/ (depth <=? 1) = false /\ depth - 1 = Datatypes.S (depth - 1 - 1)).
    { destruct depth as [|[|d]]; [left; auto|left; auto|right]. split; [reflexivity|]. cbn. lia. }
    destruct (N.eqb_spec c 91) as [->|].
    { cbv zeta in H. rewrite head93 in H.
      assert (Ke : match read_elements fuel (depth - 1) s' with Some (l, r) => Some (if depth <=? 1 then JIgnored else JArr l, r) | None => None end = Some (j, r) -> exists a t, s = a ++ t ++ r /\ blanks a /\ value_text (depth - 1) t j).
      { clear H. intros H. destruct (read_elements fuel (depth - 1) s') as [[l r']|] eqn:Es; [|discriminate H]. apply some_pair in H as [<- <-]. apply IHe in Es as (t & -> & Ht).
        apply (K (91%N :: t ++ [93%N])); [cbn; rewrite <- app_assoc; reflexivity|]. destruct Hd as [(_ & Ed & E0 & E2)|(Ed & E0)]; rewrite Ed, E0; [rewrite E2 in Ht; now apply text_elements_deep in Ht|now apply text_elements]. }
      destruct (skip_split s') as (b & E' & Hb & _). destruct (skip_space s') as [|c2 s2] eqn:E2; [now apply Ke|]. destruct (N.eqb_spec c2 93) as [->|]; [|now apply Ke].
      apply some_pair in H as [<- <-]. apply (K (91%N :: b ++ [93%N])); [cbn; rewrite <- app_assoc; cbn; congruence|]. destruct Hd as [(_ & Ed & E0 & _)|(Ed & E0)]; rewrite Ed, E0; now constructor. }
    destruct (N.eqb_spec c 123) as [->|].
    { cbv zeta in H. rewrite head125 in H.
      assert (Ke : match read_members fuel (depth - 1) s' with Some (l, r) => Some (match l with Some l => if depth <=? 1 then JIgnored else JObj l | None => JIgnored end, r) | None => None end = Some (j, r) -> exists a t, s = a ++ t ++ r /\ blanks a /\ value_text (depth - 1) t j).
      { clear H. intros H. destruct (read_members fuel (depth - 1) s') as [[l r']|] eqn:Es; [|discriminate H]. apply some_pair in H as [<- <-]. apply IHm in Es as (t & -> & Ht).
        apply (K (123%N :: t ++ [125%N])); [cbn; rewrite <- app_assoc; reflexivity|]. destruct Hd as [(_ & Ed & E0 & E2)|(Ed & E0)]; rewrite Ed, E0; [rewrite E2 in Ht; apply text_members_deep in Ht; now destruct l|now apply text_members in Ht]. }
      destruct (skip_split s') as (b & E' & Hb & _). destruct (skip_space s') as [|c2 s2] eqn:E2; [now apply Ke|]. destruct (N.eqb_spec c2 125) as [->|]; [|now apply Ke].
      apply some_pair in H as [<- <-]. apply (K (123%N :: b ++ [125%N])); [cbn; rewrite <- app_assoc; cbn; congruence|]. destruct Hd as [(_ & Ed & E0 & _)|(Ed & E0)]; rewrite Ed, E0; now constructor. }
    apply number_sound in H as (t & Et & Ht). eapply K; [exact Et|now apply text_number].
  - intros depth s l r H. cbn [read_elements] in H. destruct (read_value fuel depth s) as [[j s1]|] eqn:Ev; [|discriminate H].
    apply IHv in Ev as (a & t & -> & Ha & Ht). rewrite comma93 in H. destruct (skip_split s1) as (b & E & Hb & _). destruct (skip_space s1) as [|c s2]; [discriminate H|].
    destruct (N.eqb_spec c 44) as [->|].
    + destruct (read_elements fuel depth s2) as [[l' r']|] eqn:Es; [|discriminate H]. apply some_pair in H as [<- <-]. apply IHe in Es as (rest & -> & Hr).
      exists (a ++ t ++ b ++ 44%N :: rest). split; [rewrite E, <- !app_assoc; reflexivity|now apply elements_more].
    + destruct (N.eqb_spec c 93) as [->|]; [|discriminate H]. apply some_pair in H as [<- <-]. exists (a ++ t ++ b). split; [rewrite E, <- !app_assoc; reflexivity|now apply elements_one].
  - intros depth s l r H. cbn [read_members] in H. rewrite head34 in H. destruct (skip_split s) as (a & E & Ha & _). destruct (skip_space s) as [|c0 s0]; [discriminate H|].
    destruct (N.eqb_spec c0 34) as [->|]; [|discriminate H]. destruct (read_string (length s0) s0) as [[k s1]|] eqn:Ek; [|discriminate H]. apply quote_sound in Ek as (kt & Ekt & Hk).
    rewrite head58 in H. destruct (skip_split s1) as (b & E1 & Hb & _). destruct (skip_space s1) as [|c1 s2]; [discriminate H|]. destruct (N.eqb_spec c1 58) as [->|]; [|discriminate H].
    destruct (read_value fuel depth s2) as [[j s3]|] eqn:Ev; [|discriminate H]. apply IHv in Ev as (c & t & -> & Hc & Ht).
    rewrite comma125 in H. destruct (skip_split s3) as (e & E3 & He & _). destruct (skip_space s3) as [|c4 s4]; [discriminate H|].
    destruct (N.eqb_spec c4 44) as [->|].
    + destruct (read_members fuel depth s4) as [[l' r']|] eqn:Es; [|discriminate H]. apply some_pair in H as [<- <-]. apply IHm in Es as (rest & -> & Hr).
      exists (a ++ kt ++ b ++ 58%N :: c ++ t ++ e ++ 44%N :: rest). split; [|now apply members_more]. rewrite E, Ekt, E1, E3. repeat (cbn [app]; rewrite <- ?app_assoc). reflexivity.
    + destruct (N.eqb_spec c4 125) as [->|]; [|discriminate H]. apply some_pair in H as [<- <-].
      exists (a ++ kt ++ b ++ 58%N :: c ++ t ++ e). split; [|now apply members_one]. rewrite E, Ekt, E1, E3. repeat (cbn [app]; rewrite <- ?app_assoc). reflexivity.
Qed.
Scheme value_text_mut := Minimality for value_text Sort Prop
  with elements_text_mut := Minimality for elements_text Sort Prop
  with members_text_mut := Minimality for members_text Sort Prop.
Combined Scheme text_mut from value_text_mut, elements_text_mut, members_text_mut.
Lemma number_start_char t j : number_text t j -> exists c w, t = c :: w /\ (digit_char c \/ c = 45%N).
Proof.
  intros [s Hs|sg s tf te Hs Hsg _ _ _].
  - destruct (integer_start Hs) as (c & l & -> & Hc). eauto.
  - destruct (integer_start Hs) as (c & l & -> & Hc). cbn in Hsg. destruct Hsg as [<-|[<-|[]]]; cbn; eauto.
Qed.
Lemma text_start d t j : value_text d t j -> exists c w, t = c :: w /\ ~ blank_char c /\ c <> 93%N /\ c <> 125%N.
Proof.
  assert (K : forall c w, is_space c = false -> c <> 93%N -> c <> 125%N -> exists c' w', c :: w = c' :: w' /\ ~ blank_char c' /\ c' <> 93%N /\ c' <> 125%N).
  { intros c w H1 H2 H3. exists c, w. rewrite <- is_space_iff. repeat split; congruence. }
  assert (Q : forall t s, quoted_text t s -> exists inner, t = 34%N :: inner) by (intros t' s [s' (inner & -> & _)|inner -> _ _]; cbn; eauto).
  intros H. destruct H as [d|d|d|d t j Hn|d t s Hq|d a Ha|a Ha|d t l Ht|t l Ht|d a Ha|a Ha|d t l Ht|t l Ht]; try (apply K; [reflexivity|discriminate|discriminate]);
    [|apply Q in Hq as (inner & ->); apply K; [reflexivity|discriminate|discriminate]].
  apply number_start_char in Hn as (c & w & -> & Hc). assert (Ec : is_space c = false /\ c <> 93%N /\ c <> 125%N).
  { unfold is_space, digit_char in *. destruct Hc as [Hc|Hc]; repeat split; lia. }
  destruct Ec as (? & ? & ?). now apply K.
Qed.
Lemma ends_blanks a r : blanks a -> ends r -> ends (a ++ r).
Proof. intros [|c l Hc _] Hr; [exact Hr|]. unfold ends, starts, blank_char in *. cbn in *. intuition. Qed.
Lemma ends_char c r : In c [44; 93; 125]%N -> ends (c :: r).
Proof. cbn. intuition. Qed.
Lemma not_blank c : is_space c = false -> ~ blank_char c.
Proof. rewrite <- is_space_iff. congruence. Qed.
Lemma quote_complete k v r : quoted_text k v -> exists s, k ++ r = 34%N :: s /\ read_string (length s) s = Some (v, r).
Proof.
  intros [s (inner & -> & H)|inner -> Hl Hn].
  2: { exists (inner ++ 34%N :: r). split; [cbn; rewrite <- app_assoc; reflexivity|].
    destruct (@loose_complete _ _ Hl (Nat.le_refl _) (length (inner ++ 34%N :: r)) r) as (w & E); [rewrite app_length; cbn; lia|]. rewrite E. destruct w as [w|]; [exfalso|reflexivity].
    apply string_sound in E as (t & Et & _ & Hc). apply app_inv_tail in Et. subst t. apply (Hn w). exists inner. auto. }
  exists (inner ++ 34%N :: r). split; [cbn; rewrite <- app_assoc; reflexivity|]. apply string_complete; [exact H|]. rewrite app_length. cbn. lia.
Qed.
Lemma values_complete :
  (forall d t j, value_text d t j -> forall depth a r fuel, depth - 1 = d -> blanks a -> ends r -> 2 * length t <= fuel -> read_value fuel depth (a ++ t ++ r) = Some (j, r)) /\
  (forall d t l, elements_text d t l -> (forall r, exists c w, skip_space (t ++ r) = c :: w /\ c <> 93%N) /\
     forall depth r fuel, depth - 1 = d -> 2 * length t + 1 <= fuel -> read_elements fuel depth (t ++ 93%N :: r) = Some (l, r)) /\
  (forall d t l, members_text d t l -> (forall r, exists c w, skip_space (t ++ r) = c :: w /\ c <> 125%N) /\
     forall depth r fuel, depth - 1 = d -> 2 * length t + 1 <= fuel -> read_members fuel depth (t ++ 125%N :: r) = Some (l, r)).
Proof.
  assert (Skip : forall d t j a r, value_text d t j -> blanks a -> skip_space (a ++ t ++ r) = t ++ r).
  { intros d t j a r Ht Ha. apply skip_blanks; [exact Ha|]. apply text_start in Ht as (c & w & -> & H & _). exact H. }
  assert (Skips : forall a k v r, quoted_text k v -> blanks a -> skip_space (a ++ k ++ r) = k ++ r).
  { intros a k v r Hk Ha. apply skip_blanks; [exact Ha|]. destruct Hk as [s (inner & -> & _)|inner -> _ _]; cbn [app starts]; now apply not_blank. }
  assert (Fuel : forall d t j fuel, value_text d t j -> 2 * length t <= fuel -> exists f, fuel = Datatypes.S f /\ 2 * length t - 1 <= f).
  { intros d t j fuel Ht Hf. apply text_start in Ht as (c & w & -> & _). cbn [length] in *. destruct fuel as [|f]; [lia|]. exists f. split; [reflexivity|lia]. }
  apply text_mut.
  - intros d depth a r fuel Hd Ha Hr Hf. destruct (@Fuel d _ _ fuel (text_null d) Hf) as (f & -> & _). cbn [read_value]. rewrite (@Skip d _ _ a r (text_null d) Ha).
    pose proof (literal_complete (lit "null") r) as E. change (option_map (fun r => (JNull, r)) (expect_lit (lit "null") (lit "null" ++ r)) = Some (JNull, r)). now rewrite E.
  - intros d depth a r fuel Hd Ha Hr Hf. destruct (@Fuel d _ _ fuel (text_true d) Hf) as (f & -> & _). cbn [read_value]. rewrite (@Skip d _ _ a r (text_true d) Ha).
    pose proof (literal_complete (lit "true") r) as E. change (option_map (fun r => (JBool true, r)) (expect_lit (lit "true") (lit "true" ++ r)) = Some (JBool true, r)). now rewrite E.
  - intros d depth a r fuel Hd Ha Hr Hf. destruct (@Fuel d _ _ fuel (text_false d) Hf) as (f & -> & _). cbn [read_value]. rewrite (@Skip d _ _ a r (text_false d) Ha).
    pose proof (literal_complete (lit "false") r) as E. change (option_map (fun r => (JBool false, r)) (expect_lit (lit "false") (lit "false" ++ r)) = Some (JBool false, r)). now rewrite E.
  - intros d t j Hn depth a r fuel Hd Ha Hr Hf. pose proof (text_number d _ _ Hn) as Ht. destruct (@Fuel d _ _ fuel Ht Hf) as (f & -> & _). cbn [read_value].
    rewrite (@Skip d _ _ a r Ht Ha). pose proof (number_complete Hn Hr) as K. destruct (number_start_char Hn) as (c & w & -> & Hc). cbn [app] in *.
    unfold digit_char in Hc.
    destruct (N.eqb_spec c 110); [lia|]. destruct (N.eqb_spec c 116); [lia|]. destruct (N.eqb_spec c 102); [lia|]. destruct (N.eqb_spec c 34); [lia|].
    destruct (N.eqb_spec c 91); [lia|]. destruct (N.eqb_spec c 123); [lia|]. exact K.
  - intros d t s Hs depth a r fuel Hd Ha Hr Hf. pose proof (text_string d _ _ Hs) as Ht. destruct (@Fuel d _ _ fuel Ht Hf) as (f & -> & _). cbn [read_value].
    rewrite (@Skip d _ _ a r Ht Ha). destruct (@quote_complete t s r Hs) as (s' & -> & E). cbn [N.eqb Pos.eqb]. now rewrite E.
  - intros d b Hb depth a r fuel Hd Ha Hr Hf. pose proof (text_no_elements d _ Hb) as Ht. destruct (@Fuel _ _ _ fuel Ht Hf) as (f & -> & _). cbn [read_value].
    rewrite (@Skip _ _ _ a r Ht Ha). cbn [app]. cbn [N.eqb Pos.eqb]. cbv zeta. rewrite <- app_assoc, skip_blanks; [|exact Hb|now apply not_blank].
    assert (Ed : (depth <=? 1) = false) by (apply Nat.leb_gt; lia). now rewrite Ed.
  - intros b Hb depth a r fuel Hd Ha Hr Hf. pose proof (text_no_elements_deep _ Hb) as Ht. destruct (@Fuel _ _ _ fuel Ht Hf) as (f & -> & _). cbn [read_value].
    rewrite (@Skip _ _ _ a r Ht Ha). cbn [app]. cbn [N.eqb Pos.eqb]. cbv zeta. rewrite <- app_assoc, skip_blanks; [|exact Hb|now apply not_blank].
    assert (Ed : (depth <=? 1) = true) by (apply Nat.leb_le; lia). now rewrite Ed.
  - intros d t l Hl (Hstart & IH) depth a r fuel Hd Ha Hr Hf. pose proof (text_elements _ _ _ Hl) as Ht. destruct (@Fuel _ _ _ fuel Ht Hf) as (f & -> & Hf'). cbn [read_value].
    rewrite (@Skip _ _ _ a r Ht Ha). cbn [app]. cbn [N.eqb Pos.eqb]. cbv zeta. rewrite <- app_assoc.
    rewrite head93. destruct (Hstart ([93%N] ++ r)) as (c & w & -> & Hc). apply N.eqb_neq in Hc. rewrite Hc. cbn [app].
    cbn [length] in Hf'. rewrite app_length in Hf'. cbn [length] in Hf'. assert (Ed : (depth <=? 1) = false) by (apply Nat.leb_gt; lia). rewrite IH by lia. now rewrite Ed.
  - intros t l Hl (Hstart & IH) depth a r fuel Hd Ha Hr Hf. pose proof (text_elements_deep _ _ Hl) as Ht. destruct (@Fuel _ _ _ fuel Ht Hf) as (f & -> & Hf'). cbn [read_value].
    rewrite (@Skip _ _ _ a r Ht Ha). cbn [app]. cbn [N.eqb Pos.eqb]. cbv zeta. rewrite <- app_assoc.
    rewrite head93. destruct (Hstart ([93%N] ++ r)) as (c & w & -> & Hc). apply N.eqb_neq in Hc. rewrite Hc. cbn [app].
    cbn [length] in Hf'. rewrite app_length in Hf'. cbn [length] in Hf'. assert (Ed : (depth <=? 1) = true) by (apply Nat.leb_le; lia). rewrite IH by lia. now rewrite Ed.
  - intros d b Hb depth a r fuel Hd Ha Hr Hf. pose proof (text_no_members d _ Hb) as Ht. destruct (@Fuel _ _ _ fuel Ht Hf) as (f & -> & _). cbn [read_value].
    rewrite (@Skip _ _ _ a r Ht Ha). cbn [app]. cbn [N.eqb Pos.eqb]. cbv zeta. rewrite <- app_assoc, skip_blanks; [|exact Hb|now apply not_blank].
    assert (Ed : (depth <=? 1) = false) by (apply Nat.leb_gt; lia). now rewrite Ed.
  - intros b Hb depth a r fuel Hd Ha Hr Hf. pose proof (text_no_members_deep _ Hb) as Ht. destruct (@Fuel _ _ _ fuel Ht Hf) as (f & -> & _). cbn [read_value].
    rewrite (@Skip _ _ _ a r Ht Ha). cbn [app]. cbn [N.eqb Pos.eqb]. cbv zeta. rewrite <- app_assoc, skip_blanks; [|exact Hb|now apply not_blank].
    assert (Ed : (depth <=? 1) = true) by (apply Nat.leb_le; lia). now rewrite Ed.
  - intros d t l Hl (Hstart & IH) depth a r fuel Hd Ha Hr Hf. pose proof (text_members _ _ _ Hl) as Ht. destruct (@Fuel _ _ _ fuel Ht Hf) as (f & -> & Hf'). cbn [read_value].
    rewrite (@Skip _ _ _ a r Ht Ha). cbn [app]. cbn [N.eqb Pos.eqb]. cbv zeta. rewrite <- app_assoc.
    rewrite head125. destruct (Hstart ([125%N] ++ r)) as (c & w & -> & Hc). apply N.eqb_neq in Hc. rewrite Hc. cbn [app].
    cbn [length] in Hf'. rewrite app_length in Hf'. cbn [length] in Hf'. assert (Ed : (depth <=? 1) = false) by (apply Nat.leb_gt; lia). rewrite IH by lia. rewrite Ed. now destruct l.
  - intros t l Hl (Hstart & IH) depth a r fuel Hd Ha Hr Hf. pose proof (text_members_deep _ _ Hl) as Ht. destruct (@Fuel _ _ _ fuel Ht Hf) as (f & -> & Hf'). cbn [read_value].
    rewrite (@Skip _ _ _ a r Ht Ha). cbn [app]. cbn [N.eqb Pos.eqb]. cbv zeta. rewrite <- app_assoc.
    rewrite head125. destruct (Hstart ([125%N] ++ r)) as (c & w & -> & Hc). apply N.eqb_neq in Hc. rewrite Hc. cbn [app].
    cbn [length] in Hf'. rewrite app_length in Hf'. cbn [length] in Hf'. assert (Ed : (depth <=? 1) = true) by (apply Nat.leb_le; lia). rewrite IH by lia. rewrite Ed. now destruct l.
  - intros d a t b j Ha Ht IH Hb. split.
    + intros r. rewrite <- !app_assoc. rewrite (@Skip _ _ _ a _ Ht Ha). destruct (text_start Ht) as (c & w & -> & _ & Hc & _). cbn [app]. eauto.
    + intros depth r fuel Hd Hf. rewrite !app_length in Hf. destruct fuel as [|fuel]; [lia|]. cbn [read_elements]. rewrite <- !app_assoc.
      rewrite IH; [|exact Hd|exact Ha|apply ends_blanks; [exact Hb|apply ends_char; cbn; auto]|lia]. rewrite skip_blanks; [reflexivity|exact Hb|now apply not_blank].
  - intros d a t b j rest l Ha Ht IH Hb Hr (_ & IHr). split.
    + intros r. rewrite <- !app_assoc. rewrite (@Skip _ _ _ a _ Ht Ha). destruct (text_start Ht) as (c & w & -> & _ & Hc & _). cbn [app]. eauto.
    + intros depth r fuel Hd Hf. rewrite !app_length in Hf. cbn [length] in Hf. destruct fuel as [|fuel]; [lia|]. cbn [read_elements]. rewrite <- !app_assoc. cbn [app].
      rewrite IH; [|exact Hd|exact Ha|apply ends_blanks; [exact Hb|apply ends_char; cbn; auto]|lia]. rewrite skip_blanks; [|exact Hb|now apply not_blank]. rewrite IHr by (exact Hd || lia). reflexivity.
  - intros d a k key b c t e j Ha Hk Hb Hc Ht IH He. split.
    + intros r. rewrite <- !app_assoc. rewrite (@Skips a k key _ Hk Ha). destruct Hk as [s (inner & -> & _)|inner -> _ _]; cbn [app]; do 2 eexists; (split; [reflexivity|discriminate]).
    + intros depth r fuel Hd Hf. rewrite !app_length in Hf. cbn [length] in Hf. rewrite !app_length in Hf. destruct fuel as [|fuel]; [lia|]. cbn [read_members]. rewrite <- !app_assoc. cbn [app]. rewrite <- !app_assoc.
      rewrite (@Skips a k key _ Hk Ha). destruct (@quote_complete k key (b ++ 58%N :: c ++ t ++ e ++ 125%N :: r) Hk) as (s & -> & Es). rewrite Es.
      rewrite skip_blanks; [|exact Hb|now apply not_blank].
      rewrite IH; [|exact Hd|exact Hc|apply ends_blanks; [exact He|apply ends_char; cbn; auto]|lia]. rewrite skip_blanks; [reflexivity|exact He|now apply not_blank].
  - intros d a k key b c t e j rest l Ha Hk Hb Hc Ht IH He Hr (_ & IHr). split.
    + intros r. rewrite <- !app_assoc. rewrite (@Skips a k key _ Hk Ha). destruct Hk as [s (inner & -> & _)|inner -> _ _]; cbn [app]; do 2 eexists; (split; [reflexivity|discriminate]).
    + intros depth r fuel Hd Hf. rewrite !app_length in Hf. cbn [length] in Hf. rewrite !app_length in Hf. cbn [length] in Hf. destruct fuel as [|fuel]; [lia|]. cbn [read_members]. repeat (rewrite <- !app_assoc; cbn [app]).
      rewrite (@Skips a k key _ Hk Ha). destruct (@quote_complete k key (b ++ 58%N :: c ++ t ++ e ++ 44%N :: rest ++ 125%N :: r) Hk) as (s & -> & Es). rewrite Es.
      rewrite skip_blanks; [|exact Hb|now apply not_blank].
      rewrite IH; [|exact Hd|exact Hc|apply ends_blanks; [exact He|apply ends_char; cbn; auto]|lia]. rewrite skip_blanks; [|exact He|now apply not_blank]. rewrite IHr by (exact Hd || lia). reflexivity.
Qed.
Lemma read_json_iff s j : read_json s = Some j <-> json_text s j.
Proof.
  unfold read_json, json_text. split.
  - intros H. destruct (read_value _ 128 s) as [[j' r]|] eqn:E; [|discriminate H]. destruct (values_sound (2 * length s + 2)) as (K & _). apply K in E as (a & t & -> & Ha & Ht).
    destruct (skip_space r) eqn:Er; [|discriminate H]. injection H as <-. apply skip_nil_iff in Er. exists a, t, r. auto.
  - intros (a & t & b & -> & Ha & Hb & Ht). destruct values_complete as (K & _).
    rewrite (K 127 t j Ht 128 a b); [|reflexivity|exact Ha|rewrite <- (app_nil_r b); apply ends_blanks; [exact Hb|exact I]|rewrite !app_length; lia].
    apply skip_nil_iff in Hb. now rewrite Hb.
Qed.
Lemma text_depth : (forall d t j, value_text d t j -> jdepth j <= d) /\ (forall d t l, elements_text d t l -> list_max (map jdepth l) <= d) /\
  (forall d t l, members_text d t l -> match l with Some l => list_max (map (fun kv => jdepth (snd kv)) l) <= d | None => True end).
Proof.
  apply text_mut; intros; cbn [jdepth]; try lia; try (cbn; lia).
  - destruct H; cbn; lia.
  - destruct s; cbn; lia.
  - destruct l; cbn [jdepth]; lia.
  - change (Nat.max (jdepth j) (list_max (map jdepth l)) <= d). lia.
  - destruct key; [|exact I]. cbn. lia.
  - destruct key as [key|]; [|exact I]. destruct l as [l|]; [|exact I]. change (Nat.max (jdepth j) (list_max (map (fun kv : str * json => jdepth (snd kv)) l)) <= d). lia.
Qed.

(** ** Nodes *)
Lemma filter_none (n : str) l : filter (fun kv : str * json => str_eqb (fst kv) n) l = [] <-> ~ In n (map fst l).
Proof.
  induction l as [|[k x] l IH]; cbn; [tauto|]. destruct (str_eqb k n) eqn:E.
  - apply str_eqb_eq in E. subst. split; [discriminate|]. intros H. exfalso. auto.
  - rewrite IH. assert (k <> n) by (intros ->; rewrite (proj2 (str_eqb_eq n n) eq_refl) in E; discriminate). tauto.
Qed.
Lemma get_field_iff name l j : get_field (lit name) l = Some j <-> field name l j.
Proof.
  unfold get_field, field. generalize (lit name) as n. intros n. split.
  - induction l as [|[k x] l IH]; cbn [filter fst]; [discriminate|]. destruct (str_eqb k n) eqn:E.
    + apply str_eqb_eq in E. subst k. destruct (filter _ l) as [|? ?] eqn:F; [|discriminate]. intros H. injection H as <-. apply filter_none in F. exists [], l. auto.
    + intros H. destruct (IH H) as (a & b & -> & Ha & Hb). exists ((k, x) :: a), b. repeat split; auto. cbn. intros [Ek|Hin]; [|auto].
      subst k. rewrite (proj2 (str_eqb_eq n n) eq_refl) in E. discriminate E.
  - intros (a & b & -> & Ha & Hb). apply filter_none in Ha, Hb. rewrite filter_app. cbn [filter fst]. rewrite Ha, (proj2 (str_eqb_eq n n) eq_refl), Hb. reflexivity.
Qed.
Lemma struct1_iff a j x : struct1 (lit a) j = Some x <-> record1 a j x.
Proof.
  unfold record1. split.
  - destruct j as [| | | | |[|y [|z l]]|l|]; cbn [struct1]; try discriminate.
    + intros H. injection H as <-. auto.
    + intros H. right. exists l. split; [reflexivity|]. now apply get_field_iff.
  - intros [->|(l & -> & H)]; [reflexivity|]. cbn [struct1]. now apply get_field_iff.
Qed.
Lemma struct2_iff a b j x y : struct2 (lit a) (lit b) j = Some (x, y) <-> record2 a b j x y.
Proof.
  unfold record2. split.
  - destruct j as [| | | | |[|u [|v [|w l]]]|l|]; cbn [struct2]; try discriminate.
    + intros H. injection H as <- <-. auto.
    + intros H. right. exists l. split; [reflexivity|]. destruct (get_field (lit a) l) as [x'|] eqn:Ea; [|discriminate H]. destruct (get_field (lit b) l) as [y'|] eqn:Eb; [|discriminate H].
      injection H as <- <-. split; now apply get_field_iff.
  - intros [->|(l & -> & Ha & Hb)]; [reflexivity|]. apply get_field_iff in Ha, Hb. cbn [struct2]. now rewrite Ha, Hb.
Qed.
Lemma variant_name_iff s v : dec_variant_name s = Some v <-> s = lit match v with Fraction => "Fraction" | RootV => "Root" | Sup => "Sup" | Sub => "Sub" | Table => "Table" end.
Proof.
  unfold dec_variant_name. split.
  - destruct (str_eqb s (lit "Fraction")) eqn:E1; [apply str_eqb_eq in E1; intros H; injection H as <-; exact E1|].
    destruct (str_eqb s (lit "Root")) eqn:E2; [apply str_eqb_eq in E2; intros H; injection H as <-; exact E2|].
    destruct (str_eqb s (lit "Sup")) eqn:E3; [apply str_eqb_eq in E3; intros H; injection H as <-; exact E3|].
    destruct (str_eqb s (lit "Sub")) eqn:E4; [apply str_eqb_eq in E4; intros H; injection H as <-; exact E4|].
    destruct (str_eqb s (lit "Table")) eqn:E5; [apply str_eqb_eq in E5; intros H; injection H as <-; exact E5|]. discriminate.
  - intros ->. destruct v; reflexivity.
Qed.
Lemma variant_iff j v : dec_variant j = Some v <-> variant_json j v.
Proof.
  unfold variant_json. cbn zeta. split.
  - destruct j as [| | | |s| |[|[s []] [|? l]]|]; cbn [dec_variant]; try discriminate; intros H; apply variant_name_iff in H; subst s; auto.
  - intros [->| ->]; cbn [dec_variant]; now apply variant_name_iff.
Qed.
Lemma dec_all_iff A B (f : A -> option B) l r : dec_all f l = Some r <-> Forall2 (fun x y => f x = Some y) l r.
Proof.
  revert r. induction l as [|x l IH]; intros r; cbn [dec_all]; split.
  - intros H. injection H as <-. constructor.
  - intros H. inversion H. reflexivity.
  - destruct (f x) as [y|] eqn:E; [|discriminate]. destruct (dec_all f l) as [r'|] eqn:El; [|discriminate]. intros H. injection H as <-. constructor; [exact E|]. now apply IH.
  - intros H. inversion H as [|? y ? r' Hy Hr]; subst. rewrite Hy. apply IH in Hr. now rewrite Hr.
Qed.
Lemma uint_iff m j n : dec_uint m j = Some n <-> j = JNum n /\ (n <= m)%N.
Proof.
  unfold dec_uint. split.
  - destruct j as [| |k| | | | |]; try discriminate. destruct (k <=? m)%N eqn:E; [|discriminate]. intros H. injection H as <-. split; [reflexivity|lia].
  - intros [-> H]. destruct (n <=? m)%N eqn:E; [reflexivity|lia].
Qed.
Lemma vec_iff B (f : json -> option B) j r : dec_vec f j = Some r <-> exists l, j = JArr l /\ Forall2 (fun x y => f x = Some y) l r.
Proof.
  unfold dec_vec. split.
  - destruct j as [| | | | |l| |]; try discriminate. intros H. apply dec_all_iff in H. eauto.
  - intros (l & -> & H). now apply dec_all_iff.
Qed.
Lemma Forall2_weaken A B (P Q : A -> B -> Prop) l r : (forall x y, In x l -> P x y -> Q x y) -> Forall2 P l r -> Forall2 Q l r.
Proof. intros H F. induction F; constructor; [apply H; [left; reflexivity|assumption]|]. apply IHF. intros; apply H; [right|]; assumption. Qed.
Lemma max_map_in A (f : A -> nat) l x : In x l -> f x <= list_max (map f l).
Proof.
  intros H. assert (K : Forall (fun k => k <= list_max (map f l)) (map f l)) by (apply list_max_le; lia). rewrite Forall_forall in K. now apply K, in_map.
Qed.
Section Nodes.
Variable max : N.
Lemma node_sound fuel j n : dec_node max fuel j = Some n -> node_json max j n.
Proof.
  revert j n. induction fuel as [|fuel IH]; intros j n H; [discriminate H|]. cbn [dec_node] in H.
  destruct j as [| | | | | |[|[k c] [|? ?]]|]; try discriminate H.
  destruct (str_eqb k (lit "Symbol")) eqn:Es.
  { apply str_eqb_eq in Es. subst k. destruct c; try discriminate H. injection H as <-. constructor. }
  destruct (str_eqb k (lit "Container")) eqn:Ec; [|discriminate H]. apply str_eqb_eq in Ec. subst k.
  destruct c as [| | | | |[|jv [|jg [|? ?]]]| |]; try discriminate H.
  destruct (dec_variant jv) as [v|] eqn:Ev; [|discriminate H]. apply variant_iff in Ev.
  unfold dec_grid_with in H. destruct (struct2 _ _ jg) as [[jvs jw]|] eqn:Eg; [|discriminate H]. apply struct2_iff in Eg.
  destruct (dec_vec _ jvs) as [cells|] eqn:Evs; [|discriminate H]. apply vec_iff in Evs as (values & -> & Hvs).
  destruct (dec_uint max jw) as [w|] eqn:Ew; [|discriminate H]. apply uint_iff in Ew as [-> Hw]. injection H as <-.
  eapply json_container; [exact Ev|exact Eg|exact Hw| |reflexivity].
  refine (Forall2_weaken _ Hvs). intros x y _ Hr. unfold dec_row_with in Hr. destruct (struct1 _ x) as [xs|] eqn:Ex; [|discriminate Hr]. apply struct1_iff in Ex.
  apply vec_iff in Hr as (l & -> & Hl). econstructor; [exact Ex|]. refine (Forall2_weaken _ Hl). intros; now apply IH.
Qed.
Lemma depth_arr x l : In x l -> jdepth x < jdepth (JArr l).
Proof. intros H. cbn [jdepth]. pose proof (max_map_in jdepth H). lia. Qed.
Lemma depth_obj k x l : In (k, x) l -> jdepth x < jdepth (JObj l).
Proof. intros H. cbn [jdepth]. pose proof (max_map_in (fun kv : str * json => jdepth (snd kv)) H). cbn [snd] in *. lia. Qed.
Lemma depth_record1 a j x : record1 a j x -> jdepth x < jdepth j.
Proof.
  intros [->|(l & -> & (u & v & -> & _))]; [apply depth_arr; left; reflexivity|]. eapply depth_obj. apply in_or_app. right. left. reflexivity.
Qed.
Lemma depth_record2 a b j x y : record2 a b j x y -> jdepth x < jdepth j /\ jdepth y < jdepth j.
Proof.
  intros [->|(l & -> & (u & v & E & _) & (u' & v' & E' & _))]; [split; apply depth_arr; cbn; auto|].
  split; eapply depth_obj; [rewrite E|rewrite E']; apply in_or_app; right; left; reflexivity.
Qed.
Lemma node_complete fuel j n : jdepth j < fuel -> node_json max j n -> dec_node max fuel j = Some n.
Proof.
  revert j n. induction fuel as [|fuel IH]; intros j n Hf H; [lia|]. destruct H as [s|jv jg v values rows w cells Hv Hg Hw Hvs ->]; [reflexivity|].
  cbn [dec_node]. change (str_eqb (lit "Container") (lit "Symbol")) with false. change (str_eqb (lit "Container") (lit "Container")) with true. cbn iota.
  apply variant_iff in Hv. rewrite Hv. unfold dec_grid_with. pose proof Hg as Hg'. apply struct2_iff in Hg'. rewrite Hg'.
  assert (Hd : jdepth (JArr values) < fuel).
  { apply depth_record2 in Hg as [Hd _]. assert (In jg [jv; jg]) by (cbn; auto). pose proof (@depth_arr jg [jv; jg] H).
    pose proof (@depth_obj (lit "Container") (JArr [jv; jg]) [(lit "Container", JArr [jv; jg])] (or_introl eq_refl)). lia. }
  assert (Ec : dec_vec (dec_row_with (dec_node max fuel)) (JArr values) = Some cells).
  { apply vec_iff. exists values. split; [reflexivity|]. refine (Forall2_weaken _ Hvs). intros x y Hx Hr. destruct Hr as [x l row Hr Hl].
    unfold dec_row_with. pose proof Hr as Hr'. apply struct1_iff in Hr'. rewrite Hr'. apply vec_iff. exists l. split; [reflexivity|].
    refine (Forall2_weaken _ Hl). intros z m Hz Hm. apply IH; [|exact Hm]. apply depth_record1 in Hr. pose proof (depth_arr Hz). pose proof (depth_arr Hx). lia. }
  rewrite Ec. assert (Ew : dec_uint max (JNum w) = Some w) by (now apply uint_iff). rewrite Ew. reflexivity.
Qed.
Lemma data_sound j nodes : dec_data max j = Some nodes -> nodes_json max j nodes.
Proof.
  unfold dec_data, nodes_json. intros H. destruct (struct2 _ _ j) as [[jv jd]|] eqn:E; [|discriminate H]. apply struct2_iff in E.
  destruct (dec_uint _ jv) as [version|] eqn:Ev; [|discriminate H]. apply uint_iff in Ev as [-> Hv]. apply vec_iff in H as (values & -> & Hl).
  exists version, values. split; [exact E|]. split; [exact Hv|]. refine (Forall2_weaken _ Hl). intros x y _. apply node_sound.
Qed.
Lemma data_complete j nodes : jdepth j <= 127 -> nodes_json max j nodes -> dec_data max j = Some nodes.
Proof.
  intros Hd (version & values & E & Hv & Hl). unfold dec_data. pose proof E as E'. apply struct2_iff in E'. rewrite E'.
  assert (Ev : dec_uint 4294967295 (JNum version) = Some version) by (now apply uint_iff). rewrite Ev. apply vec_iff. exists values. split; [reflexivity|].
  refine (Forall2_weaken _ Hl). intros x y Hx. apply node_complete. apply depth_record2 in E as [_ E]. pose proof (depth_arr Hx). lia.
Qed.
Lemma deserialize_iff text nodes : deserialize_input_nodes max text = Some nodes <-> exists j, json_text text j /\ nodes_json max j nodes.
Proof.
  unfold deserialize_input_nodes. split.
  - destruct (read_json text) as [j|] eqn:E; [|discriminate]. apply read_json_iff in E. intros H. apply data_sound in H. eauto.
  - intros (j & Ht & Hn). pose proof Ht as E. apply read_json_iff in E. rewrite E. apply data_complete; [|exact Hn].
    destruct Ht as (a & t & b & _ & _ & _ & Ht). destruct text_depth as (K & _). exact (K _ _ _ Ht).
Qed.
End Nodes.
