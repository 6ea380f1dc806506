(** Reading what has been written. *)
From Coq Require Import String DecimalN DecimalFacts.
From Verif Require Import Base Str Grid Node Spec Print Json BaseFacts PrintFacts.
Open Scope list_scope.
Open Scope nat_scope.
Set Implicit Arguments.
Unset Strict Implicit.

(** ** Nested induction *)
Section JsonInd.
  Variable P : json -> Prop.
  Hypothesis HN : P JNull.
  Hypothesis HB : forall b, P (JBool b).
  Hypothesis HNum : forall n, P (JNum n).
  Hypothesis HO : P JOther.
  Hypothesis HS : forall s, P (JStr s).
  Hypothesis HA : forall l, (forall x, In x l -> P x) -> P (JArr l).
  Hypothesis HM : forall l, (forall k x, In (k, x) l -> P x) -> P (JObj l).
  Hypothesis HI : P JIgnored.
  Fixpoint json_ind' (j : json) : P j.
  Proof.
    destruct j as [|b|n| |s|l|l|]; [exact HN|apply HB|apply HNum|exact HO|apply HS| | |exact HI].
    - apply HA. revert l. fix go 1. intros [|x l] y H; [destruct H|]. destruct H as [<-|H]; [apply json_ind'|exact (go l y H)].
    - apply HM. revert l. fix go 1. intros [|[k x] l] k' y H; [destruct H|]. destruct H as [H|H]; [apply (f_equal snd) in H; cbn in H; rewrite <- H; apply json_ind'|exact (go l k' y H)].
  Defined.
End JsonInd.

(** The nesting of arrays and objects. *)
Fixpoint jdepth (j : json) : nat :=
  match j with
  | JArr l => Datatypes.S (list_max (map jdepth l))
  | JObj l => Datatypes.S (list_max (map (fun kv => jdepth (snd kv)) l))
  | _ => 0
  end.

(** Without what is nested too deeply. *)
Fixpoint cut (d : nat) (j : json) {struct j} : json :=
  match j with
  | JArr l => match d with 0 => JIgnored | Datatypes.S d => JArr (map (cut d) l) end
  | JObj l => match d with 0 => JIgnored | Datatypes.S d => JObj (map (fun kv => (fst kv, cut d (snd kv))) l) end
  | j => j
  end.
Lemma cut_id j : forall d, jdepth j <= d -> cut d j = j.
Proof.
  induction j as [|b|n| |s|l IH|l IH|] using json_ind'; intros d H; try reflexivity; cbn [jdepth] in H; (destruct d as [|d]; [lia|]); cbn [cut]; f_equal.
  - apply le_S_n, list_max_le in H. rewrite Forall_forall in H. rewrite <- (map_id l) at 2. apply map_ext_in. intros x Hx. apply IH; [exact Hx|]. apply H, in_map, Hx.
  - apply le_S_n, list_max_le in H. rewrite Forall_forall in H. rewrite <- (map_id l) at 2. apply map_ext_in. intros [k x] Hx. cbn [fst snd]. f_equal. apply (IH k x Hx).
    apply H. apply in_map_iff. exists (k, x). auto.
Qed.

(** ** Strings *)
Lemma hex_inv n : (n < 16)%N -> hex_value (hex_digit n) = Some n.
Proof.
  intros H. unfold hex_digit, hex_value. destruct (n <? 10)%N eqn:E.
  - destruct ((48 <=? 48 + n) && (48 + n <=? 57))%N eqn:E1; [f_equal; lia|lia].
  - destruct ((48 <=? 87 + n) && (87 + n <=? 57))%N eqn:E1; [lia|].
    destruct ((97 <=? 87 + n) && (87 + n <=? 102))%N eqn:E2; [f_equal; lia|lia].
Qed.
(** Each escaped character is read back. *)
Lemma escape_read c t fuel : read_string (Datatypes.S fuel) (escape_char c ++ t) =
  match read_string fuel t with Some (s, r) => Some (option_map (cons c) s, r) | None => None end.
Proof.
  unfold escape_char.
  destruct (c =? 34)%N eqn:E1; [apply N.eqb_eq in E1; subst; reflexivity|].
  destruct (c =? 92)%N eqn:E2; [apply N.eqb_eq in E2; subst; reflexivity|].
  destruct (c =? 8)%N eqn:E3; [apply N.eqb_eq in E3; subst; reflexivity|].
  destruct (c =? 9)%N eqn:E4; [apply N.eqb_eq in E4; subst; reflexivity|].
  destruct (c =? 10)%N eqn:E5; [apply N.eqb_eq in E5; subst; reflexivity|].
  destruct (c =? 12)%N eqn:E6; [apply N.eqb_eq in E6; subst; reflexivity|].
  destruct (c =? 13)%N eqn:E7; [apply N.eqb_eq in E7; subst; reflexivity|].
  destruct (c <? 32)%N eqn:E8.
  - change (lit "\u00") with [92; 117; 48; 48]%N. cbn [app].
    assert (H1 : (c / 16 < 16)%N) by (apply N.div_lt_upper_bound; lia).
    assert (H2 : (c mod 16 < 16)%N) by (apply N.mod_lt; lia).
    cbn [read_string]. change (92 =? 34)%N with false. change (92 =? 92)%N with true. cbn iota.
    assert (He : read_escape (117%N :: 48%N :: 48%N :: hex_digit (c / 16) :: hex_digit (c mod 16) :: t) = Some (Some c, t)).
    { cbn [read_escape]. change (117 =? 34)%N with false. change (117 =? 92)%N with false. change (117 =? 47)%N with false.
      change (117 =? 98)%N with false. change (117 =? 102)%N with false. change (117 =? 110)%N with false. change (117 =? 114)%N with false.
      change (117 =? 116)%N with false. change (117 =? 117)%N with true. cbn iota. unfold read_hex4.
      change (hex_value 48) with (Some 0%N). rewrite !hex_inv by assumption. cbn iota beta.
      assert (E : (((0 * 16 + 0) * 16 + c / 16) * 16 + c mod 16 = c)%N). { pose proof (N.div_mod c 16). lia. }
      rewrite E. destruct ((56320 <=? c) && (c <=? 57343))%N eqn:F1; [lia|]. destruct ((55296 <=? c) && (c <=? 56319))%N eqn:F2; [lia|]. reflexivity. }
    rewrite He. reflexivity.
  - cbn [app read_string]. rewrite E1, E2, E8. reflexivity.
Qed.
Lemma escape_nonempty c : 1 <= length (escape_char c).
Proof.
  unfold escape_char. repeat match goal with |- context [if ?b then _ else _] => destruct b end; rewrite ?app_length; cbn; lia.
Qed.
Lemma read_written s t fuel : length (flat_map escape_char s) < fuel ->
  read_string fuel (flat_map escape_char s ++ 34%N :: t) = Some (Some s, t).
Proof.
  revert fuel; induction s as [|c s IH]; intros fuel H; (destruct fuel as [|fuel]; [lia|]).
  - reflexivity.
  - cbn [flat_map] in *. rewrite <- app_assoc, escape_read. rewrite app_length in H. pose proof (escape_nonempty c).
    rewrite IH by lia. reflexivity.
Qed.

(** ** Numbers *)
Definition stop (t : str) : Prop := match t with [] => True | c :: _ => c = 44%N \/ c = 93%N \/ c = 125%N end.
Lemma read_digits_written u t : stop t -> read_digits (digits u ++ t) = (u, t).
Proof.
  intros Ht. induction u; cbn [digits app read_digits digit_of]; try (rewrite IHu; reflexivity).
  destruct t as [|c t]; [reflexivity|]. cbn in Ht. destruct Ht as [->|[->| ->]]; reflexivity.
Qed.
Lemma to_uint_valid n : valid_integer (N.to_uint n) = true.
Proof.
  assert (Hn : Decimal.unorm (N.to_uint n) = N.to_uint n).
  { rewrite <- DecimalN.Unsigned.to_of. now rewrite DecimalN.Unsigned.of_to. }
  destruct (N.to_uint n) as [|u|u|u|u|u|u|u|u|u|u] eqn:E; try reflexivity.
  - discriminate.
  - cbn in Hn. unfold Decimal.unorm in Hn. cbn in Hn. destruct u; try reflexivity; exfalso.
    all: cbn in Hn; try discriminate Hn.
    all: try (destruct (Decimal.nzhead u) eqn:Ez; try discriminate Hn; injection Hn as Hn; exact (DecimalFacts.nzhead_nonzero _ _ Ez)).
Qed.
Lemma read_number_written n t : stop t -> read_number (print_N n ++ t) = Some (JNum n, t).
Proof.
  intros Ht. unfold print_N. pose proof (to_uint_valid n) as Hv.
  assert (H : read_number (digits (N.to_uint n) ++ t) = read_unsigned false (digits (N.to_uint n) ++ t)).
  { destruct (N.to_uint n); try discriminate Hv; reflexivity. }
  rewrite H. unfold read_unsigned. rewrite read_digits_written by exact Ht. rewrite Hv. cbn [negb].
  assert (Hf : read_fraction t = Some (false, t)) by (destruct t as [|c t]; [reflexivity|destruct Ht as [->|[->| ->]]; reflexivity]).
  assert (He : read_exponent t = Some (false, t)) by (destruct t as [|c t]; [reflexivity|destruct Ht as [->|[->| ->]]; reflexivity]).
  rewrite Hf, He. cbn [orb]. now rewrite DecimalN.Unsigned.of_to.
Qed.
Lemma number_start n : exists c w, print_N n = c :: w /\ (48 <= c <= 57)%N.
Proof.
  unfold print_N. pose proof (to_uint_valid n) as Hv. destruct (N.to_uint n); try discriminate Hv; cbn [digits]; do 2 eexists; (split; [reflexivity|lia]).
Qed.

(** ** Values *)
(** A written value starts with none of the characters that are handled before it. *)
Lemma value_start j : exists c w, write_json j = c :: w /\ is_space c = false /\ c <> 93%N /\ c <> 125%N.
Proof.
  assert (K : forall c w, is_space c = false -> c <> 93%N -> c <> 125%N -> exists c' w', c :: w = c' :: w' /\ is_space c' = false /\ c' <> 93%N /\ c' <> 125%N) by eauto 6.
  destruct j as [|[]|n| |s|l|l|]; try (apply K; [reflexivity|discriminate|discriminate]).
  cbn [write_json]. destruct (number_start n) as (c&w&->&Hc). apply K; [|lia|lia].
  unfold is_space. repeat (rewrite (proj2 (N.eqb_neq _ _)) by lia). reflexivity.
Qed.
Lemma skip_value j t : skip_space (write_json j ++ t) = write_json j ++ t.
Proof. destruct (value_start j) as (c&w&->&Hs&_). cbn. now rewrite Hs. Qed.
Lemma value_length j : 1 <= length (write_json j).
Proof. destruct (value_start j) as (c&w&->&_). cbn. lia. Qed.
Lemma write_list_cons A (f : A -> str) x l : l <> [] -> write_list f (x :: l) = f x ++ lit "," ++ write_list f l.
Proof. destruct l; [congruence|reflexivity]. Qed.
Lemma skip_stop c t : c = 44%N \/ c = 93%N \/ c = 125%N -> skip_space (c :: t) = c :: t.
Proof. intros [->|[->| ->]]; reflexivity. Qed.

(** The value is read back, without what is nested too deeply. *)
Definition reads_back (j : json) : Prop := forall fuel depth t, 2 * length (write_json j) <= fuel -> stop t ->
  read_value fuel depth (write_json j ++ t) = Some (cut (depth - 1) j, t).

Lemma elements_back l : (forall x, In x l -> reads_back x) -> l <> [] ->
  forall fuel depth t, 2 * length (write_list write_json l) + 1 <= fuel ->
  read_elements fuel depth (write_list write_json l ++ 93%N :: t) = Some (map (cut (depth - 1)) l, t).
Proof.
  induction l as [|x l IH]; intros Hx Hne fuel depth t Hf; [congruence|]. destruct fuel as [|fuel]; [lia|]. cbn [read_elements].
  destruct l as [|y l].
  - cbn [write_list map] in *. rewrite (Hx x (or_introl eq_refl)) by (cbn; auto; lia). rewrite skip_stop by auto. reflexivity.
  - rewrite write_list_cons in * by congruence. change (lit ",") with [44%N] in *. cbn [app] in *. rewrite app_length in Hf. cbn [length] in Hf.
    rewrite <- app_assoc. cbn [app]. rewrite (Hx x (or_introl eq_refl)) by (cbn; auto; lia).
    rewrite skip_stop by auto. rewrite (IH (fun z Hz => Hx z (or_intror Hz))) by (auto; try discriminate; lia). reflexivity.
Qed.
Definition write_member (kv : str * json) : str := write_string (fst kv) ++ lit ":" ++ write_json (snd kv).
Lemma member_string k t : read_string (length (flat_map escape_char k ++ 34%N :: t)) (flat_map escape_char k ++ 34%N :: t) = Some (Some k, t).
Proof. apply read_written. rewrite app_length. cbn. lia. Qed.
Lemma members_back l : (forall k x, In (k, x) l -> reads_back x) -> l <> [] ->
  forall fuel depth t, 2 * length (write_list write_member l) + 1 <= fuel ->
  read_members fuel depth (write_list write_member l ++ 125%N :: t) = Some (Some (map (fun kv => (fst kv, cut (depth - 1) (snd kv))) l), t).
Proof.
  induction l as [|[k x] l IH]; intros Hx Hne fuel depth t Hf; [congruence|]. destruct fuel as [|fuel]; [lia|]. cbn [read_members].
  assert (Hw : forall r, write_member (k, x) ++ r = 34%N :: flat_map escape_char k ++ 34%N :: 58%N :: write_json x ++ r).
  { intros r. unfold write_member, write_string. cbn [fst snd]. change (lit """") with [34%N]. change (lit ":") with [58%N]. cbn [app]. now rewrite <- !app_assoc. }
  assert (Hlen : 2 * length (write_json x) + 2 <= 2 * length (write_member (k, x))).
  { unfold write_member, write_string. cbn [fst snd]. rewrite !app_length. cbn. lia. }
  assert (Hmem : forall r, skip_space (34%N :: r) = 34%N :: r) by reflexivity.
  assert (Hcol : forall r, skip_space (58%N :: r) = 58%N :: r) by reflexivity.
  destruct l as [|y l].
  - cbn [write_list map fst snd option_map] in *. rewrite Hw, Hmem. cbn iota. rewrite member_string, Hcol. cbn iota. rewrite (Hx k x (or_introl eq_refl)) by (cbn; auto; lia).
    rewrite skip_stop by auto. reflexivity.
  - rewrite write_list_cons in * by congruence. change (lit ",") with [44%N] in *. cbn [app] in *. rewrite app_length in Hf. cbn [length] in Hf.
    rewrite <- app_assoc. cbn [app]. rewrite Hw, Hmem. cbn iota. rewrite member_string, Hcol. cbn iota. rewrite (Hx k x (or_introl eq_refl)) by (cbn; auto; lia).
    rewrite skip_stop by auto. rewrite (IH (fun k' z Hz => Hx k' z (or_intror Hz))) by (auto; try discriminate; lia). reflexivity.
Qed.

Lemma value_back j : reads_back j.
Proof.
  induction j as [|b|n| |s|l IH|l IH|] using json_ind'; intros fuel depth t Hf Ht;
    (destruct fuel as [|fuel]; [match type of Hf with _ * length ?w <= _ => assert (1 <= length w) by (apply value_length) end; lia|]).
  - destruct t; reflexivity.
  - destruct b, t; reflexivity.
  - cbn [read_value]. rewrite skip_value. cbn [write_json].
    pose proof (read_number_written n Ht) as Hr. destruct (number_start n) as (c&w&Ew&Hc). rewrite Ew in *. cbn [app] in *.
    repeat (rewrite (proj2 (N.eqb_neq c _)) by lia). exact Hr.
  - cbn [read_value]. rewrite skip_value. cbn.
    destruct t as [|c t]; [reflexivity|destruct Ht as [->|[->| ->]]; reflexivity].
  - cbn [read_value]. rewrite skip_value. cbn [write_json]. unfold write_string.
    change (lit """") with [34%N]. cbn [app]. change (34 =? 110)%N with false. change (34 =? 116)%N with false. change (34 =? 102)%N with false.
    change (34 =? 34)%N with true. cbn iota. rewrite <- app_assoc. cbn [app]. rewrite member_string. reflexivity.
  - cbn [read_value]. rewrite skip_value. cbn [write_json] in *. change (lit "[") with [91%N] in *. change (lit "]") with [93%N] in *. cbn [app] in *.
    change (91 =? 110)%N with false. change (91 =? 116)%N with false. change (91 =? 102)%N with false. change (91 =? 34)%N with false.
    change (91 =? 91)%N with true. cbn iota. cbv zeta.
    assert (Hcut : forall l', l' = map (cut (depth - 1 - 1)) l -> (if depth <=? 1 then JIgnored else JArr l') = cut (depth - 1) (JArr l)).
    { intros l' ->. destruct depth as [|[|d]]; [reflexivity|reflexivity|]. cbn [Nat.leb Nat.sub cut]. rewrite Nat.sub_0_r. reflexivity. }
    rewrite <- app_assoc. cbn [app]. destruct l as [|x l].
    + change (skip_space (write_list write_json [] ++ 93%N :: t)) with (93%N :: t). cbn iota. now rewrite Hcut.
    + cbn [length] in Hf. rewrite app_length in Hf. cbn [length] in Hf.
      assert (Hstart : exists c w, write_list write_json (x :: l) ++ 93%N :: t = c :: w /\ is_space c = false /\ c <> 93%N).
      { destruct (value_start x) as (c&w&Ex&H1&H2&_). destruct l as [|y l].
        - cbn [write_list]. rewrite Ex. cbn. eauto.
        - rewrite write_list_cons by congruence. rewrite Ex. cbn. eauto. }
      pose proof (@elements_back (x :: l) IH ltac:(discriminate) fuel (depth - 1) t ltac:(lia)) as Hr.
      destruct Hstart as (c&w&Ew&Hs&H93). rewrite Ew in *. cbn [skip_space]. rewrite Hs.
      transitivity (match read_elements fuel (depth - 1) (c :: w) with Some (l0, r) => Some (if depth <=? 1 then JIgnored else JArr l0, r) | None => None end).
      { clear - H93. destruct c as [|p]; [reflexivity|]. repeat (destruct p as [p|p|]; try reflexivity). congruence. }
      rewrite Hr. now rewrite Hcut.
  - cbn [read_value]. rewrite skip_value. cbn [write_json] in *. fold write_member in *. change (lit "{") with [123%N] in *. change (lit "}") with [125%N] in *. cbn [app] in *.
    change (123 =? 110)%N with false. change (123 =? 116)%N with false. change (123 =? 102)%N with false. change (123 =? 34)%N with false.
    change (123 =? 91)%N with false. change (123 =? 123)%N with true. cbn iota. cbv zeta.
    assert (Hcut : forall l', l' = map (fun kv => (fst kv, cut (depth - 1 - 1) (snd kv))) l -> (if depth <=? 1 then JIgnored else JObj l') = cut (depth - 1) (JObj l)).
    { intros l' ->. destruct depth as [|[|d]]; [reflexivity|reflexivity|]. cbn [Nat.leb Nat.sub cut]. rewrite Nat.sub_0_r. reflexivity. }
    rewrite <- app_assoc. cbn [app]. destruct l as [|x l].
    + match goal with |- context [skip_space ?s] => change (skip_space s) with (125%N :: t) end. cbn iota. now rewrite Hcut.
    + cbn [length] in Hf. rewrite app_length in Hf. cbn [length] in Hf.
      change (fun kv : str * json => write_string (fst kv) ++ lit ":" ++ write_json (snd kv)) with write_member in *.
      assert (Hstart : exists w, write_list write_member (x :: l) ++ 125%N :: t = 34%N :: w).
      { destruct l as [|y l]; [cbn [write_list]|rewrite write_list_cons by congruence]; unfold write_member at 1, write_string; cbn; eauto. }
      pose proof (@members_back (x :: l) IH ltac:(discriminate) fuel (depth - 1) t ltac:(lia)) as Hr.
      destruct Hstart as (w&Ew). rewrite Ew in *. cbn [skip_space]. change (is_space 34) with false. cbn iota.
      rewrite Hr. now rewrite Hcut.
  - destruct t; reflexivity.
Qed.
