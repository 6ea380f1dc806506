(** Documents for which the number of calls of the parser is exponential. *)
From Coq Require Import String.
From Verif Require Import Base Str Grid Node Autocomplete NameMap Syntax Pratt Grammar Cost Spec SpecSyntax BaseFacts ParseFacts ParseTotal GrammarFacts CostFacts.
Open Scope list_scope.
Open Scope nat_scope.
Set Implicit Arguments.
Unset Strict Implicit.

Section Default.
Variable xs xc : N -> bool.
Notation g := (default_grammar xs xc).
Variable rec : Power -> Ending -> Input -> Counted (PrattResult * Input).

(** ** Opening brackets *)
Notation lp := (Symbol (lit "(")).
Lemma prefix_bracket pos l : cparse_prefix g rec (pos, lp :: l) = (0, Ok None). Proof. vm_compute. reflexivity. Qed.
(** Alternatives that fail without calls *)
Lemma choice_skip a b i : Forall (fun r => cparse_rule g rec (fst r) (snd r) i = (0, Ok None)) a -> cparse_choice g rec (a ++ b) i = cparse_choice g rec b i.
Proof. induction 1 as [|[name t] a H _ IH]; [reflexivity|]. cbn [app cparse_choice]. cbn [fst snd] in H. rewrite H. cbn [cbind]. rewrite IH. destruct (cparse_choice g rec b i). reflexivity. Qed.
Lemma choice_none a i : Forall (fun r => cparse_rule g rec (fst r) (snd r) i = (0, Ok None)) a -> cparse_choice g rec a i = (0, Ok None).
Proof. intros H. rewrite <- (app_nil_r a). rewrite choice_skip by exact H. reflexivity. Qed.
Lemma bracket_rule name pos l k b child p2 : rec (0, Weak) (EndSymbol (lit ")")) (S pos, l) = (k, Ok ((b, child), (p2, []))) ->
  cparse_rule g rec name (TBrackets (lit "(") (lit ")")) (pos, lp :: l) = (k, Ok None).
Proof.
  intros H. unfold cparse_rule. change (parse_spaces (pos, lp :: l)) with (Ok (@None SyntaxNode, (pos, lp :: l))). cbn [free cbind]. unfold cpbind. cbn [cparse_token].
  change (just_symbol (lit "(") (pos, lp :: l)) with (Some (lit "(", (S pos, l))). cbv iota beta. rewrite H. cbn. now rewrite !Nat.add_0_r.
Qed.
Lemma add_00 n : n + 0 = n. Proof. apply Nat.add_0_r. Qed.
Lemma atom_bracket pos n k b child p2 : xs 40 = false -> rec (0, Weak) (EndSymbol (lit ")")) (S pos, repeat lp n) = (k, Ok ((b, child), (p2, []))) ->
  cparse_atom g rec (pos, lp :: repeat lp n) = (k, Ok None).
Proof.
  intros Hx H. unfold cparse_atom. set (l := repeat lp n) in *.
  assert (E : atom_rules g = firstn 6 (atom_rules g) ++ ([lit "Core"; lit "RoundBrackets"], TBrackets (lit "(") (lit ")")) :: skipn 7 (atom_rules g)) by reflexivity.
  rewrite E. rewrite choice_skip.
  - cbn [cparse_choice]. rewrite (bracket_rule _ H). cbn [cbind]. rewrite choice_none; [now rewrite add_00|].
    repeat constructor; try (vm_compute; reflexivity). vm_compute. rewrite Hx. reflexivity.
  - subst l. destruct n; repeat constructor; vm_compute; reflexivity.
Qed.
(** Looking ahead at a bracket *)
Lemma can_prefix_bracket pos l : ccan_prefix g rec (pos, lp :: l) = (0, Ok false). Proof. vm_compute. reflexivity. Qed.
Lemma can_infix_bracket pos l : ccan_infix g rec (pos, lp :: l) = (0, Ok false). Proof. vm_compute. reflexivity. Qed.
Lemma can_skip a b i : Forall (fun t => ccan_token g rec t (skip_spaces i) = (0, Ok false)) a -> ccan_any g rec (a ++ b) i = ccan_any g rec b i.
Proof. induction 1 as [|t a H _ IH]; [reflexivity|]. cbn [app ccan_any]. rewrite H. unfold cor_else. cbn [cbind]. rewrite IH. destruct (ccan_any g rec b i). reflexivity. Qed.
Lemma can_none a i : Forall (fun t => ccan_token g rec t (skip_spaces i) = (0, Ok false)) a -> ccan_any g rec a i = (0, Ok false).
Proof. intros H. rewrite <- (app_nil_r a). rewrite can_skip by exact H. reflexivity. Qed.
Lemma can_bracket pos l k b child p2 : rec (0, Weak) (EndSymbol (lit ")")) (S pos, l) = (k, Ok ((b, child), (p2, []))) ->
  ccan_token g rec (TBrackets (lit "(") (lit ")")) (skip_spaces (pos, lp :: l)) = (k, Ok false).
Proof.
  intros H. change (skip_spaces (pos, lp :: l)) with (pos, lp :: l). cbn [ccan_token]. change (just_symbol (lit "(") (pos, lp :: l)) with (Some (lit "(", (S pos, l))). cbv iota beta. rewrite H. cbn. now rewrite Nat.add_0_r.
Qed.
Lemma can_atom_bracket pos n k b child p2 : xs 40 = false -> rec (0, Weak) (EndSymbol (lit ")")) (S pos, repeat lp n) = (k, Ok ((b, child), (p2, []))) ->
  ccan_atom g rec (pos, lp :: repeat lp n) = (k, Ok false).
Proof.
  intros Hx H. unfold ccan_atom. set (l := repeat lp n) in *.
  assert (E : map snd (atom_rules g) = firstn 6 (map snd (atom_rules g)) ++ TBrackets (lit "(") (lit ")") :: skipn 7 (map snd (atom_rules g))) by reflexivity.
  rewrite E. rewrite can_skip.
  - cbn [ccan_any]. rewrite (can_bracket H). unfold cor_else. cbn [cbind]. rewrite can_none; [now rewrite add_00|].
    repeat constructor; try (vm_compute; reflexivity). vm_compute. rewrite Hx. reflexivity.
  - subst l. destruct n; repeat constructor; vm_compute; reflexivity.
Qed.
Lemma can_postfix_bracket pos n k b child p2 : rec (0, Weak) (EndSymbol (lit ")")) (S pos, repeat lp n) = (k, Ok ((b, child), (p2, []))) ->
  ccan_postfix g rec (pos, lp :: repeat lp n) = (k, Ok false).
Proof.
  intros H. unfold ccan_postfix. set (l := repeat lp n) in *.
  assert (E : map op_token (postfix_ops g) = firstn 1 (map op_token (postfix_ops g)) ++ TBrackets (lit "(") (lit ")") :: skipn 2 (map op_token (postfix_ops g))) by reflexivity.
  rewrite E. rewrite can_skip.
  - cbn [ccan_any]. rewrite (can_bracket H). unfold cor_else. cbn [cbind]. rewrite can_none; [now rewrite add_00|].
    repeat constructor; vm_compute; reflexivity.
  - subst l. destruct n; repeat constructor; vm_compute; reflexivity.
Qed.
Lemma count_bind A B (m : Counted A) (f : A -> Counted B) k b : cbind m f = (k, Ok b) -> exists a k1 k2, m = (k1, Ok a) /\ f a = (k2, Ok b) /\ k = k1 + k2.
Proof. destruct m as [n [a|p]]; cbn; [|intros H; discriminate H]. destruct (f a) as [k2 r] eqn:E. intros H. injection H as <- ->. eauto 6. Qed.
Lemma count_free A (r : Res A) k b : free r = (k, Ok b) -> k = 0 /\ r = Ok b.
Proof. intros H. injection H as <- ->. auto. Qed.
Definition not_opening (e : Ending) : Prop := match e with EndSymbol s => str_eqb (lit "(") s = false | EndInput => True end.
Lemma not_at_end e pos l : not_opening e -> is_at_end e (pos, lp :: l) = false.
Proof. destruct e as [|s]; [reflexivity|]. cbn. intros ->. reflexivity. Qed.
Lemma unknown_brackets e n : xs 40 = false -> not_opening e ->
  (forall m pos, m < n -> exists b child p2, rec (0, Weak) (EndSymbol (lit ")")) (pos, repeat lp m) = (3 ^ m, Ok ((b, child), (p2, [])))) ->
  forall node pos k r, cunknown_loop g rec e node pos (repeat lp n) = (k, Ok r) -> S k = 3 ^ n /\ snd (snd r) = [].
Proof.
  intros Hx He. induction n as [|n IH]; intros R node pos k r H.
  - destruct e; inversion H; subst; split; reflexivity.
  - revert H. cbn [repeat cunknown_loop]. rewrite (not_at_end pos _ He). destruct (@R n (S pos) ltac:(lia)) as (b&child&p2&Hr).
    rewrite can_prefix_bracket, can_infix_bracket, (@can_atom_bracket pos n _ _ _ _ Hx Hr), (@can_postfix_bracket pos n _ _ _ _ Hr). intros H.
    apply count_bind in H as (stop&k1&k2&Es&H&->). cbn in Es. injection Es as <- <-.
    apply count_bind in H as (next&k3&k4&E3&H&->). apply count_free in E3 as [-> _]. apply count_bind in H as (node'&k5&k6&E5&H&->). apply count_free in E5 as [-> _].
    destruct (IH ltac:(intros; apply R; lia) _ _ _ _ H) as [E Er]. split; [|exact Er]. cbn [Nat.pow]. lia.
Qed.
End Default.
Lemma brackets_wf n : wf_row (repeat (Symbol (lit "(")) n).
Proof. intros v Hv. apply repeat_spec in Hv. subst v. constructor. Qed.
Lemma brackets_size n : row_size (repeat (Symbol (lit "(")) n) = n.
Proof. unfold row_size. induction n as [|n IH]; [reflexivity|]. cbn [repeat map node_size]. unfold list_sum in *. cbn [fold_right]. lia. Qed.
Lemma brackets_skip pos n : skipn pos (repeat (Symbol (lit "(")) (pos + n)) = repeat (Symbol (lit "(")) n.
Proof. induction pos as [|pos IH]; [reflexivity|exact IH]. Qed.
Lemma brackets_inp pos n : (pos, repeat (Symbol (lit "(")) n) = inp (repeat (Symbol (lit "(")) (pos + n)) pos.
Proof. unfold inp. now rewrite brackets_skip. Qed.
Lemma brackets_result xs xc f n pos e : n < f -> not_opening e ->
  exists node, pratt_parse (default_grammar xs xc) f (0, Weak) e (pos, repeat (Symbol (lit "(")) n) = Ok ((true, node), (pos + n, [])).
Proof.
  intros Hn He. rewrite brackets_inp.
  destruct (@pratt_parse_ok (default_grammar xs xc) (@default_no_empty_tokens xs xc) (@default_all_containers xs xc) f f (Nat.le_refl _) (repeat (Symbol (lit "(")) (pos + n)) pos (0, Weak) e) as (ended&node&p'&E&_&Hp&_&Hend&Hm&_).
  - apply brackets_wf.
  - rewrite repeat_length. lia.
  - now rewrite brackets_skip, brackets_size.
  - rewrite repeat_length in Hp. rewrite (Hm eq_refl) in E. specialize (Hend (Hm eq_refl)). exists node. rewrite E. replace p' with (pos + n).
    + unfold inp. replace (skipn (pos + n) _) with (@nil InputNode) by (symmetry; apply skipn_all2; rewrite repeat_length; lia). reflexivity.
    + destruct (Nat.eq_dec p' (pos + n)) as [|Hne]; [auto|]. replace (pos + n) with (p' + S (pos + n - p' - 1)) in Hend by lia. rewrite <- brackets_inp in Hend. cbn [repeat] in Hend.
      rewrite not_at_end in Hend by exact He. discriminate.
Qed.
Lemma brackets_counted xs xc f n pos e : n < f -> not_opening e ->
  exists node, snd (cpratt_parse (default_grammar xs xc) f (0, Weak) e (pos, repeat (Symbol (lit "(")) n)) = Ok ((true, node), (pos + n, [])).
Proof.
  intros Hn He. destruct (@brackets_result xs xc f n pos e Hn He) as (node&E). exists node. rewrite brackets_inp in *.
  apply (counted_at (@default_no_empty_tokens xs xc) (@default_all_containers xs xc)); [apply brackets_wf|rewrite repeat_length; lia|now rewrite brackets_skip, brackets_size|exact E].
Qed.
Lemma brackets_count xs xc f : xs 40%N = false -> forall n pos e, n < f -> not_opening e -> exists node, cpratt_parse (default_grammar xs xc) f (0, Weak) e (pos, repeat (Symbol (lit "(")) n) =
  (3 ^ n, Ok ((true, node), (pos + n, []))).
Proof.
  intros Hx n pos e Hn He. destruct (@brackets_counted xs xc f n pos e Hn He) as (node&E). exists node.
  destruct (cpratt_parse (default_grammar xs xc) f (0, Weak) e (pos, repeat (Symbol (lit "(")) n)) as [k r] eqn:C. cbn [snd] in E. subst r. f_equal.
  revert n pos e Hn He node k C. induction f as [|f IH]; intros n pos e Hn He node k C; [lia|]. set (g := default_grammar xs xc) in *.
  cbn [cpratt_parse] in C. assert (R : forall m pos, m < n -> exists b child p2, cpratt_parse g f (0, Weak) (EndSymbol (lit ")")) (pos, repeat (Symbol (lit "(")) m) = (3 ^ m, Ok ((b, child), (p2, [])))).
  { intros m q Hm. destruct (@brackets_counted xs xc f m q (EndSymbol (lit ")")) ltac:(lia) eq_refl) as (node'&E').
    destruct (cpratt_parse (default_grammar xs xc) f (0, Weak) _ _) as [k' r] eqn:C'. cbn [snd] in E'. subst r. rewrite <- (IH m q (EndSymbol (lit ")")) ltac:(lia) eq_refl _ _ C'). fold g in C'. rewrite C'. eauto. }
  destruct (cpratt_step g (cpratt_parse g f) (0, Weak) e (pos, repeat (Symbol (lit "(")) n)) as [k0 r0] eqn:Es. injection C as <- ->.
  destruct n as [|n]; [cbn in Es; injection Es as <- _ _; reflexivity|]. revert Es. unfold cpratt_step, cpratt_first. cbn [at_end snd repeat].
  destruct (@R n (S pos) ltac:(lia)) as (b&child&p2&Hr). subst g.
  rewrite prefix_bracket, can_infix_bracket, (@atom_bracket xs xc _ pos n _ _ _ _ Hx Hr), (@can_postfix_bracket xs xc _ pos n _ _ _ _ Hr). rewrite (not_at_end pos _ He).
  intros H. apply count_bind in H as ([[ended lhs] i1]&k1&k2&H&E2&->). apply count_bind in H as (x0&k3&k4&E3&H&->). injection E3 as <- <-.
  apply count_bind in H as (x1&k5&k6&E5&H&->). injection E5 as <- <-. apply count_bind in H as (x2&k7&k8&E7&H&->). cbn in E7. injection E7 as <- <-.
  apply count_bind in H as ([n1 i2]&k9&k10&E9&H&->). apply count_free in H as [-> H]. injection H as <- <- <-. unfold cparse_unknown in E9. cbn [snd] in E9.
  apply count_bind in E9 as (node0&k11&k12&E11&E9&->). apply count_free in E11 as [-> _].
  destruct (@unknown_brackets xs xc (cpratt_parse (default_grammar xs xc) f) e n Hx He ltac:(intros m p Hm; apply R; lia) _ _ _ _ E9) as [Ek Er]. destruct i2 as [p i2]. cbn [snd] in Er. subst i2.
  cbn in E2. injection E2 as <- _ _. cbn [Nat.pow]. lia.
Qed.
Lemma brackets_calls xs xc n : xs 40%N = false -> calls (default_grammar xs xc) (repeat (Symbol (lit "(")) n) = 3 ^ n.
Proof.
  intros Hx. unfold calls, cparse, cparse_row_with. rewrite brackets_size. destruct (@brackets_count xs xc (S n) Hx n 0 EndInput ltac:(lia) I) as (node&->). cbn. lia.
Qed.

(** ** Powers of two exceed every polynomial *)
Lemma two_pow n : n < 2 ^ n.
Proof. induction n as [|n IH]; cbn [Nat.pow]; lia. Qed.
Lemma beats_linear d c : exists j, d * j + c < 2 ^ j.
Proof.
  set (h := 2 * d + c + 1). exists (2 * h). rewrite Nat.mul_comm, Nat.pow_mul_r.
  pose proof (two_pow h) as H. assert (E : (2 ^ h) ^ 2 = 2 ^ h * 2 ^ h) by (cbn [Nat.pow]; lia). rewrite <- Nat.pow_mul_r in *. replace (2 * h) with (h + h) in * by lia. 
  replace (h * 2) with (h + h) by lia. rewrite Nat.pow_add_r. assert (h * S h <= 2 ^ h * 2 ^ h) by (apply Nat.mul_le_mono; lia). unfold h in *. nia.
Qed.
Lemma beats_polynomial a b c k : exists n, a * (b * n + c) ^ k < 2 ^ n.
Proof.
  destruct (beats_linear (b * S k) (c + a)) as (j&Hj). exists (j * S k). rewrite Nat.pow_mul_r. set (m := 2 ^ j) in *. cbn [Nat.pow].
  assert (b * (j * S k) + c <= m) by nia. assert ((b * (j * S k) + c) ^ k <= m ^ k) by (apply Nat.pow_le_mono_l; assumption). assert (0 < m ^ k) by (apply Nat.neq_0_lt_0, Nat.pow_nonzero; lia).
  assert (a < m) by lia. nia.
Qed.
