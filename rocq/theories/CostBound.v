(** Upper bounds of the number of calls of the parser. *)
From Coq Require Import String.
From Verif Require Import Base Str Grid Node Autocomplete NameMap Syntax Pratt Grammar Cost Spec SpecSyntax BaseFacts GridFacts TreeFacts ParseFacts ParseTotal GrammarFacts CostFacts.
Open Scope list_scope.
Open Scope nat_scope.
Set Implicit Arguments.
Unset Strict Implicit.

Lemma fst_bind A B (m : Counted A) (f : A -> Counted B) a : snd m = Ok a -> fst (cbind m f) = fst m + fst (f a).
Proof. destruct m as [k r]. cbn. intros ->. destruct (f a). reflexivity. Qed.
Lemma fst_bind_free A B (m : Counted A) (f : A -> Counted B) : (forall a, fst (f a) = 0) -> fst (cbind m f) = fst m.
Proof. destruct m as [k [a|p]]; cbn; intros H; [|reflexivity]. specialize (H a). destruct (f a). cbn in *. lia. Qed.
Lemma fst_pbind_free A B (r : Counted (option (A * Input))) (f : A -> Input -> Counted (option (B * Input))) : (forall a i, fst (f a i) = 0) -> fst (cpbind r f) = fst r.
Proof. intros H. apply fst_bind_free. intros [[a i]|]; auto. Qed.

(** Whether the token makes calls at a node *)
Definition hits (t : TokenParser) (n : InputNode) : bool :=
  match t, n with
  | TContainer v, Container v' _ => variant_eqb v' v
  | TBrackets a _, Symbol s => str_eqb s a
  | _, _ => false
  end.
Definition rule_hits (n : InputNode) (r : PathIdentifier * TokenParser) : bool := hits (snd r) n.
Definition op_hits (n : InputNode) (op : OpParser) : bool := hits (op_token op) n.
Definition at_most_once A (p : A -> bool) (l : list A) : Prop := length (filter p l) <= 1.

(** The bound *)
Definition B (n : nat) : nat := 9 ^ n.

Section Step.
Variable g : Grammar.
Hypothesis Htok : no_empty_tokens g.
Hypothesis Hcont : all_containers g.
Variables (f : nat) (crec : Power -> Ending -> Input -> Counted (PrattResult * Input)) (rec rec' : Power -> Ending -> Input -> Res (PrattResult * Input)).
Hypothesis same : forall min e i, snd (crec min e i) = rec' min e i.
Hypothesis R : rec_ok g f rec rec'.
Hypothesis RP : forall cell n, row_size cell < f -> parse_row_with rec cell = Ok n -> P g cell n.

(** ** Tokens that make no calls *)
Lemma token_free t i : (forall n r, snd i = n :: r -> hits t n = false) -> fst (cparse_token g crec t i) = 0.
Proof.
  intros H. destruct t; try reflexivity; cbn [cparse_token].
  - destruct (snd i) as [|[v' c|s] r] eqn:E; try reflexivity. specialize (H _ _ eq_refl). cbn in H. rewrite H. reflexivity.
  - unfold just_symbol. destruct (snd i) as [|[v' c|s] r] eqn:E; try reflexivity. specialize (H _ _ eq_refl). cbn in H. rewrite H. reflexivity.
Qed.
Definition skip (row : InputRow) (pos : nat) : nat := match parse_spaces (inp row pos) with Ok (_, i) => fst i | _ => pos end.
Lemma skip_range row pos : pos <= length row -> pos <= skip row pos <= length row.
Proof. intros Hp. unfold skip. destruct (parse_spaces_ok (P := P g) Hp) as (before&p&E&Hp1&_). rewrite E. exact Hp1. Qed.
Lemma rule_cost name t row pos : pos <= length row -> fst (cparse_rule g crec name t (inp row pos)) = fst (cparse_token g crec t (inp row (skip row pos))).
Proof.
  intros Hp. unfold skip. destruct (parse_spaces_ok (P := P g) Hp) as (before&p&E&Hp1&_). unfold cparse_rule. rewrite E. cbn [free cbind].
  match goal with |- context [cpbind ?a ?b] => set (x := cpbind a b) end.
  transitivity (fst x); [now destruct x|]. apply fst_pbind_free. reflexivity.
Qed.
Lemma script_cost v i : fst (cparse_script g crec v i) = fst (cparse_token g crec (TContainer v) i).
Proof. apply fst_pbind_free. reflexivity. Qed.

(** ** Alternatives *)
Lemma choice_cost q n rules row pos : pos <= length row -> (forall t, hits t n = false -> fst (cparse_token g crec t (inp row (skip row pos))) = 0) ->
  (forall t, fst (cparse_token g crec t (inp row (skip row pos))) <= q) -> at_most_once (rule_hits n) rules ->
  fst (cparse_choice g crec rules (inp row pos)) <= q.
Proof.
  intros Hp Hz Hq. induction rules as [|[name t] rules IH]; intros H; [cbn; lia|]. cbn [cparse_choice]. unfold at_most_once in *. cbn [filter] in H.
  pose proof (@rule_cost name t row pos Hp) as E. destruct (cparse_rule g crec name t (inp row pos)) as [k [o|p]]; cbn [fst] in E; [|cbn; rewrite E; apply Hq].
  unfold rule_hits in H at 1. cbn [snd] in H. cbn [cbind]. destruct o as [x|]; [cbn; rewrite E, Nat.add_0_r; apply Hq|].
  destruct (cparse_choice g crec rules (inp row pos)) as [k2 r2] eqn:E2. cbn [fst]. destruct (hits t n) eqn:Eh.
  - cbn [length] in H. assert (Hno : filter (rule_hits n) rules = []) by (destruct (filter _ rules); [reflexivity|cbn in H; lia]).
    assert (k2 = 0); [|rewrite E; subst; pose proof (Hq t); lia]. clear IH H. revert k2 r2 E2 Hno. clear - Hp Hz. induction rules as [|[name t] rules IH]; intros k2 r2 E2 Hno; [injection E2 as <- _; reflexivity|].
    cbn [filter] in Hno. unfold rule_hits in Hno at 1. cbn [snd] in Hno. destruct (hits t n) eqn:Eh; [discriminate|]. cbn [cparse_choice] in E2.
    pose proof (@rule_cost name t row pos Hp) as E. rewrite (Hz _ Eh) in E. destruct (cparse_rule g crec name t (inp row pos)) as [k [o|p]]; cbn [fst] in E; subst k; cbn [cbind] in E2; [|injection E2 as <- _; reflexivity].
    destruct o as [x|]; [injection E2 as <- _; reflexivity|]. destruct (cparse_choice g crec rules (inp row pos)) as [k3 r3] eqn:E3. injection E2 as <- _. eapply IH; eauto.
  - rewrite (Hz _ Eh) in E. subst k. apply IH in H. cbn in H. lia.
Qed.
Lemma iter_cost q ops i : (forall op, In op ops -> fst (cparse_op g crec op i) <= q) -> (forall op, In op ops -> snd (cparse_op g crec op i) = Ok None -> fst (cparse_op g crec op i) = 0) ->
  fst (cparse_iter g crec ops i) <= q.
Proof.
  induction ops as [|op ops IH]; intros Hq Hz; [cbn; lia|]. cbn [cparse_iter]. pose proof (Hq op (or_introl eq_refl)) as Q. pose proof (Hz op (or_introl eq_refl)) as Z.
  destruct (cparse_op g crec op i) as [k [[[n i']|]|p]]; cbn [fst snd cbind free] in *; [lia| |lia]. rewrite (Z eq_refl). clear Z Q.
  assert (I : fst (cparse_iter g crec ops i) <= q) by (apply IH; intros; [apply Hq|apply Hz]; auto; now right). destruct (cparse_iter g crec ops i). cbn in *. lia.
Qed.
Lemma postfix_cost q n ops row pos : pos <= length row -> (forall t, hits t n = false -> fst (cparse_token g crec t (inp row (skip row pos))) = 0) ->
  (forall t, fst (cparse_token g crec t (inp row (skip row pos))) <= q) -> (forall op, In op ops -> exists p, op_power op = BPostfix p) -> at_most_once (op_hits n) ops ->
  fst (cparse_iter g crec ops (inp row pos)) <= q.
Proof.
  intros Hp Hz Hq. assert (C : forall op, (exists p, op_power op = BPostfix p) -> fst (cparse_op g crec op (inp row pos)) = fst (cparse_token g crec (op_token op) (inp row (skip row pos)))).
  { intros op (p&E). unfold cparse_op. rewrite E. apply rule_cost. exact Hp. }
  induction ops as [|op ops IH]; intros Hpost H; [cbn; lia|]. cbn [cparse_iter]. unfold at_most_once in *. cbn [filter] in H.
  pose proof (C op (Hpost op (or_introl eq_refl))) as E. destruct (cparse_op g crec op (inp row pos)) as [k [o|p]]; cbn [fst] in E; [|cbn; rewrite E; apply Hq].
  unfold op_hits in H at 1. cbn [cbind]. destruct o as [[x i]|]; [cbn; rewrite E, Nat.add_0_r; apply Hq|].
  destruct (cparse_iter g crec ops (inp row pos)) as [k2 r2] eqn:E2. cbn [fst]. destruct (hits (op_token op) n) eqn:Eh.
  - cbn [length] in H. assert (Hno : filter (op_hits n) ops = []) by (destruct (filter _ ops); [reflexivity|cbn in H; lia]).
    assert (k2 = 0); [|rewrite E; subst; pose proof (Hq (op_token op)); lia]. assert (Hpost' : forall op, In op ops -> exists p, op_power op = BPostfix p) by (intros; apply Hpost; now right).
    clear IH H E Eh Hpost. revert k2 r2 E2 Hno Hpost'. clear - Hp Hz C. induction ops as [|op' ops IH]; intros k2 r2 E2 Hno Hpost; [injection E2 as <- _; reflexivity|].
    cbn [filter] in Hno. unfold op_hits in Hno at 1. destruct (hits (op_token op') n) eqn:Eh; [discriminate|]. cbn [cparse_iter] in E2.
    pose proof (C op' (Hpost op' (or_introl eq_refl))) as E. rewrite (Hz _ Eh) in E. destruct (cparse_op g crec op' (inp row pos)) as [k' [o|p]]; cbn [fst] in E; subst k'; cbn [cbind] in E2; [|injection E2 as <- _; reflexivity].
    destruct o as [[x i]|]; [injection E2 as <- _; reflexivity|]. destruct (cparse_iter g crec ops (inp row pos)) as [k3 r3] eqn:E3. injection E2 as <- _. eapply IH; eauto. intros; apply Hpost; now right.
  - rewrite (Hz _ Eh) in E. subst k. assert (I : fst (k2, r2) <= q) by (apply IH; auto; intros; apply Hpost; now right). cbn in I. lia.
Qed.

(** ** Calls that grow by a factor with every node *)
Section Exponential.
Hypothesis cost : forall row pos min e, wf_row row -> pos <= length row -> row_size (skipn pos row) < f -> fst (crec min e (inp row pos)) <= B (row_size (skipn pos row)).
Lemma B_pos n : 1 <= B n. Proof. unfold B. apply Nat.neq_0_lt_0, Nat.pow_nonzero. lia. Qed.
Lemma B_S n : B (S n) = 9 * B n. Proof. reflexivity. Qed.
Lemma B_le a b : a <= b -> B a <= B b. Proof. intros. unfold B. apply Nat.pow_le_mono_r; lia. Qed.
Lemma B_add a b : B a + B b <= B (S (a + b)).
Proof. rewrite B_S. unfold B. rewrite Nat.pow_add_r. fold (B a). fold (B b). pose proof (B_pos a). pose proof (B_pos b). nia. Qed.
Lemma row_cost cell : wf_row cell -> row_size cell < f -> fst (cparse_row_with crec cell) <= B (row_size cell).
Proof.
  intros Hw Hs. unfold cparse_row_with. change (0, cell) with (inp cell 0). rewrite fst_bind_free by (intros [[b n] i]; reflexivity). apply (@cost cell 0); auto. lia.
Qed.
Lemma rows_cost cells : cells <> [] -> (forall cell, In cell cells -> wf_row cell /\ row_size cell < f) -> fst (cmap_res (cparse_row_with crec) cells) <= B (list_sum (map (fun cell => S (row_size cell)) cells)).
Proof.
  destruct cells as [|c cells]; [easy|]. intros _. revert c. induction cells as [|c' cells IH]; intros c H.
  - cbn [cmap_res map]. destruct (H c (or_introl eq_refl)) as [Hw Hs]. rewrite fst_bind_free by reflexivity. pose proof (row_cost Hw Hs). eapply Nat.le_trans; [eassumption|]. apply B_le. unfold list_sum. cbn. lia.
  - change (cmap_res (cparse_row_with crec) (c :: c' :: cells)) with (y <+ cparse_row_with crec c ;; r <+ cmap_res (cparse_row_with crec) (c' :: cells) ;; free (Ok (y :: r))).
    destruct (H c (or_introl eq_refl)) as [Hw Hs]. pose proof (row_cost Hw Hs) as C1. specialize (IH c' ltac:(intros; apply H; now right)).
    set (cs := c' :: cells) in *. cbn [map]. set (T := list_sum (map (fun cell => S (row_size cell)) cs)) in *.
    replace (list_sum (S (row_size c) :: map (fun cell => S (row_size cell)) cs)) with (S (row_size c + T)) by (unfold T, list_sum; reflexivity).
    pose proof (B_add (row_size c) T) as HB. destruct (cparse_row_with crec c) as [k [n|p]]; cbn [fst] in C1; cbn [cbind]; [|cbn [fst]; pose proof (B_pos T); lia].
    destruct (cmap_res (cparse_row_with crec) cs) as [k2 [ns|p]]; cbn [fst] in IH; cbn [cbind free fst]; lia.
Qed.
Lemma container_size v c : row_size [Container v c] = S (list_sum (map (fun cell => S (row_size cell)) (gvalues c))).
Proof. destruct c as [cells w]. unfold row_size at 1. cbn. unfold row_size, list_sum. lia. Qed.
Lemma size_cons n r : row_size (n :: r) = row_size [n] + row_size r.
Proof. unfold row_size, list_sum. cbn. lia. Qed.
(** The calls of a token *)
Lemma container_cost v row pos : wf_row row -> pos < length row -> row_size (skipn pos row) <= f -> forall n r, skipn pos row = n :: r -> hits (TContainer v) n = true ->
  fst (cparse_token g crec (TContainer v) (inp row pos)) <= B (row_size [n] - 1).
Proof.
  intros Hwf Hp Hs n r E Hh. destruct n as [v' c|s]; [|discriminate Hh]. cbn in Hh. destruct (skipn_cons_S E) as (E'&Hlt&En). destruct (wf_container_inv (wf_row_nth Hwf En)) as (Hw&Hne&Hmod&Hc).
  cbn [cparse_token inp snd]. rewrite E, Hh. rewrite fst_bind_free by reflexivity. rewrite container_size. cbn [Nat.sub]. rewrite Nat.sub_0_r. apply rows_cost; [destruct (gvalues c); [cbn in Hne; congruence|discriminate]|].
  intros cell Hin. split; [auto|]. pose proof (size_cell En Hin). lia.
Qed.
Lemma token_cost t row pos : wf_row row -> pos <= length row -> row_size (skipn pos row) <= f -> fst (cparse_token g crec t (inp row pos)) <= B (row_size (skipn pos row) - 1).
Proof.
  intros Hwf Hp Hs. destruct (skipn pos row) as [|n r] eqn:E.
  - rewrite token_free; [pose proof (B_pos (row_size [] - 1)); lia|]. intros n r. cbn [inp snd]. rewrite E. discriminate.
  - destruct (hits t n) eqn:Hh.
    2:{ rewrite token_free; [pose proof (B_pos (row_size (n :: r) - 1)); lia|]. intros n' r'. cbn [inp snd]. rewrite E. intros H. injection H as <- <-. exact Hh. }
    destruct (skipn_cons_S E) as (E'&Hlt&En). destruct t; try discriminate Hh.
    + eapply Nat.le_trans; [eapply container_cost; eauto; rewrite E; exact Hs|]. apply B_le. rewrite (size_cons n r). lia.
    + destruct n as [|s]; [discriminate Hh|]. cbn in Hh. cbn [cparse_token]. unfold just_symbol. cbn [inp snd fst]. rewrite E, Hh. rewrite fst_bind_free by (intros [[b n] i]; reflexivity).
      rewrite <- E'. change (S pos, skipn (S pos) row) with (inp row (S pos)). pose proof (size_cons (Symbol s) r) as Hc. change (row_size [Symbol s]) with 1 in Hc. eapply Nat.le_trans; [apply cost; auto|]; rewrite E'; [lia|]. apply B_le. lia.
Qed.
Lemma script_none v i : parse_script g rec' v i = Ok None -> fst (cparse_script g crec v i) = 0.
Proof.
  intros H. rewrite script_cost. apply token_free. intros n r E. destruct (hits (TContainer v) n) eqn:Hh; [|reflexivity]. destruct n as [v' c|s]; [|discriminate Hh]. cbn in Hh.
  unfold parse_script, pbind in H. apply bind_ok in H as (o&Eo&H). cbn [parse_token] in Eo. rewrite E, Hh in Eo. repeat (apply bind_ok in Eo as (?&_&Eo)). injection Eo as <-.
  apply bind_ok in H as (node&_&H). apply bind_ok in H as ([after i2]&_&H). apply bind_ok in H as (n2&_&H). discriminate H.
Qed.
(** The calls of the scripts after an operator *)
Lemma scripts_cost fuel : forall row pos node s, wf_row row -> pos <= length row -> row_size (skipn pos row) <= f -> gtree (P g) row s pos node ->
  fst (cparse_scripts g crec fuel node (inp row pos)) <= B (row_size (skipn pos row)).
Proof.
  induction fuel as [|fuel IH]; intros row pos node s Hwf Hp Hs C; [cbn; lia|]. cbn [cparse_scripts].
  assert (K : forall v, fst (cparse_script g crec v (inp row pos)) = 0 \/ exists n r, skipn pos row = n :: r /\ fst (cparse_script g crec v (inp row pos)) <= B (row_size [n] - 1)).
  { intros v. rewrite script_cost. destruct (skipn pos row) as [|n r] eqn:E.
    - left. apply token_free. intros n r. cbn [inp snd]. rewrite E. discriminate.
    - destruct (hits (TContainer v) n) eqn:Hh.
      + right. exists n, r. split; [reflexivity|]. destruct (skipn_cons_S E) as (_&Hlt&_). eapply container_cost; eauto. rewrite E. exact Hs.
      + left. apply token_free. intros n' r'. cbn [inp snd]. rewrite E. intros H. injection H as <- <-. exact Hh. }
  assert (Next : forall name n op p1, gtree (P g) row pos p1 op -> pos < p1 <= length row -> build_postfix name op node = Ok n -> gtree (P g) row s p1 n -> forall k,
    (k = 0 \/ exists n r, skipn pos row = n :: r /\ k <= B (row_size [n] - 1)) -> k + fst (cparse_scripts g crec fuel n (inp row p1)) <= B (row_size (skipn pos row))).
  { intros name n op p1 _ Hp1 _ Cn k Hk. assert (Hs1 : row_size (skipn p1 row) < row_size (skipn pos row)) by (apply size_skipn; lia).
    pose proof (@IH row p1 n s Hwf ltac:(lia) ltac:(lia) Cn) as I. destruct Hk as [->|(n0&r&E&Hk)]; [eapply Nat.le_trans; [exact I|]; apply B_le; lia|].
    assert (Hle : row_size (skipn p1 row) <= row_size r).
    { destruct (skipn_cons_S E) as (E'&_&_). rewrite <- E'. destruct (Nat.eq_dec p1 (S pos)) as [->|]; [lia|]. pose proof (@size_skipn row (S pos) p1). lia. }
    rewrite E, size_cons. assert (0 < row_size [n0]) by (unfold row_size, list_sum; cbn; pose proof (node_size_pos n0); lia).
    pose proof (B_add (row_size [n0] - 1) (row_size (skipn p1 row))) as HB. eapply Nat.le_trans; [|apply (@B_le (S (row_size [n0] - 1 + row_size (skipn p1 row)))); lia]. lia. }
  assert (Sn : forall v, snd (cparse_script g crec v (inp row pos)) = parse_script g rec' v (inp row pos)) by (intros; apply snd_script; exact same).
  destruct (parse_script_ok R RP Sub Hwf Hp Hs) as (o&_&E&Ho). rewrite (@fst_bind _ _ _ _ o) by (rewrite Sn; exact E). destruct o as [[op i]|].
  - destruct Ho as (p1&->&Hp1&C1). destruct (build_postfix_ok sub_rule_name C C1) as (n&En&Cn). rewrite (@fst_bind _ _ _ _ n) by exact En. cbn [free fst Nat.add].
    apply (@Next sub_rule_name n op p1 C1 Hp1 En Cn). apply K.
  - rewrite (@script_none Sub _ E). cbn [Nat.add]. clear E Ho. destruct (parse_script_ok R RP Sup Hwf Hp Hs) as (o&_&E&Ho). rewrite (@fst_bind _ _ _ _ o) by (rewrite Sn; exact E). destruct o as [[op i]|].
    + destruct Ho as (p1&->&Hp1&C1). destruct (build_postfix_ok sup_rule_name C C1) as (n&En&Cn). rewrite (@fst_bind _ _ _ _ n) by exact En. cbn [free fst Nat.add].
      apply (@Next sup_rule_name n op p1 C1 Hp1 En Cn). apply K.
    + rewrite (@script_none Sup _ E). cbn. lia.
Qed.
(** ** The four attempts *)
Hypothesis Hprefix : forall op n, In op (prefix_ops g) -> hits (op_token op) n = false.
Hypothesis Hinfix : forall op n, In op (infix_ops g) -> hits (op_token op) n = false.
Hypothesis Hpostfix : forall n, at_most_once (op_hits n) (postfix_ops g).
Hypothesis Hatom : forall n, at_most_once (rule_hits n) (atom_rules g).
Section Here.
Variables (row : InputRow) (pos : nat).
Hypothesis Hwf : wf_row row.
Hypothesis Hp : pos <= length row.
Hypothesis Hs : row_size (skipn pos row) <= f.
Notation Q := (B (row_size (skipn pos row) - 1)).
Lemma free_rule name t : (forall n, hits t n = false) -> fst (cparse_rule g crec name t (inp row pos)) = 0.
Proof. intros H. rewrite rule_cost by exact Hp. apply token_free. auto. Qed.
Lemma op_cost op : (forall n, hits (op_token op) n = false) -> good_op op ->
  fst (cparse_op g crec op (inp row pos)) <= Q /\ (snd (cparse_op g crec op (inp row pos)) = Ok None -> fst (cparse_op g crec op (inp row pos)) = 0).
Proof.
  intros Hh Hg. pose proof (free_rule operator_rule_name Hh) as F. pose proof (B_pos (row_size (skipn pos row) - 1)) as HB.
  assert (W : let m := cpbind (cparse_rule g crec operator_rule_name (op_token op) (inp row pos)) (fun node i1 => r <+ cparse_scripts g crec (length (snd i1)) node i1 ;; free (Ok (Some r))) in
    fst m <= Q /\ (snd m = Ok None -> fst m = 0)).
  { destruct (parse_rule_ok R RP operator_rule_name Hwf Hp Hs Hg) as (o&_&E&Ho). cbn zeta. unfold cpbind.
    rewrite (@fst_bind _ _ _ _ o) by (rewrite (snd_rule g same); exact E). rewrite F. cbn [Nat.add]. destruct o as [[n i]|]; [|cbn; split; [lia|auto]].
    destruct Ho as (p1&->&Hp1&C). rewrite fst_bind_free by reflexivity. assert (Hlt : row_size (skipn p1 row) < row_size (skipn pos row)) by (apply size_skipn; lia). split.
    - eapply Nat.le_trans; [eapply (@scripts_cost _ row p1 n pos); auto; try lia; exact C|]. apply B_le. lia.
    - rewrite snd_cbind, (snd_rule g same), E. cbn [bind]. rewrite snd_cbind. intros H. apply bind_ok in H as (x&_&H). discriminate H. }
  unfold cparse_op. destruct (op_power op); try exact W. rewrite F. split; [lia|reflexivity].
Qed.
Lemma prefix_cost : fst (cparse_prefix g crec (inp row pos)) <= Q.
Proof. apply iter_cost; intros op Hin; apply op_cost; auto; apply prefix_ops_good with (g := g); auto. Qed.
Lemma infix_cost : fst (cparse_infix g crec (inp row pos)) <= Q.
Proof. apply iter_cost; intros op Hin; apply op_cost; auto; apply infix_ops_good with (g := g); auto. Qed.
Lemma here_token t : fst (cparse_token g crec t (inp row (skip row pos))) <= Q.
Proof.
  pose proof (@skip_range row pos Hp) as Hk. assert (Hle : row_size (skipn (skip row pos) row) <= row_size (skipn pos row)).
  { destruct (Nat.eq_dec (skip row pos) pos) as [->|]; [lia|]. pose proof (@size_skipn row pos (skip row pos)). lia. }
  eapply Nat.le_trans; [apply token_cost; auto; lia|]. apply B_le. lia.
Qed.
Lemma here_node : exists n, forall t, hits t n = false -> fst (cparse_token g crec t (inp row (skip row pos))) = 0.
Proof.
  destruct (skipn (skip row pos) row) as [|n r] eqn:E; [exists (Symbol [])|exists n]; intros t H; apply token_free; intros n' r'; cbn [inp snd]; rewrite E; [discriminate|].
  intros X. injection X as <- <-. exact H.
Qed.
Lemma postfixes_cost : fst (cparse_postfix g crec (inp row pos)) <= Q.
Proof.
  destruct here_node as (n&Hn). apply (@postfix_cost Q n); auto; [apply here_token|]. intros op Hin. apply ops_in in Hin as (r&Hr&E). destruct r; try discriminate. injection E as <-. eexists. reflexivity.
Qed.
Lemma atom_cost : fst (cparse_atom g crec (inp row pos)) <= Q.
Proof. destruct here_node as (n&Hn). apply (@choice_cost Q n); auto. apply here_token. Qed.
End Here.
(** ** Unknown tokens, the first operand and the loop *)
Section Looks.
Variables (row : InputRow) (pos : nat).
Hypothesis Hwf : wf_row row.
Hypothesis Hp : pos <= length row.
Hypothesis Hs : row_size (skipn pos row) <= f.
Lemma look_prefix : exists o, parse_prefix g rec (inp row pos) = Ok o /\ snd (ccan_prefix g crec (inp row pos)) = Ok (is_some o) /\ fst (ccan_prefix g crec (inp row pos)) <= fst (cparse_prefix g crec (inp row pos)).
Proof. destruct (parse_prefix_ok Htok R RP Hwf Hp Hs) as (o&E&E'&_). exists o. split; [exact E|]. apply (can_iter (ops := prefix_ops g)). rewrite (snd_iter g same). exact E'. Qed.
Lemma look_infix : exists o, parse_infix g rec (inp row pos) = Ok o /\ snd (ccan_infix g crec (inp row pos)) = Ok (is_some o) /\ fst (ccan_infix g crec (inp row pos)) <= fst (cparse_infix g crec (inp row pos)).
Proof. destruct (parse_infix_ok Htok R RP Hwf Hp Hs) as (o&E&E'&_). exists o. split; [exact E|]. apply (can_iter (ops := infix_ops g)). rewrite (snd_iter g same). exact E'. Qed.
Lemma look_postfix : exists o, parse_postfix g rec (inp row pos) = Ok o /\ snd (ccan_postfix g crec (inp row pos)) = Ok (is_some o) /\ fst (ccan_postfix g crec (inp row pos)) <= fst (cparse_postfix g crec (inp row pos)).
Proof. destruct (parse_postfix_ok Htok R RP Hwf Hp Hs) as (o&E&E'&_). exists o. split; [exact E|]. apply (can_iter (ops := postfix_ops g)). rewrite (snd_iter g same). exact E'. Qed.
Lemma look_atom : exists o, parse_atom g rec (inp row pos) = Ok o /\ snd (ccan_atom g crec (inp row pos)) = Ok (is_some o) /\ fst (ccan_atom g crec (inp row pos)) <= fst (cparse_atom g crec (inp row pos)).
Proof. destruct (parse_atom_ok Htok R RP Hwf Hp Hs) as (o&E&E'&_). exists o. split; [exact E|]. apply (can_choice (rules := atom_rules g)). rewrite (snd_choice g same). exact E'. Qed.
End Looks.
Lemma or_snd c1 c2 b1 b2 : snd c1 = Ok b1 -> snd c2 = Ok b2 -> snd (cor_else c1 c2) = Ok (b1 || b2).
Proof. intros H1 H2. unfold cor_else. rewrite snd_cbind, H1. cbn [bind]. destruct b1; [reflexivity|exact H2]. Qed.
Lemma or_cost a b : fst (cor_else a b) <= fst a + fst b.
Proof. destruct a as [k [x|p]]; cbn [cor_else cbind fst]; [|lia]. destruct x; cbn; [lia|]. destruct b. cbn. lia. Qed.
Lemma unknown_cost e row : wf_row row -> forall k pos node s, length row - pos <= k -> pos <= length row -> row_size (skipn pos row) <= f -> gtree (P g) row s pos node ->
  2 * fst (cunknown_loop g crec e node pos (skipn pos row)) <= B (row_size (skipn pos row)).
Proof.
  intros Hwf. induction k as [|k IH]; intros pos node s Hk Hp Hs C.
  - assert (pos = length row) as -> by lia. rewrite skipn_all. cbn. lia.
  - destruct (skipn pos row) as [|x r] eqn:E; [cbn; lia|]. destruct (skipn_cons_S E) as (E'&Hlt&En).
    assert (Hs' : row_size (skipn pos row) <= f) by (rewrite E; exact Hs).
    pose proof (@prefix_cost row pos Hwf Hp Hs') as Q1. pose proof (@atom_cost row pos Hwf Hp Hs') as Q2. pose proof (@infix_cost row pos Hwf Hp Hs') as Q3. pose proof (@postfixes_cost row pos Hwf Hp Hs') as Q4.
    destruct (@look_prefix row pos Hwf Hp Hs') as (o1&P1&S1&L1). destruct (@look_atom row pos Hwf Hp Hs') as (o2&P2&S2&L2).
    destruct (@look_infix row pos Hwf Hp Hs') as (o3&P3&S3&L3). destruct (@look_postfix row pos Hwf Hp Hs') as (o4&P4&S4&L4).
    unfold inp in Q1, Q2, Q3, Q4, L1, L2, L3, L4, S1, S2, S3, S4. rewrite E in Q1, Q2, Q3, Q4, L1, L2, L3, L4, S1, S2, S3, S4. cbn [cunknown_loop].
    match goal with |- context [cbind ?a _] => set (stop := a) end.
    assert (Cs : fst stop <= 4 * B (row_size (x :: r) - 1)).
    { unfold stop. destruct (is_at_end e (pos, x :: r)); [cbn; lia|]. eapply Nat.le_trans; [apply or_cost|].
      pose proof (or_cost (ccan_atom g crec (pos, x :: r)) (cor_else (ccan_infix g crec (pos, x :: r)) (ccan_postfix g crec (pos, x :: r)))) as O1.
      pose proof (or_cost (ccan_infix g crec (pos, x :: r)) (ccan_postfix g crec (pos, x :: r))) as O2. lia. }
    assert (Hx : exists t, row_size (x :: r) = S t /\ row_size r <= t).
    { rewrite size_cons. assert (0 < row_size [x]) by (unfold row_size, list_sum; cbn; pose proof (node_size_pos x); lia). exists (row_size [x] + row_size r - 1). lia. }
    destruct Hx as (t&Et&Hr). rewrite Et in *. replace (S t - 1) with t in * by lia. rewrite B_S. pose proof (B_pos t) as HB.
    destruct stop as [ks rs] eqn:Estop. cbn [fst] in Cs. destruct rs as [b|p]; [|cbn [cbind fst]; lia]. cbn [cbind]. destruct b; [cbn; lia|].
    assert (Sb : snd stop = Ok false) by (rewrite Estop; reflexivity). unfold stop in Sb. destruct (is_at_end e (pos, x :: r)) eqn:Ee; [discriminate Sb|].
    assert (N : parse_prefix g rec (inp row pos) = Ok None /\ parse_atom g rec (inp row pos) = Ok None /\ parse_infix g rec (inp row pos) = Ok None /\ parse_postfix g rec (inp row pos) = Ok None).
    { rewrite (or_snd S1 (or_snd S2 (or_snd S3 S4))) in Sb. destruct o1; [discriminate Sb|]. destruct o2; [discriminate Sb|]. destruct o3; [discriminate Sb|]. destruct o4; [discriminate Sb|]. auto. }
    destruct N as (N1&N2&N3&N4). destruct (none_symbol Hcont R RP Hwf Hlt Hs' N1 N2 N3 N4) as [sy Hsy]. rewrite En in Hsy. injection Hsy as ->.
    destruct (@unknown_token_ok g row pos _ En) as (next&Enx&Cn). rewrite Enx. destruct (missing_operator_ok C Cn) as (n&Em&Cm). cbn [free cbind]. rewrite Em. cbn [cbind].
    assert (I : 2 * fst (cunknown_loop g crec e n (S pos) r) <= B t).
    { rewrite <- E'. eapply Nat.le_trans; [apply (IH (S pos) n s)|]; auto; try lia; try (rewrite E'; lia). apply B_le. rewrite E'. exact Hr. }
    destruct (cunknown_loop g crec e n (S pos) r) as [k3 r3]. cbn [fst] in I |- *. lia.
Qed.
Lemma unknowns_cost e row pos : wf_row row -> pos < length row -> row_size (skipn pos row) <= f -> 2 * fst (cparse_unknown g crec e (inp row pos)) <= B (row_size (skipn pos row) - 1).
Proof.
  intros Hwf Hlt Hs. unfold cparse_unknown. cbn [inp fst snd]. destruct (skipn_lt Hlt) as [x E]. destruct (skipn_cons_S E) as (_&_&En). pose proof (@size_skipn row pos (S pos) ltac:(lia)) as Hlt'.
  rewrite E at 1. destruct x as [v c|sy]; [cbn; pose proof (B_pos (row_size (skipn pos row) - 1)); lia|]. destruct (@unknown_token_ok g row pos _ En) as (next&Enx&Cn). rewrite Enx. cbn [free cbind].
  pose proof (@unknown_cost e row Hwf (length row - S pos) (S pos) next pos ltac:(lia) ltac:(lia) ltac:(lia) Cn) as U. destruct (cunknown_loop g crec e next (S pos) (skipn (S pos) row)) as [k r]. cbn [fst] in *.
  pose proof (@B_le (row_size (skipn (S pos) row)) (row_size (skipn pos row) - 1) ltac:(lia)). lia.
Qed.
Lemma loop_cost min e row : wf_row row -> forall fuel pos lhs s, length row - pos < fuel -> pos <= length row -> row_size (skipn pos row) <= f -> gtree (P g) row s pos lhs ->
  (row_size (skipn pos row) < f -> 8 * fst (cpratt_loop g crec fuel min e lhs (inp row pos)) <= 13 * B (row_size (skipn pos row))) /\
  (operator_next g rec (inp row pos) -> 8 * fst (cpratt_loop g crec fuel min e lhs (inp row pos)) <= 29 * B (row_size (skipn pos row) - 1)).
Proof.
  intros Hwf. induction fuel as [|fuel IH]; intros pos lhs s Hf Hp Hs C; [lia|]. cbn [cpratt_loop].
  destruct (at_end (inp row pos)) eqn:Ee; [split; cbn; lia|].
  assert (Hlt : pos < length row).
  { destruct (Nat.eq_dec pos (length row)) as [->|]; [|lia]. unfold at_end, inp in Ee. cbn [snd] in Ee. rewrite skipn_all in Ee. discriminate Ee. }
  assert (Ht : exists t, row_size (skipn pos row) = S t) by (pose proof (@size_skipn row pos (S pos) ltac:(lia)); exists (row_size (skipn pos row) - 1); lia). destruct Ht as (t&Et).
  assert (Small : forall p2, pos < p2 <= length row -> row_size (skipn p2 row) <= t) by (intros p2 Hp2; pose proof (@size_skipn row pos p2 Hp2); lia).
  assert (Next : forall p2 n, pos < p2 <= length row -> gtree (P g) row s p2 n -> 8 * fst (cpratt_loop g crec fuel min e n (inp row p2)) <= 13 * B t).
  { intros p2 n Hp2 C2. pose proof (Small p2 Hp2) as Hsm. destruct (IH p2 n s ltac:(lia) ltac:(lia) ltac:(lia) C2) as [I _]. specialize (I ltac:(lia)). pose proof (B_le Hsm). lia. }
  assert (Rec : forall m p1, pos < p1 <= length row -> fst (crec m e (inp row p1)) <= B t).
  { intros m p1 Hp1. pose proof (Small p1 Hp1) as Hsm. pose proof (@cost row p1 m e Hwf ltac:(lia) ltac:(lia)). pose proof (B_le Hsm). lia. }
  pose proof (@prefix_cost row pos Hwf Hp Hs) as Q1. pose proof (@atom_cost row pos Hwf Hp Hs) as Q2. pose proof (@infix_cost row pos Hwf Hp Hs) as Q3. pose proof (@postfixes_cost row pos Hwf Hp Hs) as Q4.
  rewrite Et in Q1, Q2, Q3, Q4 |- *. replace (S t - 1) with t in * by lia. rewrite B_S. pose proof (B_pos t) as HB.
  cut ((operator_next g rec (inp row pos) \/ S t < f) -> let k := fst (cpratt_loop g crec (S fuel) min e lhs (inp row pos)) in 8 * k <= 29 * B t \/ (8 * k <= 117 * B t /\ ~ operator_next g rec (inp row pos))).
  { cbn zeta. cbn [cpratt_loop]. rewrite Ee. intros H. split; intros X; [specialize (H (or_intror X))|specialize (H (or_introl X))]; destruct H as [H|[H H']]; try lia. exfalso; auto. }
  cbn zeta. cbn [cpratt_loop]. rewrite Ee. intros Hor.
  pose proof (parse_infix_ok Htok R RP Hwf Hp Hs) as (o1&P1&P1'&H1). rewrite (@fst_bind _ _ _ _ o1) by (unfold cparse_infix; rewrite (snd_iter g same); exact P1').
  destruct o1 as [[[value op] i1]|].
  { left. destruct H1 as (p1&->&Hp1&C1). unfold node_ok in C1. cbn [fst] in C1. destruct (power_ltb _ min); [cbn [free fst]; lia|].
    pose proof (@Rec (strength_right (op_power op)) p1 Hp1) as Cr.
    destruct (@R row p1 (strength_right (op_power op)) e) as (ended&rhs&p2&_&E2&Hp2&C2&_); auto; [lia|pose proof (Small p1 Hp1); lia|].
    rewrite (@fst_bind (PrattResult * Input) _ _ _ ((ended, rhs), inp row p2)) by (rewrite same; exact E2). destruct (build_infix_ok (op_name op) C C1 C2) as (n&En&C'). rewrite (@fst_bind _ _ _ _ n) by exact En. cbn [free fst].
    destruct ended; [cbn [free fst]; lia|]. pose proof (@Next p2 n ltac:(lia) C'). lia. }
  pose proof (parse_postfix_ok Htok R RP Hwf Hp Hs) as (o2&P2&P2'&H2). rewrite (@fst_bind _ _ _ _ o2) by (unfold cparse_postfix; rewrite (snd_iter g same); exact P2').
  destruct o2 as [[[value op] i1]|].
  { left. destruct H2 as (p1&->&Hp1&C1). unfold node_ok in C1. cbn [fst] in C1. destruct (power_ltb _ min); [cbn [free fst]; lia|].
    destruct (build_postfix_ok (op_name op) C C1) as (n&En&C'). rewrite (@fst_bind _ _ _ _ n) by exact En. cbn [free fst]. pose proof (@Next p1 n Hp1 C'). lia. }
  assert (NN : ~ operator_next g rec (inp row pos)) by (intros [[x Ex]|[x Ex]]; congruence).
  assert (Hs' : S t < f) by (destruct Hor; [contradiction|assumption]). right. split; [|exact NN].
  destruct (@look_prefix row pos Hwf Hp Hs) as (o3&P3&S3&L3). destruct (@look_atom row pos Hwf Hp Hs) as (o4&P4&S4&L4).
  pose proof (or_cost (ccan_prefix g crec (inp row pos)) (ccan_atom g crec (inp row pos))) as O. pose proof (or_snd S3 S4) as So.
  rewrite (@fst_bind _ _ _ _ _ So). destruct (is_some o3 || is_some o4) eqn:Eo.
  { destruct (power_ltb (strength_left missing_operator_power) min); [cbn [free fst]; lia|].
    destruct (@R row pos (strength_right missing_operator_power) e) as (ended&rhs&p2&_&E2&Hp2&C2&_&_&Hst); auto; [lia|].
    pose proof (@cost row pos (strength_right missing_operator_power) e Hwf Hp ltac:(lia)) as Cr. rewrite Et, B_S in Cr.
    rewrite (@fst_bind (PrattResult * Input) _ _ _ ((ended, rhs), inp row p2)) by (rewrite same; exact E2). destruct (missing_operator_ok C C2) as (n&En&C'). rewrite (@fst_bind _ _ _ _ n) by exact En. cbn [free fst].
    destruct ended; [cbn [free fst]; lia|]. assert (Hst' : pos < p2) by (apply Hst; destruct o3; [left; eauto|]; destruct o4; [right; eauto|discriminate Eo]).
    pose proof (@Next p2 n ltac:(lia) C'). lia. }
  destruct o3; [discriminate Eo|]. destruct o4; [discriminate Eo|]. destruct (is_at_end e (inp row pos)) eqn:Ee'; [cbn [free fst]; lia|].
  pose proof (@unknowns_cost e row pos Hwf Hlt Hs) as U. rewrite Et in U. replace (S t - 1) with t in U by lia.
  destruct (parse_unknown_ok Htok Hcont R RP e Hwf Hlt Hs P3 P4 P1 P2) as (rhs&p1&_&E1&Hp1&C1). rewrite (@fst_bind _ _ _ _ (rhs, inp row p1)) by exact (snd_unknown same E1).
  destruct (missing_operator_ok C C1) as (n&En&C'). rewrite (@fst_bind _ _ _ _ n) by exact En. cbn [free fst]. pose proof (@Next p1 n Hp1 C'). lia.
Qed.
Lemma step_cost min e row pos : wf_row row -> pos <= length row -> row_size (skipn pos row) <= f -> S (fst (cpratt_step g crec min e (inp row pos))) <= B (row_size (skipn pos row)).
Proof.
  intros Hwf Hp Hs. unfold cpratt_step. destruct (at_end (inp row pos)) eqn:Ee.
  { unfold cpratt_first. rewrite Ee. cbn. pose proof (B_pos (row_size (skipn pos row))). lia. }
  assert (Hlt : pos < length row).
  { destruct (Nat.eq_dec pos (length row)) as [->|]; [|lia]. unfold at_end, inp in Ee. cbn [snd] in Ee. rewrite skipn_all in Ee. discriminate Ee. }
  assert (Ht : exists t, row_size (skipn pos row) = S t) by (pose proof (@size_skipn row pos (S pos) ltac:(lia)); exists (row_size (skipn pos row) - 1); lia). destruct Ht as (t&Et).
  assert (Small : forall p2, pos < p2 <= length row -> row_size (skipn p2 row) <= t) by (intros p2 Hp2; pose proof (@size_skipn row pos p2 Hp2); lia).
  destruct (pratt_first_ok Htok Hcont R RP e Hwf Hp Hs) as (ended&n&p1&_&E&Hp1&C&_&Hn&_).
  pose proof (@prefix_cost row pos Hwf Hp Hs) as Q1. pose proof (@atom_cost row pos Hwf Hp Hs) as Q2. pose proof (@infix_cost row pos Hwf Hp Hs) as Q3. pose proof (@postfixes_cost row pos Hwf Hp Hs) as Q4.
  rewrite (@fst_bind (PrattResult * Input) _ _ _ ((ended, n), inp row p1)) by exact (snd_first same E).
  assert (F : 2 * fst (cpratt_first g crec e (inp row pos)) <= 9 * B t).
  { rewrite Et in Q1, Q2, Q3, Q4. replace (S t - 1) with t in * by lia. clear E Hn C. unfold cpratt_first. rewrite Ee.
    pose proof (parse_prefix_ok Htok R RP Hwf Hp Hs) as (o1&_&P1&H1). rewrite (@fst_bind _ _ _ _ o1) by (unfold cparse_prefix; rewrite (snd_iter g same); exact P1). destruct o1 as [[[value op] i1]|].
    { destruct H1 as (q1&->&Hq1&_). rewrite fst_bind_free by (intros [[b rhs] i2]; reflexivity).
      pose proof (Small q1 Hq1) as Hsm. pose proof (@cost row q1 (strength_right (op_power op)) e Hwf ltac:(lia) ltac:(lia)). pose proof (B_le Hsm). lia. }
    pose proof (parse_atom_ok Htok R RP Hwf Hp Hs) as (o2&_&P2&_). rewrite (@fst_bind _ _ _ _ o2) by (unfold cparse_atom; rewrite (snd_choice g same); exact P2). destruct o2 as [[a i1]|]; [cbn [free fst]; lia|].
    destruct (@look_infix row pos Hwf Hp Hs) as (o3&_&S3&L3). destruct (@look_postfix row pos Hwf Hp Hs) as (o4&_&S4&L4).
    pose proof (or_cost (ccan_infix g crec (inp row pos)) (ccan_postfix g crec (inp row pos))) as O. pose proof (or_snd S3 S4) as So.
    rewrite (@fst_bind _ _ _ _ _ So). destruct (is_some o3 || is_some o4); [cbn [free fst]; lia|]. destruct (is_at_end e (inp row pos)); [cbn [free fst]; lia|].
    rewrite fst_bind_free by (intros [n' i']; reflexivity). pose proof (@unknowns_cost e row pos Hwf Hlt Hs) as U. rewrite Et in U. replace (S t - 1) with t in U by lia. lia. }
  rewrite Et, B_S. pose proof (B_pos t) as HB. destruct ended; [cbn [free fst]; lia|].
  destruct (@loop_cost min e row Hwf (S (length (snd (inp row p1)))) p1 n pos) as [L1 L2]; auto.
  { cbn [inp snd]. rewrite skipn_length. lia. }
  { lia. }
  { destruct (Nat.eq_dec p1 pos) as [->|]; [lia|]. pose proof (Small p1 ltac:(lia)). lia. }
  destruct (Nat.eq_dec p1 pos) as [->|].
  - destruct (Hn eq_refl) as [?|N]; [lia|]. specialize (L2 N). rewrite Et in L2. replace (S t - 1) with t in L2 by lia. lia.
  - pose proof (Small p1 ltac:(lia)) as Hsm. specialize (L1 ltac:(lia)). pose proof (B_le Hsm). lia.
Qed.
End Exponential.

End Step.

(** ** The default grammar *)
Section Default.
Variable xs xc : N -> bool.
Notation g := (default_grammar xs xc).
Lemma default_prefix op n : In op (prefix_ops g) -> hits (op_token op) n = false.
Proof.
  intros H. assert (F : forallb (fun op => match op_token op with TContainer _ | TBrackets _ _ => false | _ => true end) (prefix_ops g) = true) by reflexivity.
  rewrite forallb_forall in F. apply F in H. destruct (op_token op); try discriminate H; reflexivity.
Qed.
Lemma default_infix op n : In op (infix_ops g) -> hits (op_token op) n = false.
Proof.
  intros H. assert (F : forallb (fun op => match op_token op with TContainer _ | TBrackets _ _ => false | _ => true end) (infix_ops g) = true) by reflexivity.
  rewrite forallb_forall in F. apply F in H. destruct (op_token op); try discriminate H; reflexivity.
Qed.
Lemma default_postfix n : at_most_once (op_hits n) (postfix_ops g).
Proof. unfold at_most_once. destruct n as [v c|s]; [destruct v; vm_compute; lia|]. cbv -[str_eqb lit length]. destruct (str_eqb s (lit "(")); cbn; lia. Qed.
Lemma default_atom n : at_most_once (rule_hits n) (atom_rules g).
Proof. unfold at_most_once. destruct n as [v c|s]; [destruct v; vm_compute; lia|]. cbv -[str_eqb lit length]. destruct (str_eqb s (lit "(")); cbn; lia. Qed.
Notation Htok := (@default_no_empty_tokens xs xc).
Notation Hcont := (@default_all_containers xs xc).
Lemma pratt_cost f : forall row pos min e, wf_row row -> pos <= length row -> row_size (skipn pos row) < f -> fst (cpratt_parse g f min e (inp row pos)) <= B (row_size (skipn pos row)).
Proof.
  induction f as [|f IH]; intros row pos min e Hwf Hp Hs; [lia|]. cbn [cpratt_parse].
  pose proof (@step_cost g Htok Hcont f (cpratt_parse g f) (pratt_parse g f) (counted g f) (fun _ _ _ => eq_refl) (counted_ok Htok Hcont (f := f)) (@parse_rows g f) IH default_prefix default_infix default_postfix default_atom min e row pos Hwf Hp ltac:(lia)) as H.
  destruct (cpratt_step g (cpratt_parse g f) min e (inp row pos)). exact H.
Qed.
Lemma calls_bound doc : wf_row doc -> calls g doc <= 9 ^ row_size doc.
Proof.
  intros Hwf. unfold calls, cparse, cparse_row_with. rewrite fst_bind_free by (intros [[b n] i]; reflexivity). apply (@pratt_cost (S (row_size doc)) doc 0); auto; cbn; lia.
Qed.
End Default.
