(** Documents without opening brackets, and without scripts after infix operators: the number of calls is
    linear in the size. *)
From Coq Require Import String.
From Verif Require Import Base Str Grid Node Autocomplete NameMap Syntax Pratt Grammar Cost Spec SpecRender SpecSyntax BaseFacts GridFacts TreeFacts RenderFacts ParseFacts ParseTotal GrammarFacts CostFacts CostBound.
Open Scope list_scope.
Open Scope nat_scope.
Set Implicit Arguments.
Unset Strict Implicit.

Section Step.
Variable g : Grammar.
Hypothesis Htok : no_empty_tokens g.
Hypothesis Hcont : all_containers g.
Variables (f : nat) (crec : Power -> Ending -> Input -> Counted (PrattResult * Input)) (rec rec' : Power -> Ending -> Input -> Res (PrattResult * Input)).
Hypothesis same : forall min e i, snd (crec min e i) = rec' min e i.
Hypothesis R : rec_ok g f rec rec'.
Hypothesis RP : forall cell n, row_size cell < f -> parse_row_with rec cell = Ok n -> P g cell n.
(** The rows *)
Variable K : InputRow -> Prop.
Hypothesis Kcell : forall row v c cell, K row -> In (Container v c) row -> In cell (gvalues c) -> K cell.
Hypothesis Kquiet : forall row s r a b, K row -> In (Symbol s) row -> In r (g_rules g) -> rule_token r = Some (TBrackets a b) -> str_eqb s a = false.
Hypothesis Kinfix : forall row pos op n p1, K row -> pos <= length row -> In op (infix_ops g) -> parse_rule g rec' operator_rule_name (op_token op) (inp row pos) = Ok (Some (n, inp row p1)) ->
  forall v c r, skipn p1 row = Container v c :: r -> v <> Sub /\ v <> Sup.
Hypothesis Hinfix : forall op n, In op (infix_ops g) -> hits (op_token op) n = false.
(** Operands that no script is taken from *)
Definition min_ok (min : Power) : Prop := forall op v, In op (postfix_ops g) -> op_token op = TContainer v -> power_ltb (strength_left (op_power op)) min = false.
Hypothesis Hmin0 : min_ok (0, Weak).
Hypothesis Hmin : forall op, In op (prefix_ops g) \/ In op (infix_ops g) -> min_ok (strength_right (op_power op)).
Hypothesis Hminm : min_ok (strength_right missing_operator_power).
Hypothesis linear : forall row pos min e ended n p', wf_row row -> K row -> min_ok min -> pos <= length row -> row_size (skipn pos row) < f -> rec min e (inp row pos) = Ok ((ended, n), inp row p') ->
  fst (crec min e (inp row pos)) + 2 * row_size (skipn p' row) <= 1 + 2 * row_size (skipn pos row) /\
  (starts g rec (inp row pos) -> fst (crec min e (inp row pos)) + 2 * row_size (skipn p' row) <= 2 * row_size (skipn pos row)).

(** ** Cells *)
Lemma lin_row cell : wf_row cell -> K cell -> row_size cell < f -> fst (cparse_row_with crec cell) <= 1 + 2 * row_size cell.
Proof.
  intros Hw Hk Hs. unfold cparse_row_with. change (0, cell) with (inp cell 0). rewrite fst_bind_free by (intros [[b n] i]; reflexivity).
  destruct (@R cell 0 (0, Weak) EndInput Hw ltac:(lia) Hs) as (ended&n&p'&E&_). destruct (@linear cell 0 _ _ _ _ _ Hw Hk Hmin0 ltac:(lia) Hs E) as [F _]. change (skipn 0 cell) with cell in F. lia.
Qed.
Lemma lin_rows cells : (forall cell, In cell cells -> wf_row cell /\ K cell /\ row_size cell < f) -> fst (cmap_res (cparse_row_with crec) cells) <= 2 * list_sum (map (fun cell => S (row_size cell)) cells).
Proof.
  induction cells as [|c cells IH]; intros H; [cbn; lia|]. cbn [cmap_res]. destruct (H c (or_introl eq_refl)) as (Hw&Hk&Hs). pose proof (lin_row Hw Hk Hs) as C1. specialize (IH ltac:(intros; apply H; now right)).
  change (list_sum (map (fun cell => S (row_size cell)) (c :: cells))) with (S (row_size c) + list_sum (map (fun cell => S (row_size cell)) cells)).
  destruct (cparse_row_with crec c) as [k [n|p]]; cbn [fst] in C1; cbn [cbind]; [|cbn [fst]; lia].
  destruct (cmap_res (cparse_row_with crec) cells) as [k2 [ns|p]]; cbn [fst] in IH; cbn [cbind free fst]; lia.
Qed.

Section Row.
Variable row : InputRow.
Hypothesis Hwf : wf_row row.
Hypothesis Hk : K row.
Notation z p := (row_size (skipn p row)).
Lemma z_le a b : a <= b -> b <= length row -> z b <= z a.
Proof. intros H Hb. destruct (Nat.eq_dec a b) as [->|]; [lia|]. pose proof (@size_skipn row a b). lia. Qed.
(** Every call that an attempt makes is paid for by what it consumes. *)
Definition paid A (pos : nat) (c : Counted (option (A * Input))) : Prop :=
  exists o, snd c = Ok o /\ match o with None => fst c = 0 | Some (_, i) => exists p1, i = inp row p1 /\ pos < p1 <= length row /\ fst c + 2 * z p1 + 2 <= 2 * z pos end.
Lemma quiet_token t r pos : In r (g_rules g) -> rule_token r = Some t -> forall n tl, skipn pos row = n :: tl -> (forall v c, n = Container v c -> hits t n = false) -> hits t n = false.
Proof.
  intros Hr Ht n tl E H. destruct n as [v c|s]; [now apply (H v c)|]. destruct t; try reflexivity. cbn. destruct (skipn_cons_S E) as (_&_&En). eapply Kquiet; eauto. eapply nth_error_In; eauto.
Qed.
Lemma lin_token t r pos : In r (g_rules g) -> rule_token r = Some t -> pos <= length row -> z pos <= f -> paid pos (cparse_token g crec t (inp row pos)).
Proof.
  intros Hr Ht Hp Hs. assert (Hg : forall ty, t <> TSymbols [] ty) by (intros ty; apply (Htok Hr Ht)).
  destruct (parse_token_ok R RP Hwf Hp Hs Hg) as (o&_&E&Ho). exists o. split; [rewrite (snd_token g same); exact E|].
  assert (Free : fst (cparse_token g crec t (inp row pos)) = 0 -> match o with None => fst (cparse_token g crec t (inp row pos)) = 0 | Some (_, i) => exists p1, i = inp row p1 /\ pos < p1 <= length row /\ fst (cparse_token g crec t (inp row pos)) + 2 * z p1 + 2 <= 2 * z pos end).
  { intros ->. destruct o as [[c i]|]; [|reflexivity]. destruct Ho as (p1&->&Hp1&_). exists p1. split; [reflexivity|]. split; [exact Hp1|]. pose proof (@size_skipn row pos p1). lia. }
  assert (D : skipn pos row = [] \/ exists n tl, skipn pos row = n :: tl) by (destruct (skipn pos row); eauto).
  destruct D as [Es|(n&tl&Es)]; [apply Free, token_free; cbn [inp snd]; intros; congruence|].
  destruct (hits t n) eqn:Hh; [|apply Free, token_free; cbn [inp snd]; intros n' r' X; rewrite Es in X; now injection X as <- <-].
  destruct (skipn_cons_S Es) as (Es'&Hlt&En). destruct n as [v c|s].
  2:{ rewrite (@quiet_token t r pos Hr Ht _ _ Es) in Hh; [discriminate Hh|intros; discriminate]. }
  destruct t as [| v' | | | | |]; try discriminate Hh. cbn in Hh. destruct (wf_container_inv (wf_row_nth Hwf En)) as (Hw&Hne&Hmod&Hc).
  assert (Cost : fst (cparse_token g crec (TContainer v') (inp row pos)) <= 2 * row_size [Container v c] - 2).
  { cbn [cparse_token inp snd]. rewrite Es, Hh. rewrite fst_bind_free by reflexivity. rewrite container_size. eapply Nat.le_trans; [apply lin_rows|lia].
    intros cell Hin. split; [auto|]. split; [eapply Kcell; eauto; eapply nth_error_In; eauto|]. pose proof (size_cell En Hin). lia. }
  cbn [parse_token inp snd] in E. rewrite Es, Hh in E. repeat (apply bind_ok in E as (?&_&E)). injection E as <-. cbn [fst] in *.
  exists (S pos). split; [unfold inp; now rewrite Es'|]. split; [lia|]. pose proof (size_cons (Container v c) tl) as Z. rewrite <- Es in Z. rewrite Es'. pose proof (container_size v c). lia.
Qed.
Lemma lin_rule name t r pos : In r (g_rules g) -> rule_token r = Some t -> pos <= length row -> z pos <= f -> paid pos (cparse_rule g crec name t (inp row pos)).
Proof.
  intros Hr Ht Hp Hs. assert (Hg : forall ty, t <> TSymbols [] ty) by (intros ty; apply (Htok Hr Ht)).
  destruct (parse_rule_ok R RP name Hwf Hp Hs Hg) as (o&_&E&Ho). exists o. split; [rewrite (snd_rule g same); exact E|].
  unfold parse_rule in E. destruct (parse_spaces_ok (P := P g) Hp) as (before&p&Esp&Hp1&_). rewrite Esp in E. cbn [bind] in E. unfold pbind in E. apply bind_ok in E as (o1&E1&E).
  pose proof (z_le (proj1 Hp1) (proj2 Hp1)) as Z1. destruct (@lin_token t r p Hr Ht (proj2 Hp1) ltac:(lia)) as (o1'&E1'&Q). rewrite (snd_token g same), E1 in E1'. injection E1' as <-.
  assert (Cost : fst (cparse_rule g crec name t (inp row pos)) = fst (cparse_token g crec t (inp row p))) by (rewrite rule_cost by exact Hp; unfold skip; now rewrite Esp).
  rewrite Cost. destruct o1 as [[c i]|]; [|injection E as <-; exact Q]. destruct Q as (p2&->&Hp2&Q). apply bind_ok in E as (node&_&E).
  destruct (parse_spaces_ok (P := P g) (pos := p2) (row := row)) as (after&p3&Esp3&Hp3&_); [lia|]. rewrite Esp3 in E. cbn [bind] in E. apply bind_ok in E as (n2&_&E). injection E as <-.
  exists p3. split; [reflexivity|]. split; [lia|]. pose proof (z_le (proj1 Hp3) (proj2 Hp3)). lia.
Qed.
Lemma lin_script v pos r : In r (g_rules g) -> rule_token r = Some (TContainer v) -> pos <= length row -> z pos <= f -> paid pos (cparse_script g crec v (inp row pos)).
Proof.
  intros Hr Ht Hp Hs. destruct (parse_script_ok R RP v Hwf Hp Hs) as (o&_&E&Ho). exists o. split; [rewrite (snd_script g same); exact E|]. rewrite script_cost.
  unfold parse_script, pbind in E. apply bind_ok in E as (o1&E1&E). destruct (@lin_token (TContainer v) r pos Hr Ht Hp Hs) as (o1'&E1'&Q). rewrite (snd_token g same), E1 in E1'. injection E1' as <-.
  destruct o1 as [[c i]|]; [|injection E as <-; exact Q]. destruct Q as (p2&->&Hp2&Q). apply bind_ok in E as (node&_&E).
  destruct (parse_spaces_ok (P := P g) (pos := p2) (row := row)) as (after&p3&Esp3&Hp3&_); [lia|]. rewrite Esp3 in E. cbn [bind] in E. apply bind_ok in E as (n2&_&E). injection E as <-.
  exists p3. split; [reflexivity|]. split; [lia|]. pose proof (z_le (proj1 Hp3) (proj2 Hp3)). lia.
Qed.
Lemma script_rules v : v = Sub \/ v = Sup -> exists r, In r (g_rules g) /\ rule_token r = Some (TContainer v).
Proof. intros _. destruct (Hcont v) as (r&Hr&Ht). exists r. split; assumption. Qed.
Lemma lin_scripts fuel : forall pos node s, pos <= length row -> z pos <= f -> gtree (P g) row s pos node ->
  exists n p', snd (cparse_scripts g crec fuel node (inp row pos)) = Ok (n, inp row p') /\ pos <= p' <= length row /\ fst (cparse_scripts g crec fuel node (inp row pos)) + 2 * z p' <= 2 * z pos.
Proof.
  induction fuel as [|fuel IH]; intros pos node s Hp Hs C; [exists node, pos; repeat split; auto; cbn; lia|]. cbn [cparse_scripts].
  destruct (@script_rules Sub ltac:(auto)) as (r1&Hr1&Ht1). destruct (@script_rules Sup ltac:(auto)) as (r2&Hr2&Ht2).
  destruct (parse_script_ok R RP Sub Hwf Hp Hs) as (o&_&E&Ho). destruct (@lin_script Sub pos r1 Hr1 Ht1 Hp Hs) as (o'&E'&Q). rewrite (snd_script g same), E in E'. injection E' as <-. rewrite <- (snd_script g same) in E.
  rewrite (@fst_bind _ _ _ _ o) by exact E. rewrite snd_cbind, E. cbn [bind]. destruct o as [[op i]|].
  - destruct Q as (p1&->&Hp1&Q). destruct Ho as (p1'&X&_&C1). assert (p1' = p1) as -> by (injection X; auto). destruct (build_postfix_ok sub_rule_name C C1) as (n&En&Cn).
    rewrite (@fst_bind _ _ _ _ n) by exact En. rewrite snd_cbind, snd_free, En. cbn [bind free fst Nat.add]. destruct (@IH p1 n s ltac:(lia) ltac:(lia) Cn) as (n'&p'&E2&Hp'&I). exists n', p'. split; [exact E2|]. split; [lia|]. lia.
  - rewrite Q. cbn [Nat.add]. clear E Ho Q. destruct (parse_script_ok R RP Sup Hwf Hp Hs) as (o&_&E&Ho). destruct (@lin_script Sup pos r2 Hr2 Ht2 Hp Hs) as (o'&E'&Q). rewrite (snd_script g same), E in E'. injection E' as <-. rewrite <- (snd_script g same) in E.
    rewrite (@fst_bind _ _ _ _ o) by exact E. rewrite snd_cbind, E. cbn [bind]. destruct o as [[op i]|].
    + destruct Q as (p1&->&Hp1&Q). destruct Ho as (p1'&X&_&C1). assert (p1' = p1) as -> by (injection X; auto). destruct (build_postfix_ok sup_rule_name C C1) as (n&En&Cn).
      rewrite (@fst_bind _ _ _ _ n) by exact En. rewrite snd_cbind, snd_free, En. cbn [bind free fst Nat.add]. destruct (@IH p1 n s ltac:(lia) ltac:(lia) Cn) as (n'&p'&E2&Hp'&I). exists n', p'. split; [exact E2|]. split; [lia|]. lia.
    + exists node, pos. rewrite Q. cbn. repeat split; lia.
Qed.
Lemma lin_op op r pos : In r (g_rules g) -> rule_token r = Some (op_token op) -> pos <= length row -> z pos <= f -> paid pos (cparse_op g crec op (inp row pos)).
Proof.
  intros Hr Ht Hp Hs. assert (Hg : good_op op) by (intros ty; apply (Htok Hr Ht)). pose proof (@lin_rule operator_rule_name (op_token op) r pos Hr Ht Hp Hs) as L.
  assert (W : paid pos (cpbind (cparse_rule g crec operator_rule_name (op_token op) (inp row pos)) (fun node i1 => r <+ cparse_scripts g crec (length (snd i1)) node i1 ;; free (Ok (Some r))))).
  { destruct (parse_rule_ok R RP operator_rule_name Hwf Hp Hs Hg) as (o&_&E&Ho). destruct L as (o'&E'&Q). rewrite (snd_rule g same), E in E'. injection E' as <-. rewrite <- (snd_rule g same) in E. unfold paid, cpbind.
    rewrite (@fst_bind _ _ _ _ o) by exact E. rewrite snd_cbind, E. cbn [bind]. destruct o as [[n i]|]; [|exists None; rewrite Q; split; reflexivity].
    destruct Q as (p1&->&Hp1&Q). destruct Ho as (p1'&X&_&C). assert (p1' = p1) as -> by (injection X; auto). pose proof (@z_le pos p1 ltac:(lia) ltac:(lia)).
    destruct (@lin_scripts (length (snd (inp row p1))) p1 n pos ltac:(lia) ltac:(lia) C) as (n'&p'&E2&Hp'&I). rewrite fst_bind_free by reflexivity. rewrite snd_cbind, E2. cbn [bind].
    exists (Some (n', inp row p')). split; [reflexivity|]. exists p'. split; [reflexivity|]. split; [lia|]. lia. }
  unfold cparse_op. destruct (op_power op); assumption.
Qed.
Lemma lin_iter ops pos : (forall op, In op ops -> paid pos (cparse_op g crec op (inp row pos))) -> paid pos (cparse_iter g crec ops (inp row pos)).
Proof.
  induction ops as [|op ops IH]; intros H; [exists None; split; reflexivity|]. destruct (H op (or_introl eq_refl)) as (o&E&Q). unfold paid. cbn [cparse_iter]. rewrite (@fst_bind _ _ _ _ o) by exact E. rewrite snd_cbind, E. cbn [bind].
  destruct o as [[n i]|].
  - exists (Some ((n, op), i)). split; [reflexivity|]. destruct Q as (p1&->&Hp1&Q). exists p1. split; [reflexivity|]. split; [exact Hp1|]. cbn [free fst]. lia.
  - rewrite Q. apply IH. intros; apply H; now right.
Qed.
Lemma lin_choice rules pos : (forall name t, In (name, t) rules -> paid pos (cparse_rule g crec name t (inp row pos))) -> paid pos (cparse_choice g crec rules (inp row pos)).
Proof.
  induction rules as [|[name t] rules IH]; intros H; [exists None; split; reflexivity|]. destruct (H name t (or_introl eq_refl)) as (o&E&Q). unfold paid. cbn [cparse_choice]. rewrite (@fst_bind _ _ _ _ o) by exact E. rewrite snd_cbind, E. cbn [bind].
  destruct o as [[n i]|].
  - exists (Some (n, i)). split; [reflexivity|]. destruct Q as (p1&->&Hp1&Q). exists p1. split; [reflexivity|]. split; [exact Hp1|]. cbn [free fst]. lia.
  - rewrite Q. apply IH. intros; eapply H; right; eassumption.
Qed.
Lemma prefix_rule op : In op (prefix_ops g) -> exists r, In r (g_rules g) /\ rule_token r = Some (op_token op).
Proof. intros Hin. apply ops_in in Hin as (r&Hr&E). exists r. split; [exact Hr|]. destruct r; try discriminate; injection E as <-; reflexivity. Qed.
Lemma infix_rule op : In op (infix_ops g) -> exists r, In r (g_rules g) /\ rule_token r = Some (op_token op).
Proof. intros Hin. apply ops_in in Hin as (r&Hr&E). exists r. split; [exact Hr|]. destruct r; try discriminate; injection E as <-; reflexivity. Qed.
Lemma postfix_rule op : In op (postfix_ops g) -> exists r, In r (g_rules g) /\ rule_token r = Some (op_token op).
Proof. intros Hin. apply ops_in in Hin as (r&Hr&E). exists r. split; [exact Hr|]. destruct r; try discriminate; injection E as <-; reflexivity. Qed.
Lemma atom_rule name t : In (name, t) (atom_rules g) -> exists r, In r (g_rules g) /\ rule_token r = Some t.
Proof. intros Hin. apply atoms_in in Hin. eexists. split; [exact Hin|reflexivity]. Qed.
Lemma lin_prefix pos : pos <= length row -> z pos <= f -> paid pos (cparse_prefix g crec (inp row pos)).
Proof. intros Hp Hs. apply lin_iter. intros op Hin. destruct (prefix_rule Hin) as (r&Hr&Ht). eapply lin_op; eauto. Qed.
Lemma lin_postfix pos : pos <= length row -> z pos <= f -> paid pos (cparse_postfix g crec (inp row pos)).
Proof. intros Hp Hs. apply lin_iter. intros op Hin. destruct (postfix_rule Hin) as (r&Hr&Ht). eapply lin_op; eauto. Qed.
Lemma lin_atom pos : pos <= length row -> z pos <= f -> paid pos (cparse_atom g crec (inp row pos)).
Proof. intros Hp Hs. apply lin_choice. intros name t Hin. destruct (atom_rule Hin) as (r&Hr&Ht). eapply lin_rule; eauto. Qed.
Lemma no_scripts fuel node pos : (forall v c r, skipn pos row = Container v c :: r -> v <> Sub /\ v <> Sup) -> fst (cparse_scripts g crec fuel node (inp row pos)) = 0.
Proof.
  intros H. assert (S : forall v, v = Sub \/ v = Sup -> cparse_script g crec v (inp row pos) = (0, Ok None)).
  { intros v Hv. unfold cparse_script, cpbind. cbn [cparse_token inp snd]. destruct (skipn pos row) as [|[v' c|s] r]; try reflexivity. destruct (H v' c r eq_refl) as [H1 H2].
    destruct (variant_eqb v' v) eqn:E; [|reflexivity]. exfalso. destruct Hv as [->| ->]; destruct v'; try discriminate E; congruence. }
  destruct fuel; [reflexivity|]. cbn [cparse_scripts]. rewrite !S by auto. reflexivity.
Qed.
Lemma lin_infix pos : pos <= length row -> z pos <= f -> fst (cparse_infix g crec (inp row pos)) = 0.
Proof.
  intros Hp Hs. assert (Ops : forall op, In op (infix_ops g) -> fst (cparse_op g crec op (inp row pos)) = 0).
  { intros op Hin. destruct (infix_rule Hin) as (r&Hr&Ht). assert (Hg : good_op op) by (intros ty; apply (Htok Hr Ht)).
    assert (F : fst (cparse_rule g crec operator_rule_name (op_token op) (inp row pos)) = 0) by (rewrite rule_cost by exact Hp; apply token_free; intros; now apply Hinfix).
    assert (W : fst (cpbind (cparse_rule g crec operator_rule_name (op_token op) (inp row pos)) (fun node i1 => r <+ cparse_scripts g crec (length (snd i1)) node i1 ;; free (Ok (Some r)))) = 0).
    { destruct (parse_rule_ok R RP operator_rule_name Hwf Hp Hs Hg) as (o&_&E&Ho). unfold cpbind.
      rewrite (@fst_bind _ _ _ _ o) by (rewrite (snd_rule g same); exact E). rewrite F. destruct o as [[n i]|]; [|reflexivity].
      destruct Ho as (p1&->&Hp1&C). rewrite fst_bind_free by reflexivity. apply no_scripts. eapply Kinfix; eauto. }
    unfold cparse_op. destruct (op_power op); assumption. }
  enough (fst (cparse_infix g crec (inp row pos)) <= 0) by lia. apply iter_cost; intros op Hin; rewrite (Ops op Hin); auto.
Qed.
(** Looking ahead is free. *)
Lemma can_free tokens pos : pos <= length row -> (forall t, In t tokens -> exists r, In r (g_rules g) /\ rule_token r = Some t) -> fst (ccan_any g crec tokens (inp row pos)) = 0.
Proof.
  intros Hp. induction tokens as [|t tokens IH]; intros H; [reflexivity|]. cbn [ccan_any]. destruct (parse_spaces_ok (P := P g) Hp) as (before&p&Esp&Hp1&_). rewrite (skip_spaces_ok Esp).
  assert (F : fst (ccan_token g crec t (inp row p)) = 0).
  { destruct (H t (or_introl eq_refl)) as (r&Hr&Ht). destruct t as [| |a b| | | |]; try reflexivity. cbn [ccan_token]. unfold just_symbol. cbn [inp snd]. destruct (skipn p row) as [|[v c|s] tl] eqn:E; try reflexivity.
    destruct (skipn_cons_S E) as (_&_&En). rewrite (@Kquiet row s r a b Hk (nth_error_In _ _ En) Hr Ht). reflexivity. }
  pose proof (or_cost (ccan_token g crec t (inp row p)) (ccan_any g crec tokens (inp row pos))) as O. rewrite IH in O by (intros; apply H; now right). lia.
Qed.
Lemma can_prefix_free pos : pos <= length row -> fst (ccan_prefix g crec (inp row pos)) = 0.
Proof. intros Hp. apply can_free; [exact Hp|]. intros t Hin. apply in_map_iff in Hin as (op&<-&Hin). now apply prefix_rule. Qed.
Lemma can_infix_free pos : pos <= length row -> fst (ccan_infix g crec (inp row pos)) = 0.
Proof. intros Hp. apply can_free; [exact Hp|]. intros t Hin. apply in_map_iff in Hin as (op&<-&Hin). now apply infix_rule. Qed.
Lemma can_postfix_free pos : pos <= length row -> fst (ccan_postfix g crec (inp row pos)) = 0.
Proof. intros Hp. apply can_free; [exact Hp|]. intros t Hin. apply in_map_iff in Hin as (op&<-&Hin). now apply postfix_rule. Qed.
Lemma can_atom_free pos : pos <= length row -> fst (ccan_atom g crec (inp row pos)) = 0.
Proof. intros Hp. apply can_free; [exact Hp|]. intros t Hin. apply in_map_iff in Hin as ([name t']&<-&Hin). eapply atom_rule; exact Hin. Qed.
Lemma or_free c1 c2 : fst c1 = 0 -> fst c2 = 0 -> fst (cor_else c1 c2) = 0.
Proof. intros H1 H2. pose proof (or_cost c1 c2). lia. Qed.
Lemma unknown_free e : forall k pos node, length row - pos <= k -> pos <= length row -> fst (cunknown_loop g crec e node pos (skipn pos row)) = 0.
Proof.
  induction k as [|k IH]; intros pos node Hlen Hp.
  - assert (pos = length row) as -> by lia. rewrite skipn_all. reflexivity.
  - destruct (skipn pos row) as [|x r] eqn:E; [reflexivity|]. destruct (skipn_cons_S E) as (E'&Hlt&En). cbn [cunknown_loop].
    match goal with |- context [cbind ?a _] => set (stop := a) end.
    assert (Cs : fst stop = 0).
    { unfold stop. destruct (is_at_end e (pos, x :: r)); [reflexivity|]. rewrite <- E. change (pos, skipn pos row) with (inp row pos).
      repeat apply or_free; [now apply can_prefix_free|now apply can_atom_free|now apply can_infix_free|now apply can_postfix_free]. }
    destruct stop as [ks [b|p]]; cbn [fst] in Cs; subst ks; [|reflexivity]. cbn [cbind]. destruct b; [reflexivity|]. destruct (unknown_token pos x) as [next|p]; [|reflexivity]. cbn [free cbind].
    destruct (missing_operator node next) as [n|p]; [|reflexivity]. cbn [cbind]. pose proof (IH (S pos) n ltac:(lia) ltac:(lia)) as I. rewrite E' in I. destruct (cunknown_loop g crec e n (S pos) r). cbn in *. lia.
Qed.
Lemma unknowns_free e pos : pos < length row -> fst (cparse_unknown g crec e (inp row pos)) = 0.
Proof.
  intros Hlt. unfold cparse_unknown. cbn [inp fst snd]. destruct (skipn_lt Hlt) as [x E]. rewrite E at 1.
  destruct (unknown_token pos x) as [next|p]; [|reflexivity]. cbn [free cbind]. pose proof (@unknown_free e (length row - S pos) (S pos) next ltac:(lia) ltac:(lia)) as U.
  destruct (cunknown_loop g crec e next (S pos) (skipn (S pos) row)). cbn in *. lia.
Qed.

Lemma iter_in rec0 ops i n op i' : parse_iter g rec0 ops i = Ok (Some ((n, op), i')) -> In op ops.
Proof.
  induction ops as [|o ops IH]; intros H; [discriminate H|]. cbn [parse_iter] in H. apply bind_ok in H as ([[n0 i0]|]&_&H); [injection H as _ <- _; now left|]. right. now apply IH.
Qed.
(** A script is never given back, and other operators cost nothing. *)
Lemma rejected_free pos min value op i : min_ok min -> pos <= length row -> z pos <= f -> power_ltb (strength_left (op_power op)) min = true ->
  snd (cparse_postfix g crec (inp row pos)) = Ok (Some ((value, op), i)) -> fst (cparse_postfix g crec (inp row pos)) = 0.
Proof.
  intros Hm Hp Hs Hr. unfold cparse_postfix. assert (H : forall o, In o (postfix_ops g) -> In o (postfix_ops g)) by auto. revert H. generalize (postfix_ops g) at 1 3 4. intros ops H E.
  induction ops as [|o ops IH]; [reflexivity|]. cbn [cparse_iter] in *. pose proof (H o (or_introl eq_refl)) as Ho. destruct (postfix_rule Ho) as (r&Hin&Ht). destruct (@lin_op o r pos Hin Ht Hp Hs) as (x&Ex&Q).
  rewrite (@fst_bind _ _ _ _ x) by exact Ex. rewrite snd_cbind, Ex in E. cbn [bind] in E. destruct x as [[n j]|]; [|rewrite Q; apply IH; [intros; apply H; now right|exact E]].
  cbn [free snd fst] in *. rewrite Nat.add_0_r. injection E as _ -> _. clear Q. unfold cparse_op. assert (Hpw : exists p, op_power op = BPostfix p).
  { apply ops_in in Ho as (r'&_&E'). destruct r'; try discriminate. injection E' as <-. eexists. reflexivity. }
  destruct Hpw as (p&Ep). rewrite Ep. rewrite rule_cost by exact Hp. apply token_free. cbn [inp snd]. intros nd tl Es. apply (@quiet_token (op_token op) r (skip row pos) Hin Ht nd tl Es).
  intros v c ->. destruct (op_token op) as [|v'|?|?| | |] eqn:Et; try reflexivity. rewrite (Hm op v' Ho Et) in Hr. discriminate Hr.
Qed.

(** ** The loop and the first operand *)
Lemma lin_loop min e : min_ok min -> forall fuel pos lhs s, length row - pos < fuel -> pos <= length row -> z pos <= f -> (z pos < f \/ operator_next g rec (inp row pos)) -> gtree (P g) row s pos lhs ->
  forall r p', pratt_loop g rec fuel min e lhs (inp row pos) = Ok (r, inp row p') -> fst (cpratt_loop g crec fuel min e lhs (inp row pos)) + 2 * z p' <= 2 * z pos /\ pos <= p'.
Proof.
  intros Hm. induction fuel as [|fuel IH]; intros pos lhs s Hf Hp Hs Hor C r p' Er; [lia|]. cbn [cpratt_loop]. cbn [pratt_loop] in Er.
  destruct (at_end (inp row pos)) eqn:Ee; [injection Er as <- <- _; cbn; lia|].
  assert (Hlt : pos < length row).
  { destruct (Nat.eq_dec pos (length row)) as [->|]; [|lia]. unfold at_end, inp in Ee. cbn [snd] in Ee. rewrite skipn_all in Ee. discriminate Ee. }
  assert (Small : forall p2, pos < p2 <= length row -> z p2 < z pos) by (intros p2 Hp2; apply size_skipn; lia).
  assert (Next : forall p2 n ended, pos < p2 <= length row -> gtree (P g) row s p2 n -> (if ended : bool then Ok ((true, n), inp row p2) else pratt_loop g rec fuel min e n (inp row p2)) = Ok (r, inp row p') ->
    @fst nat (Res (PrattResult * Input)) (if ended : bool then free (Ok ((true, n), inp row p2)) else cpratt_loop g crec fuel min e n (inp row p2)) + 2 * z p' <= 2 * z p2 /\ p2 <= p').
  { intros p2 n ended Hp2 C2 E2. destruct ended; [injection E2 as <- <- _; cbn; lia|]. pose proof (Small p2 Hp2). eapply IH; eauto; try lia; try (left; lia). }
  pose proof (parse_infix_ok Htok R RP Hwf Hp Hs) as (o1&P1&P1'&H1). rewrite P1 in Er. cbn [bind] in Er.
  rewrite (@fst_bind _ _ _ _ o1) by (unfold cparse_infix; rewrite (snd_iter g same); exact P1'). rewrite (lin_infix Hp Hs). cbn [Nat.add].
  destruct o1 as [[[value op] i1]|].
  { destruct H1 as (p1&->&Hp1&C1). unfold node_ok in C1. cbn [fst] in C1. destruct (power_ltb _ min); [injection Er as <- <- _; cbn; lia|].
    assert (Hop : In op (infix_ops g)) by exact (iter_in P1).
    destruct (@R row p1 (strength_right (op_power op)) e) as (ended&rhs&p2&E2&E2'&Hp2&C2&_); auto; [lia|pose proof (Small p1 Hp1); lia|].
    destruct (@linear row p1 _ _ _ _ _ Hwf Hk (Hmin (or_intror Hop)) ltac:(lia) ltac:(pose proof (Small p1 Hp1); lia) E2) as [F _]. rewrite E2 in Er. cbn [bind] in Er.
    rewrite (@fst_bind (PrattResult * Input) _ _ _ ((ended, rhs), inp row p2)) by (rewrite same; exact E2'). destruct (build_infix_ok (op_name op) C C1 C2) as (n&En&C'). rewrite En in Er. cbn [bind] in Er.
    rewrite (@fst_bind _ _ _ _ n) by exact En. destruct (@Next p2 n ended ltac:(lia) C' Er) as [N1 N2]. pose proof (Small p1 Hp1). destruct ended; cbn [free fst] in N1 |- *; lia. }
  pose proof (parse_postfix_ok Htok R RP Hwf Hp Hs) as (o2&P2&P2'&H2). rewrite P2 in Er. cbn [bind] in Er.
  destruct (lin_postfix Hp Hs) as (o2'&E2'&Q2). rewrite (@fst_bind _ _ _ _ o2) by (unfold cparse_postfix; rewrite (snd_iter g same); exact P2').
  unfold cparse_postfix in E2'. rewrite (snd_iter g same) in E2'. unfold parse_postfix in P2'. rewrite P2' in E2'. injection E2' as <-.
  destruct o2 as [[[value op] i1]|].
  { destruct H2 as (p1&->&Hp1&C1). unfold node_ok in C1. cbn [fst] in C1. destruct Q2 as (q&X&_&Q2). assert (q = p1) as -> by (injection X; auto). destruct (power_ltb (strength_left (op_power op)) min) eqn:Epw.
    { injection Er as <- <- _. cbn [free fst]. assert (Z : fst (cparse_postfix g crec (inp row pos)) = 0); [|lia].
      apply (@rejected_free pos min value op (inp row p1)); auto. unfold cparse_postfix. rewrite (snd_iter g same). exact P2'. }
    destruct (build_postfix_ok (op_name op) C C1) as (n&En&C'). rewrite En in Er. cbn [bind] in Er. rewrite (@fst_bind _ _ _ _ n) by exact En. destruct (@Next p1 n false Hp1 C' Er) as [N1 N2]. cbn [free fst] in N1 |- *. lia. }
  rewrite Q2. cbn [Nat.add].
  assert (Hs' : z pos < f).
  { destruct Hor as [?|[[x Ex]|[x Ex]]]; [auto|congruence|congruence]. }
  destruct (@look_prefix g Htok f crec rec rec' same R RP row pos Hwf Hp Hs) as (o3&P3&S3&_). destruct (@look_atom g Htok f crec rec rec' same R RP row pos Hwf Hp Hs) as (o4&P4&S4&_).
  pose proof (or_free (can_prefix_free Hp) (can_atom_free Hp)) as O.
  assert (Vo : or_else (can_parse (parse_prefix g rec) (inp row pos)) (can_parse (parse_atom g rec) (inp row pos)) = Ok (is_some o3 || is_some o4)).
  { unfold can_parse. rewrite P3, P4. unfold or_else. cbn [bind]. now destruct o3. }
  rewrite Vo in Er. cbn [bind] in Er. rewrite (@fst_bind _ _ _ _ _ (or_snd S3 S4)). rewrite O. cbn [Nat.add]. destruct (is_some o3 || is_some o4) eqn:Eo.
  { destruct (power_ltb (strength_left missing_operator_power) min); [injection Er as <- <- _; cbn; lia|].
    destruct (@R row pos (strength_right missing_operator_power) e) as (ended&rhs&p2&E2&E2'&Hp2&C2&_&_&Hst); auto.
    assert (St : starts g rec (inp row pos)) by (destruct o3; [left; eauto|]; destruct o4; [right; eauto|discriminate Eo]).
    destruct (@linear row pos _ _ _ _ _ Hwf Hk Hminm Hp Hs' E2) as [_ F]. specialize (F St). specialize (Hst St). rewrite E2 in Er. cbn [bind] in Er.
    rewrite (@fst_bind (PrattResult * Input) _ _ _ ((ended, rhs), inp row p2)) by (rewrite same; exact E2'). destruct (missing_operator_ok C C2) as (n&En&C'). rewrite En in Er. cbn [bind] in Er.
    rewrite (@fst_bind _ _ _ _ n) by exact En. destruct (@Next p2 n ended ltac:(lia) C' Er) as [N1 N2]. destruct ended; cbn [free fst] in N1 |- *; lia. }
  destruct o3; [discriminate Eo|]. destruct o4; [discriminate Eo|]. destruct (is_at_end e (inp row pos)) eqn:Ee'; [injection Er as <- <- _; cbn; lia|].
  destruct (parse_unknown_ok Htok Hcont R RP e Hwf Hlt Hs P3 P4 P1 P2) as (rhs&p1&E1&E1'&Hp1&C1). rewrite E1 in Er. cbn [bind] in Er. rewrite (@fst_bind _ _ _ _ (rhs, inp row p1)) by exact (snd_unknown same E1').
  rewrite (unknowns_free e Hlt). destruct (missing_operator_ok C C1) as (n&En&C'). rewrite En in Er. cbn [bind] in Er. rewrite (@fst_bind _ _ _ _ n) by exact En.
  destruct (@Next p1 n false Hp1 C' Er) as [N1 N2]. cbn [free fst] in N1 |- *. pose proof (Small p1 Hp1). lia.
Qed.
Lemma lin_step min e pos r p' : min_ok min -> pos <= length row -> z pos <= f -> pratt_step g rec min e (inp row pos) = Ok (r, inp row p') ->
  fst (cpratt_step g crec min e (inp row pos)) + 2 * z p' <= 2 * z pos /\ (starts g rec (inp row pos) -> S (fst (cpratt_step g crec min e (inp row pos))) + 2 * z p' <= 2 * z pos).
Proof.
  intros Hm Hp Hs Er. unfold cpratt_step. unfold pratt_step in Er. destruct (pratt_first_ok Htok Hcont R RP e Hwf Hp Hs) as (ended&n&p1&E&E'&Hp1&C&_&Hn&_). rewrite E in Er. cbn [bind] in Er.
  rewrite (@fst_bind (PrattResult * Input) _ _ _ ((ended, n), inp row p1)) by exact (snd_first same E').
  assert (F : fst (cpratt_first g crec e (inp row pos)) + 2 * z p1 <= 2 * z pos /\ (starts g rec (inp row pos) -> S (fst (cpratt_first g crec e (inp row pos))) + 2 * z p1 <= 2 * z pos)).
  { clear Hn Er E'. unfold cpratt_first. unfold pratt_first in E. pose proof (z_le (proj1 Hp1) (proj2 Hp1)) as Z1.
    pose proof (parse_prefix_ok Htok R RP Hwf Hp Hs) as (o1&P1&P1'&H1). pose proof (parse_atom_ok Htok R RP Hwf Hp Hs) as (o2&P2&P2'&H2).
    destruct (at_end (inp row pos)) eqn:Ee.
    { cbn [free fst]. split; [lia|]. apply at_end_inp in Ee; auto. subst pos. intros [[[x i] Ex]|[[x i] Ex]]; [rewrite P1 in Ex; injection Ex as ->; destruct H1 as (p&_&?&_); lia|rewrite P2 in Ex; injection Ex as ->; destruct H2 as (p&_&?&_); lia]. }
    assert (Hlt : pos < length row).
    { destruct (Nat.eq_dec pos (length row)) as [->|]; [|lia]. unfold at_end, inp in Ee. cbn [snd] in Ee. rewrite skipn_all in Ee. discriminate Ee. }
    rewrite P1 in E. cbn [bind] in E. destruct (lin_prefix Hp Hs) as (x1&X1&Q1). unfold cparse_prefix in X1. rewrite (snd_iter g same) in X1. unfold parse_prefix in P1'. rewrite P1' in X1. injection X1 as <-.
    rewrite (@fst_bind _ _ _ _ o1) by (unfold cparse_prefix; rewrite (snd_iter g same); exact P1'). destruct o1 as [[[value op] i1]|].
    { destruct H1 as (q1&->&Hq1&C1). destruct Q1 as (q&X&_&Q1). assert (q = q1) as -> by (injection X; auto). rewrite fst_bind_free by (intros [[b rhs] i2]; reflexivity). pose proof (@size_skipn row pos q1 ltac:(lia)).
      assert (Hop : In op (prefix_ops g)) by exact (iter_in P1').
      destruct (@R row q1 (strength_right (op_power op)) e) as (en&rhs&p2&E2&_&Hp2&C2&_); auto; [lia|lia|]. rewrite E2 in E. cbn [bind] in E. apply bind_ok in E as (x&_&E). injection E as _ _ E _.
      destruct (@linear row q1 _ _ _ _ _ Hwf Hk (Hmin (or_introl Hop)) ltac:(lia) ltac:(lia) E2) as [F _]. split; [|intros _]; subst; lia. }
    rewrite Q1. cbn [Nat.add]. rewrite P2 in E. cbn [bind] in E. destruct (lin_atom Hp Hs) as (x2&X2&Q2). unfold cparse_atom in X2. rewrite (snd_choice g same) in X2. unfold parse_atom in P2'. rewrite P2' in X2. injection X2 as <-.
    rewrite (@fst_bind _ _ _ _ o2) by (unfold cparse_atom; rewrite (snd_choice g same); exact P2'). destruct o2 as [[a i1]|].
    { destruct H2 as (q1&->&Hq1&C1). destruct Q2 as (q&X&_&Q2). assert (q = q1) as -> by (injection X; auto). injection E as _ _ E _. cbn [free fst]. split; [|intros _]; subst; lia. }
    rewrite Q2. cbn [Nat.add].
    assert (Z : forall m : nat, m = 0 -> m + 2 * z p1 <= 2 * z pos /\ (starts g rec (inp row pos) -> S m + 2 * z p1 <= 2 * z pos)).
    { intros m ->. split; [lia|]. intros [[x Ex]|[x Ex]]; congruence. }
    apply Z. clear Z E.
    destruct (@look_infix g Htok f crec rec rec' same R RP row pos Hwf Hp Hs) as (o3&P3&S3&_). destruct (@look_postfix g Htok f crec rec rec' same R RP row pos Hwf Hp Hs) as (o4&P4&S4&_).
    pose proof (or_free (can_infix_free Hp) (can_postfix_free Hp)) as O.
    rewrite (@fst_bind _ _ _ _ _ (or_snd S3 S4)). rewrite O. destruct (is_some o3 || is_some o4); [reflexivity|]. destruct (is_at_end e (inp row pos)); [reflexivity|].
    rewrite fst_bind_free by (intros [n' i']; reflexivity). rewrite (unknowns_free e Hlt). reflexivity. }
  destruct F as [F1 F2]. destruct ended; [injection Er as <- <- _; cbn [free fst]; split; [lia|]; intros St; specialize (F2 St); lia|].
  destruct (@lin_loop min e Hm (S (length (snd (inp row p1)))) p1 n pos) with (r := r) (p' := p') as [L1 L2]; auto.
  - cbn [inp snd]. rewrite skipn_length. lia.
  - lia.
  - pose proof (z_le (proj1 Hp1) (proj2 Hp1)). lia.
  - destruct (Hn eq_refl) as [?|?]; [left|now right]. pose proof (@size_skipn row pos p1 ltac:(lia)). lia.
  - split; [lia|]. intros St. specialize (F2 St). lia.
Qed.
End Row.
End Step.

(** ** The default grammar *)
Section Default.
Variable xs xc : N -> bool.
Notation g := (default_grammar xs xc).
Notation Htok := (@default_no_empty_tokens xs xc).
Notation Hcont := (@default_all_containers xs xc).
(** Model only: the symbols of the infix operators *)
Definition infix_signs : list str := map lit ["+"; "-"; "*"; "/"; ","; "="; ">"; "<"]%string ++ [[8805%N]; [8804%N]; [8743%N]; [8744%N]; [172%N]; [8660%N]; [10233%N]].
Definition calm (row : InputRow) : Prop :=
  ~ In (Symbol (lit "(")) row /\
  forall a s k v c b, row = a ++ Symbol s :: repeat (Symbol (lit " ")) k ++ Container v c :: b -> v = Sub \/ v = Sup -> ~ In s infix_signs.
Lemma take_spaces p rest : forall pos l i, take_symbols p pos rest = (l, i) -> (forall s, p s = true -> s = lit " ") -> rest = repeat (Symbol (lit " ")) (length l) ++ snd i.
Proof.
  induction rest as [|[v c|s] r IH]; intros pos l i H Hp; cbn [take_symbols] in H; try (injection H as <- <-; reflexivity).
  destruct (p s) eqn:E; [|injection H as <- <-; reflexivity]. destruct (take_symbols p (S pos) r) as [l' i'] eqn:E'. injection H as <- <-. rewrite (Hp s E). cbn [length repeat app]. f_equal. eapply IH; eauto.
Qed.
Lemma spaces_read i o i' : parse_spaces i = Ok (o, i') -> exists k, snd i = repeat (Symbol (lit " ")) k ++ snd i'.
Proof.
  intros H. pose proof (skip_spaces_ok H) as E. unfold skip_spaces in E. destruct (repeat_symbols (fun s => str_eqb s (lit " ")) i) as [l j] eqn:Er. cbn [snd] in E. subst j.
  exists (length l). eapply take_spaces; [exact Er|]. intros s. apply str_eqb_eq.
Qed.
Lemma infix_tokens op : In op (infix_ops g) -> exists s ty, op_token op = TSymbols [s] ty /\ In s infix_signs.
Proof.
  intros H. assert (F : forallb (fun op => match op_token op with TSymbols [s] _ => existsb (str_eqb s) infix_signs | _ => false end) (infix_ops g) = true) by reflexivity.
  rewrite forallb_forall in F. apply F in H. destruct (op_token op) as [[|s [|? ?]] ty|?|?|?| | |]; try discriminate H. exists s, ty. split; [reflexivity|]. apply existsb_exists in H as (x&Hx&E). apply str_eqb_eq in E. now subst x.
Qed.
Lemma calm_infix rec row pos op n p1 : calm row -> pos <= length row -> In op (infix_ops g) -> parse_rule g rec operator_rule_name (op_token op) (inp row pos) = Ok (Some (n, inp row p1)) ->
  forall v c r, skipn p1 row = Container v c :: r -> v <> Sub /\ v <> Sup.
Proof.
  intros [_ Hc] Hp Hin H v c r E. destruct (infix_tokens Hin) as (s&ty&Et&Hs). rewrite Et in H. unfold parse_rule in H.
  destruct (parse_spaces_ok (P := P g) Hp) as (before&p&Esp&Hp1&_). rewrite Esp in H. cbn [bind] in H. unfold pbind in H. apply bind_ok in H as (o&Eo&H). destruct o as [[ch i]|]; [|discriminate H].
  cbn [parse_token] in Eo. unfold leaf_token in Eo. destruct (just_symbols [s] (inp row p)) as [[t i']|] eqn:Ej; [|discriminate Eo]. injection Eo as _ <-.
  apply just_symbols_inp in Ej as (_&->&(tl&Er)). cbn [length map app] in *. apply bind_ok in H as (node&_&H). apply bind_ok in H as ([after i3]&Esp2&H). apply bind_ok in H as (n2&_&H).
  assert (i3 = inp row p1) as -> by (now injection H as _ <-). destruct (spaces_read Esp2) as (k&Ek). unfold inp in Ek. cbn [snd] in Ek. replace (p + 1) with (S p) in Ek by lia.
  destruct (skipn_cons_S Er) as (Es&_&_). rewrite E in Ek. rewrite Es in Ek. subst tl.
  assert (A : row = firstn p row ++ Symbol s :: repeat (Symbol (lit " ")) k ++ Container v c :: r) by (rewrite <- Er; symmetry; apply firstn_skipn).
  split; intros ->; eapply Hc; eauto.
Qed.
Lemma calm_cell row v c cell : everywhere calm row -> In (Container v c) row -> In cell (gvalues c) -> everywhere calm cell.
Proof. intros H Hn Hi. destruct c as [cells w]. apply In_nth_error in Hn as [k Ek]. exact (everywhere_cell H Ek Hi). Qed.
Lemma calm_quiet row s r a b : everywhere calm row -> In (Symbol s) row -> In r (g_rules g) -> rule_token r = Some (TBrackets a b) -> str_eqb s a = false.
Proof.
  intros H Hn Hr Ht. destruct (everywhere_here H) as [Hb _].
  assert (F : forallb (fun r => match rule_token r with Some (TBrackets a _) => str_eqb a (lit "(") | _ => true end) (g_rules g) = true) by reflexivity.
  rewrite forallb_forall in F. apply F in Hr. rewrite Ht in Hr. apply str_eqb_eq in Hr. subst a. destruct (str_eqb s (lit "(")) eqn:E; [apply str_eqb_eq in E; subst s; contradiction|reflexivity].
Qed.
Lemma min_okb min : forallb (fun op => match op_token op with TContainer _ => negb (power_ltb (strength_left (op_power op)) min) | _ => true end) (postfix_ops g) = true -> min_ok g min.
Proof. intros F op v Hin Ht. rewrite forallb_forall in F. apply F in Hin. rewrite Ht in Hin. now apply Bool.negb_true_iff in Hin. Qed.
Lemma default_min op : In op (prefix_ops g) \/ In op (infix_ops g) -> min_ok g (strength_right (op_power op)).
Proof.
  intros H. apply min_okb.
  assert (F : forallb (fun q => forallb (fun op => match op_token op with TContainer _ => negb (power_ltb (strength_left (op_power op)) (strength_right (op_power q))) | _ => true end) (postfix_ops g)) (prefix_ops g ++ infix_ops g) = true) by reflexivity.
  rewrite forallb_forall in F. apply F. apply in_or_app. exact H.
Qed.
Lemma pratt_linear f : forall row pos min e ended n p', wf_row row -> everywhere calm row -> min_ok g min -> pos <= length row -> row_size (skipn pos row) < f -> pratt_parse g f min e (inp row pos) = Ok ((ended, n), inp row p') ->
  fst (cpratt_parse g f min e (inp row pos)) + 2 * row_size (skipn p' row) <= 1 + 2 * row_size (skipn pos row) /\
  (starts g (pratt_parse g f) (inp row pos) -> fst (cpratt_parse g f min e (inp row pos)) + 2 * row_size (skipn p' row) <= 2 * row_size (skipn pos row)).
Proof.
  induction f as [|f IH]; intros row pos min e ended n p' Hwf Hk Hm Hp Hs E; [lia|]. cbn [cpratt_parse]. cbn [pratt_parse] in E.
  destruct (@lin_step g Htok Hcont f (cpratt_parse g f) (pratt_parse g f) (counted g f) (fun _ _ _ => eq_refl) (counted_ok Htok Hcont (f := f)) (@parse_rows g f) (everywhere calm) calm_cell calm_quiet
    (fun row pos op n p1 K => @calm_infix (counted g f) row pos op n p1 (everywhere_here K)) (@default_infix xs xc) (@min_okb (0, Weak) eq_refl) default_min (@min_okb (strength_right missing_operator_power) eq_refl) IH row Hwf Hk min e pos _ _ Hm Hp ltac:(lia) E) as [H1 H2].
  destruct (cpratt_step g (cpratt_parse g f) min e (inp row pos)) as [k r]. cbn [fst] in *. split; [lia|]. intros X. 
  assert (Hs' : row_size (skipn pos row) <= f) by lia. enough (Y : starts g (pratt_parse g f) (inp row pos)) by (specialize (H2 Y); lia).
  destruct X as [[x Ex]|[x Ex]]; [left|right]; exists x; rewrite <- Ex.
  - destruct (parse_prefix_ok Htok (@pratt_parse_ok g Htok Hcont f (S f) ltac:(lia)) (@parse_rows g f) Hwf Hp Hs') as (o&->&E2&_). now rewrite <- E2.
  - destruct (parse_atom_ok Htok (@pratt_parse_ok g Htok Hcont f (S f) ltac:(lia)) (@parse_rows g f) Hwf Hp Hs') as (o&->&E2&_). now rewrite <- E2.
Qed.
Lemma calls_linear doc : wf_row doc -> everywhere calm doc -> calls g doc <= 1 + 2 * row_size doc.
Proof.
  intros Hwf Hk. unfold calls, cparse, cparse_row_with. rewrite fst_bind_free by (intros [[b n] i]; reflexivity). change (0, doc) with (inp doc 0).
  destruct (@pratt_parse_ok g Htok Hcont (S (row_size doc)) (S (row_size doc)) (Nat.le_refl _) doc 0 (0, Weak) EndInput Hwf ltac:(lia) ltac:(change (skipn 0 doc) with doc; lia)) as (ended&n&p'&E&_&Hp&_).
  destruct (@pratt_linear (S (row_size doc)) doc 0 (0, Weak) EndInput ended n p' Hwf Hk (@min_okb (0, Weak) eq_refl) ltac:(lia) ltac:(change (skipn 0 doc) with doc; lia) E) as [F _]. change (skipn 0 doc) with doc in F. lia.
Qed.
End Default.

(** ** Deciding it *)
Fixpoint no_scripts_after (armed : bool) (row : InputRow) : bool :=
  match row with
  | [] => true
  | Symbol s :: r => no_scripts_after (existsb (str_eqb s) infix_signs || (armed && str_eqb s (lit " "))) r
  | Container v _ :: r => negb (armed && (variant_eqb v Sub || variant_eqb v Sup)) && no_scripts_after false r
  end.
Lemma signs_ok s : In s infix_signs -> existsb (str_eqb s) infix_signs = true.
Proof. intros H. apply existsb_exists. exists s. split; [exact H|]. now apply str_eqb_eq. Qed.
Lemma after_spaces k v c b : v = Sub \/ v = Sup -> no_scripts_after true (repeat (Symbol (lit " ")) k ++ Container v c :: b) = false.
Proof. intros Hv. induction k as [|k IH]; [destruct Hv as [-> | ->]; reflexivity|]. cbn [repeat app no_scripts_after]. exact IH. Qed.
Lemma no_scripts_after_ok a : forall armed s k v c b, no_scripts_after armed (a ++ Symbol s :: repeat (Symbol (lit " ")) k ++ Container v c :: b) = true -> v = Sub \/ v = Sup -> ~ In s infix_signs.
Proof.
  induction a as [|[w d|t] a IH]; intros armed s k v c b H Hv Hs; cbn [app no_scripts_after] in H.
  - rewrite (signs_ok Hs) in H. cbn [orb] in H. rewrite after_spaces in H by exact Hv. discriminate H.
  - apply andb_prop in H as [_ H]. exact (IH _ _ _ _ _ _ H Hv Hs).
  - exact (IH _ _ _ _ _ _ H Hv Hs).
Qed.
Definition calmb (row : InputRow) : bool := forallb (fun n => match n with Symbol s => negb (str_eqb s (lit "(")) | _ => true end) row && no_scripts_after false row.
Lemma calmb_ok row : calmb row = true -> calm row.
Proof.
  intros H. apply andb_prop in H as [H1 H2]. split.
  - intros H. rewrite forallb_forall in H1. apply H1 in H. discriminate H.
  - intros a s k v c b -> Hv. exact (no_scripts_after_ok H2 Hv).
Qed.
Fixpoint all_calmb (fuel : nat) (row : InputRow) : bool :=
  match fuel with
  | 0 => false
  | S fuel => calmb row && forallb (fun n => match n with Container _ c => forallb (all_calmb fuel) (gvalues c) | _ => true end) row
  end.
Lemma all_calmb_ok fuel : forall row, all_calmb fuel row = true -> everywhere calm row.
Proof.
  induction fuel as [|fuel IH]; intros row H; [discriminate H|]. cbn [all_calmb] in H. apply andb_prop in H as [H1 H2]. apply everywhere_intro; [now apply calmb_ok|].
  intros k v cells w cell Ek Hin. apply IH. rewrite forallb_forall in H2. apply nth_error_In in Ek. apply H2 in Ek. cbn [gvalues] in Ek. rewrite forallb_forall in Ek. now apply Ek.
Qed.
