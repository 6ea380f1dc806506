(** Proofs about the modules of a parser. *)
From Coq Require Import String.
From Verif Require Import Base Str Grid Node Focus Edit Caret Autocomplete Rules Spec NameMap Syntax Pratt Grammar Modules Render SpecSyntax SpecRender SpecModules
  BaseFacts ParseFacts ParseTotal GrammarFacts NameMapFacts.
Open Scope list_scope.
Open Scope nat_scope.
Set Implicit Arguments.
Unset Strict Implicit.

(** * Two grammars that agree on some rows *)
Section Agree.
Variables g1 g2 : Grammar.
Variable Good : InputRow -> Prop.
Hypothesis good_tail : forall n r, Good (n :: r) -> Good r.
Hypothesis good_cell : forall v c r cell, Good (Container v c :: r) -> In cell (gvalues c) -> Good cell.
Hypothesis same_start : g_xid_start g1 = g_xid_start g2.
Hypothesis same_continue : g_xid_continue g1 = g_xid_continue g2.

Definition same A (r1 r2 : Res (A * Input)) : Prop := r1 = r2 /\ forall a i, r1 = Ok (a, i) -> Good (snd i).
Definition psame A (r1 r2 : PRes A) : Prop := r1 = r2 /\ forall a i, r1 = Ok (Some (a, i)) -> Good (snd i).
Lemma same_bind A B (r1 r2 : Res (A * Input)) (f1 f2 : A * Input -> Res (B * Input)) : same r1 r2 -> (forall a i, Good (snd i) -> same (f1 (a, i)) (f2 (a, i))) -> same (bind r1 f1) (bind r2 f2).
Proof. intros [<- H] F. destruct r1 as [[a i]|p]; cbn; [apply F, (H a i eq_refl)|]. split; [reflexivity|discriminate]. Qed.
Lemma same_free A B (r : Res A) (f1 f2 : A -> Res (B * Input)) : (forall a, same (f1 a) (f2 a)) -> same (bind r f1) (bind r f2).
Proof. intros F. destruct r as [a|p]; cbn; [apply F|]. split; [reflexivity|discriminate]. Qed.
Lemma same_ok A (a : A) i : Good (snd i) -> same (Ok (a, i)) (Ok (a, i)).
Proof. intros H. split; [reflexivity|]. intros a' i' E. injection E as -> ->. exact H. Qed.
Lemma same_panic A p : @same A (Panic p) (Panic p).
Proof. split; [reflexivity|discriminate]. Qed.
Lemma psame_free A B (r : Res A) (f1 f2 : A -> PRes B) : (forall a, psame (f1 a) (f2 a)) -> psame (bind r f1) (bind r f2).
Proof. intros F. destruct r as [a|p]; cbn; [apply F|]. split; [reflexivity|discriminate]. Qed.
Lemma psame_none A : @psame A (Ok None) (Ok None).
Proof. split; [reflexivity|discriminate]. Qed.
Lemma psame_some A (a : A) i : Good (snd i) -> psame (Ok (Some (a, i))) (Ok (Some (a, i))).
Proof. intros H. split; [reflexivity|]. intros a' i' E. injection E as -> ->. exact H. Qed.
Lemma psame_bind A B (r1 r2 : Res (A * Input)) (f1 f2 : A * Input -> PRes B) : same r1 r2 -> (forall a i, Good (snd i) -> psame (f1 (a, i)) (f2 (a, i))) -> psame (bind r1 f1) (bind r2 f2).
Proof. intros [<- H] F. destruct r1 as [[a i]|p]; cbn; [apply F, (H a i eq_refl)|]. split; [reflexivity|discriminate]. Qed.
Lemma psame_pbind A B (r1 r2 : PRes A) (f1 f2 : A -> Input -> PRes B) : psame r1 r2 -> (forall a i, Good (snd i) -> psame (f1 a i) (f2 a i)) -> psame (pbind r1 f1) (pbind r2 f2).
Proof. intros [<- H] F. unfold pbind. destruct r1 as [[[a i]|]|p]; cbn; [apply F, (H a i eq_refl)|apply psame_none|]. split; [reflexivity|discriminate]. Qed.
(** Choosing between a result and going on *)
Lemma psame_else A B (r1 r2 : PRes A) (f1 f2 : A * Input -> PRes B) (h1 h2 : PRes B) : psame r1 r2 ->
  (forall a i, Good (snd i) -> psame (f1 (a, i)) (f2 (a, i))) -> psame h1 h2 ->
  psame (o <- r1 ;; match o with Some x => f1 x | None => h1 end) (o <- r2 ;; match o with Some x => f2 x | None => h2 end).
Proof. intros [<- H] F E. destruct r1 as [[[a i]|]|p]; cbn; [apply F, (H a i eq_refl)|exact E|]. split; [reflexivity|discriminate]. Qed.
Lemma same_else A B (r1 r2 : PRes A) (f1 f2 : A * Input -> Res (B * Input)) (h1 h2 : Res (B * Input)) : psame r1 r2 ->
  (forall a i, Good (snd i) -> same (f1 (a, i)) (f2 (a, i))) -> same h1 h2 ->
  same (o <- r1 ;; match o with Some x => f1 x | None => h1 end) (o <- r2 ;; match o with Some x => f2 x | None => h2 end).
Proof. intros [<- H] F E. destruct r1 as [[[a i]|]|p]; cbn; [apply F, (H a i eq_refl)|exact E|]. split; [reflexivity|discriminate]. Qed.

Lemma good_just s i x i' : Good (snd i) -> just_symbol s i = Some (x, i') -> Good (snd i').
Proof. unfold just_symbol. destruct (snd i) as [|[v c|t] r]; try discriminate. destruct (str_eqb t s); [|discriminate]. intros H E. injection E as <- <-. exact (good_tail H). Qed.
Lemma good_justs l : forall i x i', Good (snd i) -> just_symbols l i = Some (x, i') -> Good (snd i').
Proof.
  induction l as [|s l IH]; cbn; intros i x i' H E; [injection E as <- <-; exact H|]. destruct (just_symbol s i) as [[s' i1]|] eqn:E1; [|discriminate].
  destruct (just_symbols l i1) as [[t i2]|] eqn:E2; [|discriminate]. injection E as <- <-. exact (IH _ _ _ (good_just H E1) E2).
Qed.
Lemma good_take p l : forall pos x i', Good l -> take_symbols p pos l = (x, i') -> Good (snd i').
Proof.
  induction l as [|[v c|s] r IH]; cbn; intros pos x i' H E; try (injection E as <- <-; exact H). destruct (p s); [|injection E as <- <-; exact H].
  destruct (take_symbols p (S pos) r) as [t i] eqn:Et. injection E as <- <-. exact (IH _ _ _ (good_tail H) Et).
Qed.
Lemma good_repeat p i x i' : Good (snd i) -> repeat_symbols p i = (x, i') -> Good (snd i').
Proof. apply good_take. Qed.
Lemma good_string l : forall pos x i', Good l -> take_string pos l = (x, i') -> Good (snd i').
Proof.
  enough (H : forall k l, List.length l <= k -> forall pos x i', Good l -> take_string pos l = (x, i') -> Good (snd i')) by (exact (H (List.length l) l (Nat.le_refl _))).
  clear l. induction k as [|k IH]; intros l Hk pos x i' H E; (destruct l as [|[v c|s] r]; cbn in *; try (injection E as <- <-; exact H); try lia).
  destruct (str_eqb s [92%N]).
  - destruct r as [|[v c|t] r']; try (injection E as <- <-; exact H). destruct (take_string (S (S pos)) r') as [u i] eqn:Eu. injection E as <- <-.
    refine (IH r' _ _ _ _ _ Eu); [cbn in Hk; lia|]. exact (good_tail (good_tail H)).
  - destruct (str_eqb s [34%N]); [injection E as <- <-; exact H|]. destruct (take_string (S pos) r) as [u i] eqn:Eu. injection E as <- <-. refine (IH r _ _ _ _ (good_tail H) Eu). lia.
Qed.
Lemma good_spaces i o i' : Good (snd i) -> parse_spaces i = Ok (o, i') -> Good (snd i').
Proof.
  unfold parse_spaces. intros H. destruct (repeat_symbols _ i) as [l i1] eqn:E. pose proof (good_repeat H E) as G. destruct l; intros R; [injection R as <- <-; exact G|].
  apply bind_ok in R as (n&_&R). injection R as <- <-. exact G.
Qed.
Lemma same_spaces i : Good (snd i) -> same (parse_spaces i) (parse_spaces i).
Proof. intros H. split; [reflexivity|]. intros o i' E. exact (good_spaces H E). Qed.

Section Rec.
Variables rec1 rec2 : Power -> Ending -> Input -> Res (PrattResult * Input).
Hypothesis rec_same : forall min e i, Good (snd i) -> same (rec1 min e i) (rec2 min e i).

Lemma row_same row : Good row -> parse_row_with rec1 row = parse_row_with rec2 row.
Proof. intros H. unfold parse_row_with. destruct (rec_same (0, Weak) EndInput (i := (0, row)) H) as [-> _]. reflexivity. Qed.
Lemma leaf_same ty o : (forall l i, o = Some (l, i) -> Good (snd i)) -> psame (leaf_token ty o) (leaf_token ty o).
Proof. intros H. split; [reflexivity|]. unfold leaf_token. intros a i E. destruct o as [[l j]|]; [|discriminate]. cbn in E. injection E as <- <-. eauto. Qed.
Lemma token_same t i : Good (snd i) -> psame (parse_token g1 rec1 t i) (parse_token g2 rec2 t i).
Proof.
  intros H. destruct t; cbn [parse_token].
  - apply leaf_same. intros l i' E. destruct (just_symbols symbols i) as [[s j]|] eqn:Ej; [|discriminate]. cbn in E. injection E as <- <-. exact (good_justs H Ej).
  - destruct (snd i) as [|[v' c|s] r] eqn:Ei; try apply psame_none. destruct (variant_eqb v' v); [|apply psame_none].
    assert (M : map_res (parse_row_with rec1) (gvalues c) = map_res (parse_row_with rec2) (gvalues c)).
    { assert (F : forall cell, In cell (gvalues c) -> Good cell) by (intros cell Hc; exact (good_cell H Hc)). clear - F rec_same.
      induction (gvalues c) as [|cell l IH]; [reflexivity|]. cbn [map_res]. rewrite (row_same (F cell (or_introl eq_refl))), IH by (intros; apply F; now right). reflexivity. }
    rewrite M. apply psame_free. intros rows. apply psame_free. intros w. apply psame_free. intros grid. apply psame_some. exact (good_tail H).
  - destruct (just_symbol starting i) as [[l i1]|] eqn:E1; [|apply psame_none]. apply psame_bind; [apply rec_same, (good_just H E1)|]. intros [b child] i2 H2. cbn beta iota.
    destruct (just_symbol ending i2) as [[r i3]|] eqn:E3; [|apply psame_none]. apply psame_free. intros lhs. apply psame_free. intros rhs. apply psame_some. exact (good_just H2 E3).
  - destruct (just_symbol starting i) as [[l i1]|] eqn:E1; [|apply psame_none]. destruct (just_symbol ending i1) as [[r i2]|] eqn:E2; [|apply psame_none].
    apply psame_free. intros lhs. apply psame_free. intros rhs. apply psame_some. exact (good_just (good_just H E1) E2).
  - apply leaf_same. intros l i' E. unfold parse_number in E. destruct (repeat_symbols is_digits i) as [a i1] eqn:E1. pose proof (good_repeat H E1) as H1. destruct a; [discriminate|].
    destruct (just_symbol (lit ".") i1) as [[c i2]|] eqn:E2; [|injection E as <- <-; exact H1]. pose proof (good_just H1 E2) as H2.
    destruct (repeat_symbols is_digits i2) as [d i3] eqn:E3. destruct d; injection E as <- <-; [exact H1|]. exact (good_repeat H2 E3).
  - unfold parse_variable. unfold is_identifier_start, is_identifier_continue. rewrite <- same_start, <- same_continue. apply leaf_same. intros l i' E. unfold select_symbol in E.
    destruct (snd i) as [|[v c|s] r]; try discriminate. match type of E with context [if ?b then _ else _] => destruct b end; [|discriminate].
    match type of E with context [repeat_symbols ?p ?j] => destruct (repeat_symbols p j) as [u i2] eqn:E2 end. injection E as <- <-. refine (good_repeat _ E2). exact (good_tail H).
  - apply leaf_same. intros l i' E. unfold parse_string in E. destruct (just_symbol (lit """") i) as [[a i1]|] eqn:E1; [|discriminate].
    destruct (take_string (fst i1) (snd i1)) as [b i2] eqn:E2. destruct (just_symbol (lit """") i2) as [[c i3]|] eqn:E3; [|discriminate]. injection E as <- <-.
    exact (good_just (good_string (good_just H E1) E2) E3).
Qed.
Lemma rule_same name t i : Good (snd i) -> psame (parse_rule g1 rec1 name t i) (parse_rule g2 rec2 name t i).
Proof.
  intros H. unfold parse_rule. apply psame_bind; [exact (same_spaces H)|]. intros before i1 H1. cbn beta iota. apply psame_pbind; [exact (token_same t H1)|]. intros c i2 H2.
  apply psame_free. intros node. apply psame_bind; [exact (same_spaces H2)|]. intros after i3 H3. cbn beta iota. apply psame_free. intros node'. exact (psame_some _ H3).
Qed.
Lemma script_same v i : Good (snd i) -> psame (parse_script g1 rec1 v i) (parse_script g2 rec2 v i).
Proof.
  intros H. unfold parse_script. apply psame_pbind; [exact (token_same _ H)|]. intros c i1 H1.
  apply psame_free. intros node. apply psame_bind; [exact (same_spaces H1)|]. intros after i3 H3. cbn beta iota. apply psame_free. intros node'. exact (psame_some _ H3).
Qed.
Lemma scripts_same fuel : forall node i, Good (snd i) -> same (parse_scripts g1 rec1 fuel node i) (parse_scripts g2 rec2 fuel node i).
Proof.
  induction fuel as [|fuel IH]; intros node i H; cbn [parse_scripts]; [exact (same_ok _ H)|].
  apply (same_else (f1 := fun '(op, i') => node <- build_postfix sub_rule_name op node ;; parse_scripts g1 rec1 fuel node i') (f2 := fun '(op, i') => node <- build_postfix sub_rule_name op node ;; parse_scripts g2 rec2 fuel node i')).
  - exact (script_same _ H).
  - intros op i' H'. apply same_free. intros n. exact (IH _ _ H').
  - apply (same_else (f1 := fun '(op, i') => node <- build_postfix sup_rule_name op node ;; parse_scripts g1 rec1 fuel node i') (f2 := fun '(op, i') => node <- build_postfix sup_rule_name op node ;; parse_scripts g2 rec2 fuel node i')).
    + exact (script_same _ H).
    + intros op i' H'. apply same_free. intros n. exact (IH _ _ H').
    + exact (same_ok _ H).
Qed.
Lemma op_same op i : Good (snd i) -> psame (parse_op g1 rec1 op i) (parse_op g2 rec2 op i).
Proof.
  intros H. unfold parse_op. destruct (op_power op); try exact (rule_same _ _ H); (apply psame_pbind; [exact (rule_same _ _ H)|]); intros node i1 H1;
    (apply psame_bind; [exact (scripts_same _ _ H1)|]; intros a i' H'; exact (psame_some _ H')).
Qed.
Lemma iter_same ops i : Good (snd i) -> psame (parse_iter g1 rec1 ops i) (parse_iter g2 rec2 ops i).
Proof.
  intros H. induction ops as [|op ops IH]; cbn [parse_iter]; [apply psame_none|].
  apply (psame_else (f1 := fun '(n, i') => Ok (Some ((n, op), i'))) (f2 := fun '(n, i') => Ok (Some ((n, op), i')))); [exact (op_same _ H)| |exact IH].
  intros a i' H'. exact (psame_some _ H').
Qed.
Lemma choice_same rules i : Good (snd i) -> psame (parse_choice g1 rec1 rules i) (parse_choice g2 rec2 rules i).
Proof.
  intros H. induction rules as [|[name t] rules IH]; cbn [parse_choice]; [apply psame_none|].
  apply (psame_else (f1 := fun x => Ok (Some x)) (f2 := fun x => Ok (Some x))); [exact (rule_same _ _ H)| |exact IH]. intros a i' H'. exact (psame_some _ H').
Qed.
End Rec.

(** The lists of rules may differ if that makes no difference on good rows. *)
Hypothesis prefix_agree : forall rec i, Good (snd i) -> parse_iter g2 rec (prefix_ops g1) i = parse_iter g2 rec (prefix_ops g2) i.
Hypothesis infix_agree : forall rec i, Good (snd i) -> parse_iter g2 rec (infix_ops g1) i = parse_iter g2 rec (infix_ops g2) i.
Hypothesis postfix_agree : forall rec i, Good (snd i) -> parse_iter g2 rec (postfix_ops g1) i = parse_iter g2 rec (postfix_ops g2) i.
Hypothesis atom_agree : forall rec i, Good (snd i) -> parse_choice g2 rec (atom_rules g1) i = parse_choice g2 rec (atom_rules g2) i.

Section Rec.
Variables rec1 rec2 : Power -> Ending -> Input -> Res (PrattResult * Input).
Hypothesis rec_same : forall min e i, Good (snd i) -> same (rec1 min e i) (rec2 min e i).
Lemma prefix_same i : Good (snd i) -> psame (parse_prefix g1 rec1 i) (parse_prefix g2 rec2 i).
Proof. intros H. unfold parse_prefix. rewrite <- (prefix_agree rec2 H). exact (iter_same rec_same _ H). Qed.
Lemma infix_same i : Good (snd i) -> psame (parse_infix g1 rec1 i) (parse_infix g2 rec2 i).
Proof. intros H. unfold parse_infix. rewrite <- (infix_agree rec2 H). exact (iter_same rec_same _ H). Qed.
Lemma postfix_same i : Good (snd i) -> psame (parse_postfix g1 rec1 i) (parse_postfix g2 rec2 i).
Proof. intros H. unfold parse_postfix. rewrite <- (postfix_agree rec2 H). exact (iter_same rec_same _ H). Qed.
Lemma atom_same i : Good (snd i) -> psame (parse_atom g1 rec1 i) (parse_atom g2 rec2 i).
Proof. intros H. unfold parse_atom. rewrite <- (atom_agree rec2 H). exact (choice_same rec_same _ H). Qed.
Lemma can_same A (p1 p2 : Input -> PRes A) i : psame (p1 i) (p2 i) -> can_parse p1 i = can_parse p2 i.
Proof. intros [E _]. unfold can_parse. now rewrite E. Qed.
Lemma unknown_loop_same e l : forall node pos, Good l -> same (unknown_loop g1 rec1 e node pos l) (unknown_loop g2 rec2 e node pos l).
Proof.
  induction l as [|n r IH]; intros node pos H; cbn [unknown_loop];
    rewrite (can_same (prefix_same (i := (pos, _)) H)), (can_same (atom_same (i := (pos, _)) H)), (can_same (infix_same (i := (pos, _)) H)), (can_same (postfix_same (i := (pos, _)) H));
    apply same_free; intros []; try exact (same_ok _ (i := (pos, _)) H); [apply same_panic|].
  apply same_free. intros next. apply same_free. intros node'. exact (IH _ _ (good_tail H)).
Qed.
Lemma unknown_same e i : Good (snd i) -> same (parse_unknown g1 rec1 e i) (parse_unknown g2 rec2 e i).
Proof. intros H. unfold parse_unknown. destruct (snd i) as [|n r]; [apply same_panic|]. apply same_free. intros node. exact (unknown_loop_same _ _ _ (good_tail H)). Qed.
Lemma first_same e i : Good (snd i) -> same (pratt_first g1 rec1 e i) (pratt_first g2 rec2 e i).
Proof.
  intros H. unfold pratt_first. destruct (at_end i); [apply same_free; intros n; exact (same_ok _ H)|].
  apply (same_else (f1 := fun '((value, op), i1) => ' ((ended, rhs), i2) <- rec1 (strength_right (op_power op)) e i1 ;; n <- build_prefix (op_name op) value rhs ;; Ok ((ended, n), i2))
                   (f2 := fun '((value, op), i1) => ' ((ended, rhs), i2) <- rec2 (strength_right (op_power op)) e i1 ;; n <- build_prefix (op_name op) value rhs ;; Ok ((ended, n), i2))); [exact (prefix_same H)| |].
  - intros [value op] i1 H1. apply same_bind; [apply rec_same, H1|]. intros [ended rhs] i2 H2. cbn beta iota. apply same_free. intros n. exact (same_ok _ H2).
  - apply (same_else (f1 := fun '(n, i1) => Ok ((false, n), i1)) (f2 := fun '(n, i1) => Ok ((false, n), i1))); [exact (atom_same H)|intros n i1 H1; exact (same_ok _ H1)|].
    rewrite (can_same (infix_same H)), (can_same (postfix_same H)). apply same_free. intros []; [apply same_free; intros n; exact (same_ok _ H)|].
    destruct (is_at_end e i); [apply same_free; intros n; exact (same_ok _ H)|]. apply same_bind; [exact (unknown_same _ H)|]. intros n i1 H1. exact (same_ok _ H1).
Qed.
Lemma loop_same fuel : forall min e lhs i, Good (snd i) -> same (pratt_loop g1 rec1 fuel min e lhs i) (pratt_loop g2 rec2 fuel min e lhs i).
Proof.
  induction fuel as [|fuel IH]; intros min e lhs i H; cbn [pratt_loop]; [apply same_panic|]. destruct (at_end i); [exact (same_ok _ H)|].
  apply (same_else (f1 := fun '((value, op), i1) => if power_ltb (strength_left (op_power op)) min then Ok ((false, lhs), i) else
              ' ((ended, rhs), i2) <- rec1 (strength_right (op_power op)) e i1 ;; n <- build_infix (op_name op) value lhs rhs ;; if ended : bool then Ok ((true, n), i2) else pratt_loop g1 rec1 fuel min e n i2)
          (f2 := fun '((value, op), i1) => if power_ltb (strength_left (op_power op)) min then Ok ((false, lhs), i) else
              ' ((ended, rhs), i2) <- rec2 (strength_right (op_power op)) e i1 ;; n <- build_infix (op_name op) value lhs rhs ;; if ended : bool then Ok ((true, n), i2) else pratt_loop g2 rec2 fuel min e n i2)); [exact (infix_same H)| |].
  { intros [value op] i1 H1. cbn beta iota. destruct (power_ltb _ _); [exact (same_ok _ H)|]. apply same_bind; [apply rec_same, H1|]. intros [ended rhs] i2 H2. cbn beta iota. apply same_free. intros n.
    destruct ended; [exact (same_ok _ H2)|exact (IH _ _ _ _ H2)]. }
  apply (same_else (f1 := fun '((value, op), i1) => if power_ltb (strength_left (op_power op)) min then Ok ((false, lhs), i) else n <- build_postfix (op_name op) value lhs ;; pratt_loop g1 rec1 fuel min e n i1)
          (f2 := fun '((value, op), i1) => if power_ltb (strength_left (op_power op)) min then Ok ((false, lhs), i) else n <- build_postfix (op_name op) value lhs ;; pratt_loop g2 rec2 fuel min e n i1)); [exact (postfix_same H)| |].
  { intros [value op] i1 H1. cbn beta iota. destruct (power_ltb _ _); [exact (same_ok _ H)|]. apply same_free. intros n. exact (IH _ _ _ _ H1). }
  rewrite (can_same (prefix_same H)), (can_same (atom_same H)). apply same_free. intros [].
  - destruct (power_ltb _ _); [exact (same_ok _ H)|]. apply same_bind; [apply rec_same, H|]. intros [ended rhs] i2 H2. cbn beta iota. apply same_free. intros n. destruct ended; [exact (same_ok _ H2)|exact (IH _ _ _ _ H2)].
  - destruct (is_at_end e i); [exact (same_ok _ H)|]. apply same_bind; [exact (unknown_same _ H)|]. intros rhs i1 H1. apply same_free. intros n. exact (IH _ _ _ _ H1).
Qed.
Lemma step_same min e i : Good (snd i) -> same (pratt_step g1 rec1 min e i) (pratt_step g2 rec2 min e i).
Proof.
  intros H. unfold pratt_step. apply same_bind; [exact (first_same _ H)|]. intros [ended lhs] i1 H1. cbn beta iota. destruct ended; [exact (same_ok _ H1)|exact (loop_same _ _ _ _ H1)].
Qed.
End Rec.
Lemma pratt_same fuel : forall min e i, Good (snd i) -> same (pratt_parse g1 fuel min e i) (pratt_parse g2 fuel min e i).
Proof. induction fuel as [|fuel IH]; intros min e i H; cbn [pratt_parse]; [apply same_panic|]. exact (step_same IH _ _ H). Qed.
Theorem parse_same doc : Good doc -> parse g1 doc = parse g2 doc.
Proof. intros H. unfold parse. apply row_same; [|exact H]. apply pratt_same. Qed.
End Agree.

(** * Rules that do not begin at a place *)
(** The row without the spaces at its start *)
Fixpoint trim (row : InputRow) : InputRow :=
  match row with
  | Symbol s :: r => if str_eqb s (lit " ") then trim r else row
  | _ => row
  end.
Lemma trim_suffix row : exists a, row = a ++ trim row.
Proof.
  induction row as [|[v c|s] r (a&IH)]; cbn [trim]; [exists []; reflexivity|exists []; reflexivity|]. destruct (str_eqb s (lit " ")); [|exists []; reflexivity].
  exists (Symbol s :: a). cbn. now rewrite <- IH.
Qed.
Lemma take_trim pos row : exists l k, take_symbols (fun s => str_eqb s (lit " ")) pos row = (l, (pos + k, trim row)).
Proof.
  revert pos. induction row as [|[v c|s] r IH]; intros pos; cbn [take_symbols trim]; try (exists [], 0; now rewrite Nat.add_0_r).
  destruct (str_eqb s (lit " ")); [|exists [], 0; now rewrite Nat.add_0_r]. destruct (IH (S pos)) as (l&k&->). exists (s :: l), (S k). now rewrite Nat.add_succ_r.
Qed.
Lemma spaces_trim i : exists o p, parse_spaces i = Ok (o, (p, trim (snd i))).
Proof.
  unfold parse_spaces, repeat_symbols. destruct (take_trim (fst i) (snd i)) as (l&k&->). destruct l as [|s l]; [eauto|]. unfold syntax_node_new. cbn. eauto.
Qed.
Lemma justs_none l : forall i, begins_with l (snd i) = false -> just_symbols l i = None.
Proof.
  induction l as [|s l IH]; intros i H; cbn in *; [discriminate|]. unfold just_symbol. destruct (snd i) as [|[v c|t] r]; try reflexivity. destruct (str_eqb t s); [|reflexivity]. cbn in H.
  rewrite (IH (S (fst i), r) H). reflexivity.
Qed.
Lemma just_none s i : begins_with [s] (snd i) = false -> just_symbol s i = None.
Proof. unfold just_symbol. cbn. destruct (snd i) as [|[v c|t] r]; try reflexivity. destruct (str_eqb t s); [discriminate|reflexivity]. Qed.

Section None.
Variables xs xc : N -> bool.
Variable g : Grammar.
Hypothesis start_xs : g_xid_start g = xs.
Hypothesis continue_xc : g_xid_continue g = xc.
Variable rec : Power -> Ending -> Input -> Res (PrattResult * Input).
Lemma token_none t i : begins xs xc t (snd i) = false -> parse_token g rec t i = Ok None.
Proof.
  destruct t; cbn [begins parse_token]; intros H.
  - now rewrite (justs_none H).
  - destruct (snd i) as [|[v' c|s] r]; try reflexivity. now rewrite H.
  - now rewrite (just_none H).
  - now rewrite (just_none H).
  - unfold parse_number, repeat_symbols. destruct (snd i) as [|[v c|s] r]; try reflexivity. cbn [take_symbols]. unfold is_digits at 1. now rewrite H.
  - unfold parse_variable, select_symbol. destruct (snd i) as [|[v c|[|c s]] r]; try reflexivity. cbn [is_identifier_start]. now rewrite start_xs, continue_xc, H.
  - unfold parse_string. change (lit """") with [34%N]. now rewrite (just_none H).
Qed.
Lemma rule_none name t i : begins xs xc t (trim (snd i)) = false -> parse_rule g rec name t i = Ok None.
Proof. intros H. unfold parse_rule. destruct (spaces_trim i) as (o&p&->). cbn [bind]. unfold pbind. rewrite (token_none (i := (p, trim (snd i))) H). reflexivity. Qed.
Lemma op_none op i : begins xs xc (op_token op) (trim (snd i)) = false -> parse_op g rec op i = Ok None.
Proof. intros H. unfold parse_op. destruct (op_power op); now rewrite (rule_none _ H). Qed.
Lemma iter_none ops i : (forall op, In op ops -> begins xs xc (op_token op) (trim (snd i)) = false) -> parse_iter g rec ops i = Ok None.
Proof. induction ops as [|op ops IH]; intros H; [reflexivity|]. cbn [parse_iter]. rewrite (op_none (H op (or_introl eq_refl))). apply IH. intros op' Ho. apply H. now right. Qed.
Lemma choice_none rules i : (forall name t, In (name, t) rules -> begins xs xc t (trim (snd i)) = false) -> parse_choice g rec rules i = Ok None.
Proof.
  induction rules as [|[name t] rules IH]; intros H; [reflexivity|]. cbn [parse_choice]. rewrite (rule_none _ (H name t (or_introl eq_refl))). apply IH. intros name' t' Ho. apply (H name' t'). now right.
Qed.
End None.

(** * First results of several modules *)
Section First.
Variable A : Type.
Variable P : Module -> Res (option A).
Fixpoint first_of (ms : list Module) : Res (option A) :=
  match ms with
  | [] => Ok None
  | m :: ms => r <- P m ;; match r with Some x => Ok (Some x) | None => first_of ms end
  end.
Lemma first_none ms : (forall m, In m ms -> P m = Ok None) -> first_of ms = Ok None.
Proof. induction ms as [|m ms IH]; intros H; [reflexivity|]. cbn. rewrite (H m (or_introl eq_refl)). apply IH. intros m' Hm. apply H. now right. Qed.
Lemma quiet_dec m : P m = Ok None \/ P m <> Ok None.
Proof. destruct (P m) as [[x|]|p]; [right; discriminate|now left|right; discriminate]. Qed.
Hypothesis alone : forall m m', m <> m' -> P m = Ok None \/ P m' = Ok None.
Lemma module_dec (m m' : Module) : {m = m'} + {m <> m'}.
Proof. decide equality. Qed.
Lemma first_some m ms : In m ms -> P m <> Ok None -> first_of ms = P m.
Proof.
  intros Hm Hp. induction ms as [|m' ms IH]; [destruct Hm|]. cbn. destruct (module_dec m m') as [<-|D].
  - destruct (P m) as [[x|]|p]; [reflexivity|congruence|reflexivity].
  - destruct (alone D) as [E|E]; [congruence|]. rewrite E. cbn. apply IH. destruct Hm; [congruence|assumption].
Qed.
Lemma first_same_set ms ms' : (forall m, P m = Ok None \/ (In m ms <-> In m ms')) -> first_of ms = first_of ms'.
Proof.
  intros H. assert (D : (forall m, In m ms -> P m = Ok None) \/ exists m, In m ms /\ P m <> Ok None).
  { clear H alone. induction ms as [|m ms [IH|(m'&Hm&Hp)]]; [left; intros m []| |right; exists m'; split; [now right|assumption]].
    destruct (quiet_dec m) as [E|E]; [left; intros m' [<-|Hm]; auto|right; exists m; split; [now left|assumption]]. }
  destruct D as [N|(m&Hm&Hp)].
  - rewrite (first_none N). symmetry. apply first_none. intros m Hm. destruct (H m) as [E|E]; [exact E|]. apply N, E, Hm.
  - rewrite (first_some Hm Hp). destruct (H m) as [E|E]; [congruence|]. symmetry. apply first_some; [now apply E|exact Hp].
Qed.
End First.
Lemma first_of_rev_set ms ms' : (forall m : Module, In m ms <-> In m ms') -> forall m, In m (rev ms) <-> In m (rev ms').
Proof. intros H m. rewrite <- !in_rev. apply H. Qed.

(** * The lists of rules of a collection *)
Lemma rev_flat_map A B (f : A -> list B) l : rev (flat_map f l) = flat_map (fun a => rev (f a)) (rev l).
Proof.
  induction l as [|a l IH]; [reflexivity|]. cbn. rewrite rev_app_distr, IH, flat_map_app. cbn. now rewrite app_nil_r.
Qed.
Lemma flat_flat A B C (f : A -> list B) (h : B -> list C) l : flat_map h (flat_map f l) = flat_map (fun a => flat_map h (f a)) l.
Proof. induction l as [|a l IH]; [reflexivity|]. cbn. now rewrite flat_map_app, IH. Qed.
Lemma iter_app g rec a b i : parse_iter g rec (a ++ b) i = (r <- parse_iter g rec a i ;; match r with Some x => Ok (Some x) | None => parse_iter g rec b i end).
Proof.
  induction a as [|op a IH]; [reflexivity|]. cbn [parse_iter app]. destruct (parse_op g rec op i) as [[[n i']|]|p]; cbn [bind]; auto.
Qed.
Lemma choice_app g rec a b i : parse_choice g rec (a ++ b) i = (r <- parse_choice g rec a i ;; match r with Some x => Ok (Some x) | None => parse_choice g rec b i end).
Proof.
  induction a as [|[name t] a IH]; [reflexivity|]. cbn [parse_choice app]. destruct (parse_rule g rec name t i) as [[x|]|p]; cbn [bind]; auto.
Qed.
Lemma iter_modules g rec (F : Module -> list OpParser) ms i : parse_iter g rec (flat_map F ms) i = first_of (fun m => parse_iter g rec (F m) i) ms.
Proof.
  induction ms as [|m ms IH]; [reflexivity|]. cbn [flat_map first_of]. rewrite iter_app, IH. reflexivity.
Qed.
Lemma choice_modules g rec F ms i : parse_choice g rec (flat_map F ms) i = first_of (fun m => parse_choice g rec (F m) i) ms.
Proof.
  induction ms as [|m ms IH]; [reflexivity|]. cbn [flat_map first_of]. rewrite choice_app, IH. reflexivity.
Qed.

(** ** Different modules look for different things *)
Section Letters.
Variables xs xc : N -> bool.
Hypothesis letters : plain_letters xs.
Definition is_digit (c : N) : bool := ((48 <=? c) && (c <=? 57))%N.
(** Not a letter *)
Definition other_char (c : N) : bool := is_digit c || (c =? 40)%N || (c =? 34)%N || (c =? 8734)%N || (c =? 8868)%N || (c =? 8869)%N.
Lemma other_char_ok c : other_char c = true -> xs c = false.
Proof.
  destruct letters as (Hd&H1&H2&H3&H4&H5). unfold other_char, is_digit. intros H. repeat (apply orb_prop in H as [H|H]); try (apply N.eqb_eq in H; subst; assumption).
  apply andb_prop in H as [A B]. auto.
Qed.
(** The first symbol *)
Definition head_symbol (t : TokenParser) : option str :=
  match t with
  | TSymbols (s :: _) _ => Some s
  | TBrackets a _ | TEmptyBrackets a _ => Some a
  | TString => Some [34%N]
  | _ => None
  end.
Definition apart1 (t t' : TokenParser) : bool :=
  match head_symbol t, head_symbol t' with
  | Some a, Some b => negb (str_eqb a b)
  | Some a, None => match t' with TNumber => negb (forallb is_digit a) | TVariable => match a with c :: _ => other_char c | [] => true end | TContainer _ => true | _ => false end
  | None, None => match t, t' with TContainer v, TContainer w => negb (variant_eqb v w) | TContainer _, (TNumber | TVariable) => true | TNumber, TVariable => true | _, _ => false end
  | None, Some _ => false
  end.
Definition apart t t' := apart1 t t' || apart1 t' t.
Lemma begins_head t a row : head_symbol t = Some a -> begins xs xc t row = true -> exists r, row = Symbol a :: r.
Proof.
  intros Ht H. assert (B : begins_with [a] row = true).
  { destruct t as [[|s l] ty|v|x y|x y| | |]; cbn in Ht; try discriminate; injection Ht as <-; cbn in *; try exact H.
    destruct row as [|[v c|t] r]; try discriminate. now apply andb_prop in H as [-> _]. }
  cbn in B. destruct row as [|[v c|t'] r]; try discriminate. rewrite andb_true_r in B. apply str_eqb_eq in B. subst. eauto.
Qed.
Lemma variant_eqb_eq a b : variant_eqb a b = true -> a = b.
Proof. destruct a, b; cbn; congruence. Qed.
Lemma apart1_ok t t' row : apart1 t t' = true -> begins xs xc t row = true -> begins xs xc t' row = true -> False.
Proof.
  unfold apart1. intros H B B'. destruct (head_symbol t) as [a|] eqn:E.
  - destruct (begins_head E B) as (r&->). destruct (head_symbol t') as [b|] eqn:E'.
    + destruct (begins_head E' B') as (r'&R). injection R as <- <-. assert (X : str_eqb a a = true) by now apply str_eqb_eq. rewrite X in H. discriminate.
    + destruct t'; try discriminate; cbn in B'.
      * unfold is_digit in H. rewrite B' in H. discriminate.
      * destruct a as [|c a]; [discriminate|]. rewrite (other_char_ok H) in B'. discriminate.
  - destruct (head_symbol t') as [b|] eqn:E'; [discriminate|]. destruct t, t'; try discriminate; cbn in B, B'; destruct row as [|[u c|[|c s]] r]; try discriminate.
    + apply variant_eqb_eq in B, B'. rewrite <- B, <- B' in H. destruct u; discriminate.
    + cbn in B. apply andb_prop in B as [B _]. apply andb_prop in B' as [B' _]. rewrite other_char_ok in B'; [discriminate|]. unfold other_char, is_digit. now rewrite B.
Qed.
Lemma apart_ok t t' row : apart t t' = true -> begins xs xc t row = true -> begins xs xc t' row = false.
Proof.
  intros H B. destruct (begins xs xc t' row) eqn:B'; [|reflexivity]. exfalso. unfold apart in H. apply orb_prop in H as [H|H]; [exact (apart1_ok H B B')|exact (apart1_ok H B' B)].
Qed.
Definition modules_apart (f : ParseRule -> option TokenParser) (m m' : Module) : bool :=
  forallb (fun r => match f r with Some t => forallb (fun r' => match f r' with Some t' => apart t t' | None => true end) (module_rules m') | None => true end) (module_rules m).
End Letters.
Definition prefix_token (r : ParseRule) := match r with RPrefix _ _ t => Some t | _ => None end.
Definition infix_token (r : ParseRule) := match r with RLeftInfix _ _ t | RRightInfix _ _ t => Some t | _ => None end.
Definition postfix_token (r : ParseRule) := match r with RPostfix _ _ t => Some t | _ => None end.
Definition atom_token (r : ParseRule) := match r with RAtom _ t => Some t | _ => None end.
Lemma default_apart m m' : m <> m' -> modules_apart prefix_token m m' = true /\ modules_apart infix_token m m' = true /\ modules_apart postfix_token m m' = true /\ modules_apart atom_token m m' = true.
Proof. intros H. destruct m, m'; try congruence; clear H; vm_compute; auto. Qed.
Lemma modules_apart_ok xs xc f m m' row : plain_letters xs -> modules_apart f m m' = true ->
  (forall r t, In r (module_rules m) -> f r = Some t -> begins xs xc t row = false) \/ (forall r t, In r (module_rules m') -> f r = Some t -> begins xs xc t row = false).
Proof.
  intros L H. unfold modules_apart in H. rewrite forallb_forall in H.
  assert (D : (forall r t, In r (module_rules m) -> f r = Some t -> begins xs xc t row = false) \/ exists r t, In r (module_rules m) /\ f r = Some t /\ begins xs xc t row = true).
  { clear H. induction (module_rules m) as [|r l [IH|(r'&t&Hr&Ht&B)]]; [left; intros r t []| |right; exists r', t; split; [now right|auto]].
    destruct (f r) as [t|] eqn:E; [|left; intros r' t' [<-|Hr] Ht; [congruence|eauto]].
    destruct (begins xs xc t row) eqn:B; [right; exists r, t; split; [now left|auto]|left; intros r' t' [<-|Hr] Ht; [congruence|eauto]]. }
  destruct D as [D|(r&t&Hr&Ht&B)]; [now left|right]. intros r' t' Hr' Ht'. specialize (H r Hr). rewrite Ht, forallb_forall in H. specialize (H r' Hr'). rewrite Ht' in H.
  exact (apart_ok L H B).
Qed.

(** * Only the set of the modules that occur matters *)
Section Set_.
Variables xs xc : N -> bool.
Hypothesis letters : plain_letters xs.
Variables ms ms' : list Module.
Notation g1 := (collection_grammar xs xc ms).
Notation g2 := (collection_grammar xs xc ms').
(** Nothing of a module that only one of them has *)
Definition unused (row : InputRow) : Prop := forall m, (In m ms <-> In m ms') \/ everywhere (absent xs xc m) row.
Lemma absent_tail m n r : absent xs xc m (n :: r) -> absent xs xc m r.
Proof. intros H rule t a b Hr Ht ->. exact (H rule t (n :: a) b Hr Ht eq_refl). Qed.
Lemma everywhere_tail m n r : everywhere (absent xs xc m) (n :: r) -> everywhere (absent xs xc m) r.
Proof.
  intros H p row E. destruct p as [|[k j] p]; cbn in E.
  - injection E as <-. refine (absent_tail (H [] (n :: r) eq_refl)).
  - exact (H ((S k, j) :: p) row E).
Qed.
Lemma unused_tail n r : unused (n :: r) -> unused r.
Proof. intros H m. destruct (H m) as [E|E]; [now left|right; exact (everywhere_tail E)]. Qed.
Lemma unused_cell v c r cell : unused (Container v c :: r) -> In cell (gvalues c) -> unused cell.
Proof.
  intros H Hc m. destruct (H m) as [E|E]; [now left|right]. apply In_nth_error in Hc as (j&Hj). intros p row Ep. apply (E ((0, j) :: p) row). cbn. now rewrite Hj.
Qed.
Lemma quiet_rules (f : ParseRule -> option TokenParser) m row : (forall r t, f r = Some t -> rule_token r = Some t) -> everywhere (absent xs xc m) row ->
  forall r t, In r (module_rules m) -> f r = Some t -> begins xs xc t (trim row) = false.
Proof. intros F H r t Hr Ht. destruct (trim_suffix row) as (a&Ea). exact (H [] row eq_refl r t a (trim row) Hr (F r t Ht) Ea). Qed.

Lemma ops_modules (h : ParseRule -> option OpParser) l : g_ops h (collection_grammar xs xc l) = flat_map (fun m => flat_map (fun r => match h r with Some op => [op] | None => [] end) (rev (module_rules m))) (rev l).
Proof. unfold g_ops. cbn [g_rules collection_grammar]. rewrite rev_flat_map, flat_flat. reflexivity. Qed.
Lemma iter_agree rec i (h : ParseRule -> option OpParser) (f : ParseRule -> option TokenParser) :
  (forall r op, h r = Some op -> f r = Some (op_token op)) -> (forall r t, f r = Some t -> rule_token r = Some t) ->
  (forall m m', m <> m' -> modules_apart f m m' = true) -> unused (snd i) ->
  parse_iter g2 rec (g_ops h g1) i = parse_iter g2 rec (g_ops h g2) i.
Proof.
  intros Hh Hf Ha H. rewrite !ops_modules, !iter_modules.
  assert (N : forall m, (forall r t, In r (module_rules m) -> f r = Some t -> begins xs xc t (trim (snd i)) = false) ->
     parse_iter g2 rec (flat_map (fun r => match h r with Some op => [op] | None => [] end) (rev (module_rules m))) i = Ok None).
  { intros m B. apply (@iter_none xs xc g2 eq_refl eq_refl). intros op Ho. apply in_flat_map in Ho as (r&Hr&Ho). apply in_rev in Hr. destruct (h r) as [op'|] eqn:Er; [|destruct Ho].
    destruct Ho as [->|[]]. exact (B r _ Hr (Hh r op Er)). }
  apply first_same_set.
  - intros m m' D. destruct (modules_apart_ok xc (trim (snd i)) letters (Ha m m' D)) as [B|B]; [left|right]; apply N, B.
  - intros m. destruct (H m) as [E|E]; [right; now rewrite <- !in_rev|left]. apply N. exact (quiet_rules Hf E).
Qed.
Lemma choice_agree rec i : unused (snd i) -> parse_choice g2 rec (atom_rules g1) i = parse_choice g2 rec (atom_rules g2) i.
Proof.
  intros H. unfold atom_rules. cbn [g_rules collection_grammar]. rewrite !rev_flat_map, !flat_flat, !choice_modules.
  assert (N : forall m, (forall r t, In r (module_rules m) -> atom_token r = Some t -> begins xs xc t (trim (snd i)) = false) ->
     parse_choice g2 rec (flat_map (fun r => match r with RAtom n t => [(n, t)] | _ => [] end) (rev (module_rules m))) i = Ok None).
  { intros m B. apply (@choice_none xs xc g2 eq_refl eq_refl). intros name t Ho. apply in_flat_map in Ho as (r&Hr&Ho). apply in_rev in Hr. destruct r; try (now destruct Ho).
    destruct Ho as [E|[]]. injection E as <- <-. exact (B _ _ Hr eq_refl). }
  apply first_same_set.
  - intros m m' D. destruct (default_apart D) as (_&_&_&Ha). destruct (modules_apart_ok xc (trim (snd i)) letters Ha) as [B|B]; [left|right]; apply N, B.
  - intros m. destruct (H m) as [E|E]; [right; now rewrite <- !in_rev|left]. apply N. refine (quiet_rules _ E). intros r t Hr. destruct r; try discriminate. exact Hr.
Qed.
Theorem parse_used doc : (forall m, (In m ms <-> In m ms') \/ everywhere (absent xs xc m) doc) -> parse g1 doc = parse g2 doc.
Proof.
  intros H. apply (@parse_same g1 g2 unused unused_tail unused_cell eq_refl eq_refl); [| | | |exact H].
  - intros rec i Hi. apply (@iter_agree rec i _ prefix_token); [| |intros m m' D; now destruct (default_apart D)|exact Hi].
    + intros r op E. destruct r; try discriminate. now injection E as <-.
    + intros r t E. destruct r; try discriminate. exact E.
  - intros rec i Hi. apply (@iter_agree rec i _ infix_token); [| |intros m m' D; now destruct (default_apart D) as (_&?&_)|exact Hi].
    + intros r op E. destruct r; try discriminate; now injection E as <-.
    + intros r t E. destruct r; try discriminate; exact E.
  - intros rec i Hi. apply (@iter_agree rec i _ postfix_token); [| |intros m m' D; now destruct (default_apart D) as (_&_&?&_)|exact Hi].
    + intros r op E. destruct r; try discriminate. now injection E as <-.
    + intros r t E. destruct r; try discriminate. exact E.
  - intros rec i Hi. apply choice_agree, Hi.
Qed.
End Set_.
