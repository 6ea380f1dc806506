(** Counting the calls of the parser. *)
From Coq Require Import String.
From Verif Require Import Base Str Grid Node Autocomplete NameMap Syntax Pratt Grammar Cost Spec SpecSyntax BaseFacts ParseFacts ParseTotal GrammarFacts.
Open Scope list_scope.
Open Scope nat_scope.
Set Implicit Arguments.
Unset Strict Implicit.

(** ** The results are those of the parser *)
Lemma snd_cbind A B (m : Counted A) (f : A -> Counted B) : snd (cbind m f) = (a <- snd m ;; snd (f a)).
Proof. destruct m as [n [a|p]]; [|reflexivity]. cbn. destruct (f a). reflexivity. Qed.
Lemma snd_free A (r : Res A) : snd (free r) = r. Proof. reflexivity. Qed.
Lemma bind_ext A B (r : Res A) (f f' : A -> Res B) : (forall a, f a = f' a) -> bind r f = bind r f'.
Proof. intros H. destruct r; cbn; auto. Qed.
Lemma bind_ext2 A B (r r' : Res A) (f f' : A -> Res B) : r = r' -> (forall a, f a = f' a) -> bind r f = bind r' f'.
Proof. intros <-. apply bind_ext. Qed.
Lemma snd_cpbind A B (r : Counted (option (A * Input))) (f : A -> Input -> Counted (option (B * Input))) r' f' : snd r = r' -> (forall a i, snd (f a i) = f' a i) -> snd (cpbind r f) = pbind r' f'.
Proof. intros <- H. unfold cpbind, pbind. rewrite snd_cbind. apply bind_ext. intros [[a i]|]; auto. Qed.
Lemma snd_map A B (f : A -> Counted B) f' l : (forall a, snd (f a) = f' a) -> snd (cmap_res f l) = map_res f' l.
Proof.
  intros H. induction l as [|a l IH]; [reflexivity|]. cbn [cmap_res map_res]. rewrite snd_cbind, H. apply bind_ext. intros b. rewrite snd_cbind, IH. reflexivity.
Qed.
Section Step.
Variable g : Grammar.
Variable crec : Power -> Ending -> Input -> Counted (PrattResult * Input).
Variable rec : Power -> Ending -> Input -> Res (PrattResult * Input).
Hypothesis same : forall min e i, snd (crec min e i) = rec min e i.
Lemma snd_row row : snd (cparse_row_with crec row) = parse_row_with rec row.
Proof. unfold cparse_row_with, parse_row_with. rewrite snd_cbind, same. apply bind_ext. intros [[b n] i]. reflexivity. Qed.
Lemma snd_token t i : snd (cparse_token g crec t i) = parse_token g rec t i.
Proof.
  destruct t; try reflexivity; cbn [cparse_token parse_token].
  - destruct (snd i) as [|[v' c|s] r]; try reflexivity. destruct (variant_eqb v' v); [|reflexivity]. rewrite snd_cbind, (@snd_map _ _ _ (parse_row_with rec)) by apply snd_row. reflexivity.
  - destruct (just_symbol starting i) as [[l i1]|]; [|reflexivity]. rewrite snd_cbind, same. apply bind_ext. intros [[b child] i2]. reflexivity.
Qed.
Lemma snd_rule name t i : snd (cparse_rule g crec name t i) = parse_rule g rec name t i.
Proof. unfold cparse_rule, parse_rule. rewrite snd_cbind. apply bind_ext. intros [before i1]. apply snd_cpbind; [apply snd_token|]. intros. reflexivity. Qed.
Lemma snd_script v i : snd (cparse_script g crec v i) = parse_script g rec v i.
Proof. unfold cparse_script, parse_script. apply snd_cpbind; [apply snd_token|]. intros. reflexivity. Qed.
Lemma snd_scripts fuel : forall node i, snd (cparse_scripts g crec fuel node i) = parse_scripts g rec fuel node i.
Proof.
  induction fuel as [|fuel IH]; intros node i; [reflexivity|]. cbn [cparse_scripts parse_scripts]. rewrite snd_cbind, snd_script. apply bind_ext. intros [[op i']|].
  - rewrite snd_cbind, snd_free. apply bind_ext. intros n. apply IH.
  - rewrite snd_cbind, snd_script. apply bind_ext. intros [[op i']|]; [|reflexivity]. rewrite snd_cbind, snd_free. apply bind_ext. intros n. apply IH.
Qed.
Lemma snd_op op i : snd (cparse_op g crec op i) = parse_op g rec op i.
Proof.
  unfold cparse_op, parse_op. destruct (op_power op); try apply snd_rule; (apply snd_cpbind; [apply snd_rule|]); intros node i1; rewrite snd_cbind, snd_scripts; reflexivity.
Qed.
Lemma snd_iter ops i : snd (cparse_iter g crec ops i) = parse_iter g rec ops i.
Proof. induction ops as [|op ops IH]; [reflexivity|]. cbn [cparse_iter parse_iter]. rewrite snd_cbind, snd_op. apply bind_ext. intros [[n i']|]; [reflexivity|exact IH]. Qed.
Lemma snd_choice rules i : snd (cparse_choice g crec rules i) = parse_choice g rec rules i.
Proof. induction rules as [|[name t] rules IH]; [reflexivity|]. cbn [cparse_choice parse_choice]. rewrite snd_cbind, snd_rule. apply bind_ext. intros [x|]; [reflexivity|exact IH]. Qed.
(** ** Looking ahead: what can be checked is what can be parsed, with at most as many calls *)
Lemma skip_spaces_ok i o i' : parse_spaces i = Ok (o, i') -> skip_spaces i = i'.
Proof.
  unfold parse_spaces, skip_spaces. destruct (repeat_symbols _ i) as [[|s l] j]; intros H; [now injection H as _ <-|]. apply bind_ok in H as (n&_&H). injection H as _ <-. reflexivity.
Qed.
Definition checks A (c : Counted bool) (p : Counted (option A)) : Prop := forall o, snd p = Ok o -> snd c = Ok (is_some o) /\ fst c <= fst p.
Lemma fst_then A B (m : Counted A) (f : A -> Counted B) : fst m <= fst (cbind m f).
Proof. destruct m as [k [a|p]]; cbn; [|lia]. destruct (f a). cbn. lia. Qed.
Lemma can_token t i : checks (ccan_token g crec t i) (cparse_token g crec t i).
Proof.
  intros o H. destruct t; cbn [ccan_token cparse_token] in *; try (unfold free in *; cbn [fst snd] in *; rewrite H; cbn [bind]; split; [reflexivity|lia]).
  - destruct (snd i) as [|[v' c|s] r]; try (injection H as <-; split; [reflexivity|cbn; lia]). destruct (variant_eqb v' v); [|injection H as <-; split; [reflexivity|cbn; lia]].
    rewrite snd_cbind in H. apply bind_ok in H as (rows&_&H). cbn [free snd] in H. apply bind_ok in H as (w&_&H). apply bind_ok in H as (grid&_&H). injection H as <-. cbn. split; [reflexivity|lia].
  - destruct (just_symbol starting i) as [[l i1]|]; [|injection H as <-; split; [reflexivity|cbn; lia]]. rewrite snd_cbind in *. apply bind_ok in H as ([[b child] i2]&E&H). cbn [free snd] in H.
    rewrite E. cbn [bind]. split.
    + destruct (just_symbol ending i2) as [[r i3]|]; [|now injection H as <-]. apply bind_ok in H as (x&_&H). apply bind_ok in H as (y&_&H). now injection H as <-.
    + destruct (crec (0, Weak) (EndSymbol ending) i1) as [k r]. cbn [snd] in E. subst r. cbn. lia.
Qed.
Lemma can_rule name t i : checks (ccan_token g crec t (skip_spaces i)) (cparse_rule g crec name t i).
Proof.
  intros o H. unfold cparse_rule in *. rewrite snd_cbind in H. apply bind_ok in H as ([before i1]&E&H). cbn [free snd] in E. rewrite (skip_spaces_ok E). rewrite E. cbn [free cbind]. cbv beta iota in H.
  unfold cpbind in *. rewrite snd_cbind in H. apply bind_ok in H as (o1&E1&H). destruct (can_token E1) as [C1 C2]. rewrite C1. split.
  - destruct o1 as [[c i2]|]; [|now injection H as <-]. cbn [free snd] in H. apply bind_ok in H as (node&_&H). apply bind_ok in H as ([after i3]&_&H). apply bind_ok in H as (n&_&H). now injection H as <-.
  - match goal with |- context [cbind (cparse_token g crec t i1) ?f] => pose proof (fst_then (cparse_token g crec t i1) f) as F; destruct (cbind (cparse_token g crec t i1) f) end. cbn [fst] in *. lia.
Qed.
Lemma can_op op i : checks (ccan_token g crec (op_token op) (skip_spaces i)) (cparse_op g crec op i).
Proof.
  unfold cparse_op. assert (W : checks (ccan_token g crec (op_token op) (skip_spaces i)) (cpbind (cparse_rule g crec operator_rule_name (op_token op) i) (fun node i1 => r <+ cparse_scripts g crec (length (snd i1)) node i1 ;; free (Ok (Some r))))).
  { intros o H. unfold cpbind in *. rewrite snd_cbind in H. apply bind_ok in H as (o1&E1&H). destruct (can_rule E1) as [C1 C2]. rewrite C1. split; [|eapply Nat.le_trans; [exact C2|apply fst_then]].
    destruct o1 as [[n i1]|]; [|now injection H as <-]. rewrite snd_cbind in H. apply bind_ok in H as (r&_&H). now injection H as <-. }
  destruct (op_power op); try exact W. apply can_rule.
Qed.
Lemma can_or A (c1 c2 : Counted bool) (p1 : Counted (option A)) B (p2 : Counted B) (f : option A -> Counted B) (has : B -> bool) :
  checks c1 p1 -> (forall b, snd p2 = Ok b -> snd c2 = Ok (has b) /\ fst c2 <= fst p2) -> f None = p2 -> (forall a, exists b, f (Some a) = free (Ok b) /\ has b = true) ->
  forall b, snd (cbind p1 f) = Ok b -> snd (cor_else c1 c2) = Ok (has b) /\ fst (cor_else c1 c2) <= fst (cbind p1 f).
Proof.
  intros H1 H2 E2 Ef b H. rewrite snd_cbind in H. apply bind_ok in H as (o&E&H). destruct (H1 o E) as [C1 C2]. destruct c1 as [k1 r1], p1 as [k r]. cbn [fst snd] in *. subst r r1. unfold cor_else. cbn [cbind]. destruct o as [a|].
  - cbn [is_some]. destruct (Ef a) as (b'&E'&Hb). rewrite E' in *. cbn in *. injection H as <-. rewrite Hb. split; [reflexivity|lia].
  - cbn [is_some]. rewrite E2 in *. destruct (H2 b H) as [C3 C4]. destruct c2, p2. cbn [fst snd] in *. split; [exact C3|lia].
Qed.
Lemma can_iter ops i : checks (ccan_any g crec (map op_token ops) i) (cparse_iter g crec ops i).
Proof.
  induction ops as [|op ops IH]; [intros o H; injection H as <-; split; [reflexivity|cbn; lia]|]. cbn [map ccan_any cparse_iter].
  intros o. apply (can_or (@can_op op i) IH); [reflexivity|]. intros [n i']. eexists. split; reflexivity.
Qed.
Lemma can_choice rules i : checks (ccan_any g crec (map snd rules) i) (cparse_choice g crec rules i).
Proof.
  induction rules as [|[name t] rules IH]; [intros o H; injection H as <-; split; [reflexivity|cbn; lia]|]. cbn [map ccan_any cparse_choice snd].
  intros o. apply (can_or (@can_rule name t i) IH); [reflexivity|]. intros x. eexists. split; reflexivity.
Qed.
(** ** The parser *)
Lemma or_ok c1 c2 r1 r2 b : (forall b, r1 = Ok b -> snd c1 = Ok b) -> (forall b, r2 = Ok b -> snd c2 = Ok b) -> or_else r1 r2 = Ok b -> snd (cor_else c1 c2) = Ok b.
Proof.
  intros H1 H2 H. unfold or_else in H. apply bind_ok in H as (x&E&H). unfold cor_else. rewrite snd_cbind, (H1 x E). cbn [bind]. destruct x; [exact H|auto].
Qed.
Lemma can_some A (p : Input -> PRes A) i b : can_parse p i = Ok b -> exists o, p i = Ok o /\ b = is_some o.
Proof. unfold can_parse. intros H. apply bind_ok in H as (o&E&H). injection H as <-. exists o. now destruct o. Qed.
Lemma ccan_prefix_ok i b : can_parse (parse_prefix g rec) i = Ok b -> snd (ccan_prefix g crec i) = Ok b.
Proof. intros H. apply can_some in H as (o&E&->). apply (can_iter (ops := prefix_ops g)). rewrite snd_iter. exact E. Qed.
Lemma ccan_infix_ok i b : can_parse (parse_infix g rec) i = Ok b -> snd (ccan_infix g crec i) = Ok b.
Proof. intros H. apply can_some in H as (o&E&->). apply (can_iter (ops := infix_ops g)). rewrite snd_iter. exact E. Qed.
Lemma ccan_postfix_ok i b : can_parse (parse_postfix g rec) i = Ok b -> snd (ccan_postfix g crec i) = Ok b.
Proof. intros H. apply can_some in H as (o&E&->). apply (can_iter (ops := postfix_ops g)). rewrite snd_iter. exact E. Qed.
Lemma ccan_atom_ok i b : can_parse (parse_atom g rec) i = Ok b -> snd (ccan_atom g crec i) = Ok b.
Proof. intros H. apply can_some in H as (o&E&->). apply (can_choice (rules := atom_rules g)). rewrite snd_choice. exact E. Qed.
Ltac step E := match goal with H : bind _ _ = Ok _ |- _ => apply bind_ok in H as (?&E&H); rewrite snd_cbind end.
Lemma snd_unknown_loop e l : forall node pos r, unknown_loop g rec e node pos l = Ok r -> snd (cunknown_loop g crec e node pos l) = Ok r.
Proof.
  induction l as [|n l IH]; intros node pos r H; cbn [cunknown_loop unknown_loop] in *; apply bind_ok in H as (stop&E&H); rewrite snd_cbind.
  - cbn [is_at_end] in *. injection E as <-. exact H.
  - match goal with |- bind (snd ?c) _ = _ => assert (S : snd c = Ok stop) end.
    { destruct (is_at_end e (pos, n :: l)); [exact E|]. eapply or_ok; [apply ccan_prefix_ok| |exact E]. intros b. apply or_ok; [apply ccan_atom_ok|]. intros b'. apply or_ok; [apply ccan_infix_ok|apply ccan_postfix_ok]. }
    rewrite S. cbn [bind]. destruct stop; [exact H|]. apply bind_ok in H as (next&E1&H). rewrite snd_cbind, snd_free, E1. cbn [bind]. apply bind_ok in H as (node'&E2&H). rewrite snd_cbind, snd_free, E2. cbn [bind]. now apply IH.
Qed.
Lemma snd_unknown e i r : parse_unknown g rec e i = Ok r -> snd (cparse_unknown g crec e i) = Ok r.
Proof. unfold cparse_unknown, parse_unknown. destruct (snd i) as [|n l]; [easy|]. intros H. apply bind_ok in H as (node&E&H). rewrite snd_cbind, snd_free, E. cbn [bind]. now apply snd_unknown_loop. Qed.
Lemma snd_first e i r : pratt_first g rec e i = Ok r -> snd (cpratt_first g crec e i) = Ok r.
Proof.
  unfold cpratt_first, pratt_first. destruct (at_end i); [easy|]. intros H. apply bind_ok in H as (p&E&H). rewrite snd_cbind. unfold cparse_prefix. rewrite snd_iter. unfold parse_prefix in E. rewrite E. cbn [bind]. destruct p as [[[value op] i1]|].
  - apply bind_ok in H as ([[ended rhs] i2]&E2&H). rewrite snd_cbind, same, E2. exact H.
  - clear E. apply bind_ok in H as (a&E&H). rewrite snd_cbind. unfold cparse_atom. rewrite snd_choice. unfold parse_atom in E. rewrite E. cbn [bind]. destruct a as [[n i1]|]; [exact H|].
    clear E. apply bind_ok in H as (o&E&H). rewrite snd_cbind. rewrite (@or_ok _ _ _ _ o (@ccan_infix_ok i) (@ccan_postfix_ok i) E). cbn [bind]. destruct o; [exact H|].
    destruct (is_at_end e i); [exact H|]. apply bind_ok in H as ([n i1]&E1&H). rewrite snd_cbind, (snd_unknown E1). exact H.
Qed.
Lemma snd_loop fuel min e : forall lhs i r, pratt_loop g rec fuel min e lhs i = Ok r -> snd (cpratt_loop g crec fuel min e lhs i) = Ok r.
Proof.
  induction fuel as [|fuel IH]; intros lhs i r H; [discriminate H|]. cbn [cpratt_loop pratt_loop] in *. destruct (at_end i); [exact H|].
  apply bind_ok in H as (o&E&H). rewrite snd_cbind. unfold cparse_infix. rewrite snd_iter. unfold parse_infix in E. rewrite E. cbn [bind]. clear E. destruct o as [[[value op] i1]|].
  - destruct (power_ltb _ min); [exact H|]. apply bind_ok in H as ([[ended rhs] i2]&E&H). rewrite snd_cbind, same, E. cbn [bind]. apply bind_ok in H as (n&E2&H). rewrite snd_cbind, snd_free, E2. cbn [bind]. destruct ended; [exact H|now apply IH].
  - apply bind_ok in H as (o&E&H). rewrite snd_cbind. unfold cparse_postfix. rewrite snd_iter. unfold parse_postfix in E. rewrite E. cbn [bind]. clear E. destruct o as [[[value op] i1]|].
    + destruct (power_ltb _ min); [exact H|]. apply bind_ok in H as (n&E2&H). rewrite snd_cbind, snd_free, E2. cbn [bind]. now apply IH.
    + apply bind_ok in H as (o&E&H). rewrite snd_cbind. rewrite (@or_ok _ _ _ _ o (@ccan_prefix_ok i) (@ccan_atom_ok i) E). cbn [bind]. destruct o.
      * destruct (power_ltb _ min); [exact H|]. apply bind_ok in H as ([[ended rhs] i2]&E1&H). rewrite snd_cbind, same, E1. cbn [bind]. apply bind_ok in H as (n&E2&H). rewrite snd_cbind, snd_free, E2. cbn [bind]. destruct ended; [exact H|now apply IH].
      * destruct (is_at_end e i); [exact H|]. apply bind_ok in H as ([rhs i1]&E1&H). rewrite snd_cbind, (snd_unknown E1). cbn [bind]. apply bind_ok in H as (n&E2&H). rewrite snd_cbind, snd_free, E2. cbn [bind]. now apply IH.
Qed.
Lemma snd_step min e i r : pratt_step g rec min e i = Ok r -> snd (cpratt_step g crec min e i) = Ok r.
Proof.
  unfold cpratt_step, pratt_step. intros H. apply bind_ok in H as ([[ended lhs] i1]&E&H). rewrite snd_cbind, (snd_first E). cbn [bind]. destruct ended; [exact H|now apply snd_loop].
Qed.
End Step.

(** ** The results are those of the parser, for every row whose grids are well-formed *)
Section Counted.
Variable g : Grammar.
Hypothesis Htok : no_empty_tokens g.
Hypothesis Hcont : all_containers g.
Definition counted (f : nat) : Power -> Ending -> Input -> Res (PrattResult * Input) := fun min e i => snd (cpratt_parse g f min e i).
Lemma counted_ok f : rec_ok g f (pratt_parse g f) (counted f).
Proof.
  induction f as [|f IH]; intros row pos min e Hwf Hp Hs; [lia|].
  destruct (pratt_step_ok Htok Hcont IH (@parse_rows g f) (pos := pos) (row := row) min e) as (ended&n&p'&E&E'&Hp'&C&He&Hm&Hst); auto; [lia|].
  destruct (@pratt_parse_ok g Htok Hcont (S f) (S f) (Nat.le_refl _) row pos min e Hwf Hp Hs) as (en&n'&p2&F&_&K).
  cbn [pratt_parse] in F. rewrite E in F. injection F as <- <- <- _. 
  exists ended, n, p'. split; [exact E|]. split; [|exact K]. unfold counted. cbn [cpratt_parse].
  pose proof (@snd_step g (cpratt_parse g f) (counted f) (fun _ _ _ => eq_refl) min e (inp row pos) _ E') as Q. destruct (cpratt_step g (cpratt_parse g f) min e (inp row pos)) as [k r]. cbn [snd] in Q |- *. exact Q.
Qed.
Lemma counted_at f row pos min e r : wf_row row -> pos <= length row -> row_size (skipn pos row) < f -> pratt_parse g f min e (inp row pos) = Ok r -> snd (cpratt_parse g f min e (inp row pos)) = Ok r.
Proof. intros Hwf Hp Hs E. destruct (@counted_ok f row pos min e Hwf Hp Hs) as (ended&n&p'&E1&E2&_). unfold counted in E2. congruence. Qed.
Lemma counted_parse doc : wf_row doc -> snd (cparse g doc) = parse g doc.
Proof.
  intros Hwf. unfold cparse, parse, cparse_row_with, parse_row_with. rewrite snd_cbind. change (0, doc) with (inp doc 0).
  destruct (@counted_ok (S (row_size doc)) doc 0 (0, Weak) EndInput Hwf ltac:(lia) ltac:(change (skipn 0 doc) with doc; lia)) as (ended&n&p'&E1&E2&_). unfold counted in E2. rewrite E1, E2. reflexivity.
Qed.
End Counted.
