(** Writing an expression and parsing it. *)
From Coq Require Import String.
From Verif Require Import Base Str Grid Node Autocomplete Spec NameMap Syntax Pratt SpecSyntax SpecPratt BaseFacts TreeFacts ParseFacts ParseTotal PrattFacts.
Open Scope list_scope.
Open Scope nat_scope.
Set Implicit Arguments.
Unset Strict Implicit.

Definition text_row (l : list str) : InputRow := map Symbol l.
Lemma text_row_wf l : wf_row (text_row l).
Proof. intros n H. apply in_map_iff in H as (s&<-&_). constructor. Qed.
Lemma skipn_map A B (h : A -> B) n l : skipn n (map h l) = map h (skipn n l).
Proof. revert l. induction n as [|n IH]; intros [|x l]; cbn; auto. Qed.

Lemma NoDup_app_l A (l m : list A) : NoDup (l ++ m) -> NoDup l.
Proof. induction l as [|x l IH]; intros H; [constructor|]. cbn in H. inv H. constructor; [|auto]. intros Hx. apply H2. apply in_or_app. now left. Qed.
Lemma NoDup_app_r A (l m : list A) : NoDup (l ++ m) -> NoDup m.
Proof. induction l as [|x l IH]; intros H; [exact H|]. cbn in H. inv H. auto. Qed.

Section Table.
Variable g : Grammar.
Hypothesis Hsingle : single_symbols g.
Hypothesis Hunamb : unambiguous g.
Hypothesis Hcont : all_containers g.

Lemma single_no_empty : no_empty_tokens g.
Proof.
  intros r t Hr Ht ty ->. specialize (Hsingle Hr). destruct r; try discriminate; injection Ht as ->; destruct Hsingle as [[v' E]|(s&ty'&E&_)]; discriminate.
Qed.
Definition simple (t : TokenParser) : Prop := (exists v, t = TContainer v) \/ (exists s ty, t = TSymbols [s] ty /\ s <> space).
Lemma op_simple op : In op (prefix_ops g) \/ In op (infix_ops g) \/ In op (postfix_ops g) -> simple (op_token op).
Proof.
  intros [H|[H|H]]; apply ops_in in H as (r&Hr&E); specialize (Hsingle Hr); destruct r; try discriminate; inv E; exact Hsingle.
Qed.
Lemma atom_simple name t : In (name, t) (atom_rules g) -> simple t.
Proof. intros H. apply atoms_in in H. exact (Hsingle H). Qed.
Lemma simple_not_space t s : simple t -> In s (token_symbol t) -> s <> space.
Proof. intros [[v ->]|(s'&ty&->&Hs)]; [easy|]. intros [<-|[]]. exact Hs. Qed.

Variable text : list str.
Hypothesis Htext : forall s, In s text -> s <> space.
Local Notation row := (text_row text).

Lemma spaces_none pos : parse_spaces (inp row pos) = Ok (None, inp row pos).
Proof.
  unfold parse_spaces, repeat_symbols, inp, text_row. cbn [fst snd]. rewrite skipn_map. destruct (skipn pos text) as [|s l] eqn:E; [reflexivity|]. cbn [map take_symbols].
  destruct (str_eqb s (lit " ")) eqn:Es; [|reflexivity]. apply str_eqb_eq in Es. destruct (Htext (s := s)); [|exact Es].
  rewrite <- (firstn_skipn pos text), E. apply in_or_app. right. now left.
Qed.
Lemma container_none rec v pos : parse_token g rec (TContainer v) (inp row pos) = Ok None.
Proof. cbn [parse_token inp snd]. unfold text_row. rewrite skipn_map. now destruct (skipn pos text). Qed.
Definition matches (t : TokenParser) (s : str) : bool := match t with TSymbols [s'] _ => str_eqb s' s | _ => false end.
Definition token_type (t : TokenParser) : LeafNodeType := match t with TSymbols _ ty => ty | _ => LSymbol end.
Lemma rule_at rec name t pos s : nth_error text pos = Some s -> simple t ->
  parse_rule g rec name t (inp row pos) = Ok (if matches t s then Some (leaf_at name (token_type t) s pos, inp row (S pos)) else None).
Proof.
  intros Hn Ht. unfold parse_rule. rewrite spaces_none. cbn [bind].
  destruct Ht as [[v ->]|(s'&ty&->&Hs)]; [now rewrite container_none|]. cbn [parse_token matches token_type].
  assert (Hlt : pos < length row) by (unfold text_row; rewrite map_length; eapply nth_error_Some_lt; eauto).
  destruct (skipn_lt Hlt) as [x E]. destruct (skipn_cons_S E) as (_&_&Ex). unfold text_row in Ex. rewrite nth_error_map, Hn in Ex. cbn in Ex. inv Ex.
  assert (J : just_symbols [s'] (inp row pos) = if str_eqb s s' then Some (s', inp row (S pos)) else None).
  { cbn [just_symbols]. unfold just_symbol, inp. cbn [fst snd]. rewrite E. destruct (str_eqb s s'); [|reflexivity]. now rewrite app_nil_r. }
  rewrite J. assert (Hsym : str_eqb s s' = str_eqb s' s).
  { destruct (str_eqb s' s) eqn:E'; [apply str_eqb_eq in E' as ->; now apply str_eqb_eq|].
    destruct (str_eqb s s') eqn:E2; [apply str_eqb_eq in E2 as ->; rewrite <- E'; symmetry; now apply str_eqb_eq|reflexivity]. }
  rewrite <- Hsym. destruct (str_eqb s s') eqn:Es; [|reflexivity]. apply str_eqb_eq in Es. subst s'.
  cbn [option_map leaf_token pbind bind]. unfold pbind, leaf_token. cbn [option_map bind]. rewrite spaces_none. reflexivity.
Qed.
Lemma scripts_none rec fuel n pos : parse_scripts g rec fuel n (inp row pos) = Ok (n, inp row pos).
Proof. destruct fuel as [|fuel]; [reflexivity|]. cbn [parse_scripts]. unfold parse_script. rewrite !container_none. reflexivity. Qed.
Lemma op_at rec op pos s : nth_error text pos = Some s -> simple (op_token op) ->
  parse_op g rec op (inp row pos) = Ok (if matches (op_token op) s then Some (leaf_at operator_rule_name (token_type (op_token op)) s pos, inp row (S pos)) else None).
Proof.
  intros Hn Ht. unfold parse_op. rewrite (rule_at rec operator_rule_name Hn Ht). destruct (matches (op_token op) s), (op_power op); auto;
    unfold pbind; cbn [bind]; now rewrite scripts_none.
Qed.
Lemma matches_iff t s : simple t -> matches t s = true <-> In s (token_symbol t).
Proof.
  intros [[v ->]|(s'&ty&->&_)]; cbn; [split; [discriminate|easy]|]. rewrite str_eqb_eq. split; [now left|]. now intros [->|[]].
Qed.
Lemma iter_at rec ops pos s : nth_error text pos = Some s -> (forall op, In op ops -> simple (op_token op)) ->
  parse_iter g rec ops (inp row pos) =
  Ok (match List.find (fun op => matches (op_token op) s) ops with
      | Some op => Some ((leaf_at operator_rule_name (token_type (op_token op)) s pos, op), inp row (S pos))
      | None => None
      end).
Proof.
  intros Hn. induction ops as [|op ops IH]; intros Hops; [reflexivity|]. cbn [parse_iter List.find].
  rewrite (op_at rec Hn (Hops op (or_introl eq_refl))). cbn [bind]. destruct (matches (op_token op) s); [reflexivity|]. apply IH. intros; apply Hops; now right.
Qed.
Lemma choice_at rec rules pos s : nth_error text pos = Some s -> (forall name t, In (name, t) rules -> simple t) ->
  parse_choice g rec rules (inp row pos) =
  Ok (match List.find (fun '(_, t) => matches t s) rules with
      | Some (name, t) => Some (leaf_at name (token_type t) s pos, inp row (S pos))
      | None => None
      end).
Proof.
  intros Hn. induction rules as [|[name t] rules IH]; intros Hops; [reflexivity|]. cbn [parse_choice List.find].
  rewrite (rule_at rec name Hn (Hops name t (or_introl eq_refl))). cbn [bind]. destruct (matches t s); [reflexivity|]. apply IH. intros; eapply Hops; right; eauto.
Qed.
Lemma find_only A (sym : A -> list str) (p : A -> bool) l x s : NoDup (flat_map sym l) -> In x l -> In s (sym x) ->
  (forall y, In y l -> p y = true <-> In s (sym y)) -> List.find p l = Some x.
Proof.
  induction l as [|y l IH]; intros Hnd Hin Hs Hp; [easy|]. cbn [List.find flat_map] in *.
  assert (Hnd' := Hnd). apply NoDup_app_r in Hnd. destruct (p y) eqn:E.
  - destruct Hin as [->|Hin]; [reflexivity|]. exfalso. apply Hp in E; [|now left].
    assert (In s (flat_map sym l)) by (apply in_flat_map; eauto).
    revert Hnd' E H. clear. intros Hnd E H. induction (sym y) as [|z m IH]; [easy|]. cbn in Hnd. inv Hnd. destruct E as [->|E]; [|auto].
    apply H2. apply in_or_app. now right.
  - destruct Hin as [->|Hin].
    + apply Hp in Hs; [congruence|now left].
    + apply IH; auto. intros z Hz. apply Hp. now right.
Qed.
Lemma find_none A (sym : A -> list str) (p : A -> bool) l s : ~ In s (flat_map sym l) ->
  (forall y, In y l -> p y = true <-> In s (sym y)) -> List.find p l = None.
Proof.
  intros H Hp. destruct (List.find p l) as [x|] eqn:E; [|reflexivity]. apply List.find_some in E as [Hin E]. apply Hp in E; [|exact Hin].
  destruct H. apply in_flat_map. eauto.
Qed.
Lemma NoDup_app_not A (l m : list A) x : NoDup (l ++ m) -> In x m -> ~ In x l.
Proof.
  induction l as [|y l IH]; intros H Hm; [easy|]. cbn in H. inv H. intros [->|Hl]; [|now apply IH]. apply H2. apply in_or_app. now right.
Qed.

(** What can start at a symbol. *)
Lemma tokens_at pos s : nth_error text pos = Some s -> exists p a n q,
  prefix_at g (inp row pos) = Ok p /\ atom_at g (inp row pos) = Ok a /\ infix_at g (inp row pos) = Ok n /\ postfix_at g (inp row pos) = Ok q /\
  (forall op, In op (prefix_ops g) -> In s (token_symbol (op_token op)) -> p = Some ((leaf_at operator_rule_name (token_type (op_token op)) s pos, op), inp row (S pos))) /\
  (forall name t, In (name, t) (atom_rules g) -> In s (token_symbol t) -> p = None /\ a = Some (leaf_at name (token_type t) s pos, inp row (S pos))) /\
  (forall op, In op (infix_ops g) -> In s (token_symbol (op_token op)) -> n = Some ((leaf_at operator_rule_name (token_type (op_token op)) s pos, op), inp row (S pos))) /\
  (forall op, In op (postfix_ops g) -> In s (token_symbol (op_token op)) -> n = None /\ q = Some ((leaf_at operator_rule_name (token_type (op_token op)) s pos, op), inp row (S pos))).
Proof.
  intros Hn. destruct Hunamb as [N1 N2].
  assert (Sp : forall op, In op (prefix_ops g) -> simple (op_token op)) by (intros; apply op_simple; auto).
  assert (Si : forall op, In op (infix_ops g) -> simple (op_token op)) by (intros; apply op_simple; auto).
  assert (Sq : forall op, In op (postfix_ops g) -> simple (op_token op)) by (intros; apply op_simple; auto).
  do 4 eexists. unfold prefix_at, atom_at, infix_at, postfix_at, parse_prefix, parse_atom, parse_infix, parse_postfix.
  rewrite !(iter_at _ Hn) by assumption. rewrite (choice_at _ Hn) by exact atom_simple.
  split; [reflexivity|]. split; [reflexivity|]. split; [reflexivity|]. split; [reflexivity|].
  rewrite flat_map_app in N2.
  split; [|split; [|split]].
  - intros op Hin Hs. rewrite (find_only (sym := fun op => token_symbol (op_token op)) (x := op) (s := s)); auto.
    + eapply NoDup_app_l; eauto.
    + intros y Hy. now apply matches_iff, Sp.
  - intros name t Hin Hs. split.
    + rewrite (find_none (sym := fun op => token_symbol (op_token op)) (s := s)); auto.
      * eapply NoDup_app_not; [exact N1|]. apply in_flat_map. exists (name, t). auto.
      * intros y Hy. now apply matches_iff, Sp.
    + rewrite (find_only (sym := fun '(_, t) => token_symbol t) (x := (name, t)) (s := s)); auto.
      * eapply NoDup_app_r; eauto.
      * intros [name' t'] Hy. apply matches_iff. eapply atom_simple; eauto.
  - intros op Hin Hs. rewrite (find_only (sym := fun op => token_symbol (op_token op)) (x := op) (s := s)); auto.
    + eapply NoDup_app_l; eauto.
    + intros y Hy. now apply matches_iff, Si.
  - intros op Hin Hs. split.
    + rewrite (find_none (sym := fun op => token_symbol (op_token op)) (s := s)); auto.
      * eapply NoDup_app_not; [exact N2|]. apply in_flat_map. exists op. auto.
      * intros y Hy. now apply matches_iff, Si.
    + rewrite (find_only (sym := fun op => token_symbol (op_token op)) (x := op) (s := s)); auto.
      * eapply NoDup_app_r; eauto.
      * intros y Hy. now apply matches_iff, Sq.
Qed.

Lemma nth_skipn_app A (l a b : list A) pos x : skipn pos l = a ++ x :: b -> nth_error l (pos + length a) = Some x.
Proof.
  intros H. rewrite <- (firstn_skipn pos l), H. assert (pos <= length l).
  { destruct (le_lt_dec pos (length l)); [auto|]. rewrite skipn_all2 in H by lia. destruct a; discriminate. }
  rewrite nth_error_app2; rewrite firstn_length; [|lia]. rewrite nth_error_app2 by lia.
  replace (pos + length a - Nat.min pos (length l) - length a) with 0 by lia. reflexivity.
Qed.
Lemma skipn_app_more A (l a b : list A) pos : skipn pos l = a ++ b -> skipn (pos + length a) l = b.
Proof.
  revert pos l. induction a as [|x a IH]; intros pos l H; [now rewrite Nat.add_0_r|]. cbn in H. cbn [length]. rewrite Nat.add_succ_r. change (S (pos + length a)) with (S pos + length a). apply IH.
  revert l H. induction pos as [|pos IHp]; intros [|y l] H; try discriminate; cbn in *; [now inv H|now apply IHp].
Qed.
Lemma term_lexes e t : belongs g t -> forall pos rest, skipn pos text = spell t ++ rest ->
  lexes g e (Operand, inp row pos) (flatten (place pos t)) (Operator, inp row (pos + length (spell t))).
Proof.
  induction t as [name ty s|op ty s a IHa|a IHa op ty s b IHb|a IHa op ty s]; intros Hb pos rest E; cbn [belongs spell place flatten] in *.
  - pose proof (nth_skipn_app (a := []) E) as Hn. cbn [length] in *. rewrite Nat.add_0_r in Hn. rewrite Nat.add_1_r.
    destruct (tokens_at Hn) as (p&x&n&q&E1&E2&E3&E4&_&Ha&_). apply atoms_in in Hb.
    destruct (Ha name (TSymbols [s] ty) Hb (or_introl eq_refl)) as [-> ->]. apply lexes_one. cbn [fst snd].
    unfold next. rewrite E1, E2, E3, E4. reflexivity.
  - destruct Hb as (Hin&Ht&Hb). pose proof (nth_skipn_app (a := []) E) as Hn. cbn [length] in *. rewrite Nat.add_0_r in Hn.
    destruct (tokens_at Hn) as (p&x&n&q&E1&E2&E3&E4&Hp&_). rewrite (Hp op Hin) in E1 by (rewrite Ht; now left). rewrite Ht in E1. cbn [token_type] in E1.
    econstructor.
    + cbn [fst snd]. unfold next. rewrite E1, E2, E3, E4. reflexivity.
    + rewrite Nat.add_succ_r. change (S (pos + length (spell a))) with (S pos + length (spell a)). eapply IHa; [exact Hb|].
      apply (skipn_app_more (a := [s])) in E. cbn [length] in E. rewrite Nat.add_1_r in E. exact E.
  - destruct Hb as (Hin&Ht&Hba&Hbb). rewrite <- app_assoc in E. cbn [app] in E.
    eapply lexes_app; [eapply IHa; eauto|]. pose proof (nth_skipn_app E) as Hn.
    destruct (tokens_at Hn) as (p&x&n&q&E1&E2&E3&E4&_&_&Hi&_). rewrite (Hi op Hin) in E3 by (rewrite Ht; now left). rewrite Ht in E3. cbn [token_type] in E3.
    econstructor.
    + cbn [fst snd]. unfold next. rewrite E1, E2, E3, E4. reflexivity.
    + rewrite app_length. cbn [length]. replace (pos + (length (spell a) + S (length (spell b)))) with (S (pos + length (spell a)) + length (spell b)) by lia.
      eapply IHb; [exact Hbb|]. apply skipn_app_more in E. apply (skipn_app_more (a := [s])) in E. cbn [length] in E. rewrite Nat.add_1_r in E. exact E.
  - destruct Hb as (Hin&Ht&Hba). rewrite <- app_assoc in E. cbn [app] in E.
    eapply lexes_app; [eapply IHa; eauto|]. pose proof (nth_skipn_app E) as Hn.
    destruct (tokens_at Hn) as (p&x&n&q&E1&E2&E3&E4&_&_&_&Hq). destruct (Hq op Hin) as [-> Eq]; [rewrite Ht; now left|]. rewrite Eq, Ht in E4. cbn [token_type] in E4.
    apply lexes_one. cbn [fst snd]. unfold next. rewrite E1, E2, E3, E4. cbn [bind]. rewrite app_length. cbn [length].
    replace (pos + (length (spell a) + 1)) with (S (pos + length (spell a))) by lia. reflexivity.
Qed.
End Table.

Lemma belongs_no_space g t : single_symbols g -> belongs g t -> forall s, In s (spell t) -> s <> space.
Proof.
  intros Hs. assert (K : forall t s ty, simple t -> t = TSymbols [s] ty -> s <> space).
  { intros t' s ty [[v ->]|(s'&ty'&->&H)] E; [discriminate|]. now inv E. }
  induction t as [name ty s|op ty s a IHa|a IHa op ty s b IHb|a IHa op ty s]; intros Hb s' Hin; cbn [belongs spell] in *.
  - destruct Hin as [<-|[]]. specialize (Hs _ Hb). cbn in Hs. eapply K; [exact Hs|reflexivity].
  - destruct Hb as (Ho&Ht&Hb). destruct Hin as [<-|Hin]; auto. eapply K; [apply (op_simple Hs); left; exact Ho|exact Ht].
  - destruct Hb as (Ho&Ht&Hba&Hbb). apply in_app_or in Hin as [?|[<-|?]]; auto. eapply K; [apply (op_simple Hs); right; left; exact Ho|exact Ht].
  - destruct Hb as (Ho&Ht&Hba). apply in_app_or in Hin as [?|[<-|[]]]; auto. eapply K; [apply (op_simple Hs); right; right; exact Ho|exact Ht].
Qed.
Theorem write_parse g t : single_symbols g -> unambiguous g -> all_containers g -> belongs g t -> respects (place 0 t) ->
  parse g (text_row (spell t)) = Ok (build (place 0 t)).
Proof.
  intros Hs Hu Hc Hb Hr. pose proof (single_no_empty Hs) as Hne. pose proof (belongs_no_space Hs Hb) as Hsp.
  pose proof (@text_row_wf (spell t)) as Hwf.
  assert (Hd : tokens_of g (text_row (spell t)) (flatten (place 0 t))).
  { exists (inp (text_row (spell t)) (length (spell t))). split.
    - apply (term_lexes Hs Hu Hsp EndInput Hb (pos := 0) (rest := [])). cbn [skipn]. now rewrite app_nil_r.
    - assert (L : length (spell t) <= length (text_row (spell t))) by (unfold text_row; now rewrite map_length).
      assert (Ee : at_end (inp (text_row (spell t)) (length (spell t))) = true) by (apply at_end_inp; [exact L|unfold text_row; now rewrite map_length]).
      destruct (at_end_none Hne Hc Hwf L (Nat.le_refl _) Ee) as (E1&E2&E3&E4). unfold next. rewrite E1, E2, E3, E4. cbn [bind].
      unfold is_at_end. now rewrite Ee. }
  exact (parse_complete Hne Hc Hwf Hd Hr).
Qed.
