(** The number of calls of the parser for a formula. *)
From Coq Require Import String.
From Verif Require Import Base Str Grid Node Spec Autocomplete NameMap Syntax Pratt Grammar SpecSyntax SpecPratt SpecFormula SpecEffort BaseFacts NameMapFacts TreeFacts ParseFacts ParseTotal PrattFacts GrammarFacts FormulaFacts Cost CostFacts.
Open Scope list_scope.
Open Scope nat_scope.
Set Implicit Arguments.
Unset Strict Implicit.

(** ** Counting *)
Definition add {A} (n : nat) (c : Counted A) : Counted A := (n + fst c, snd c).
Lemma add_add A n m (c : Counted A) : add n (add m c) = add (n + m) c.
Proof. unfold add. cbn [fst snd]. f_equal. lia. Qed.
Lemma add_zero A (c : Counted A) : add 0 c = c.
Proof. destruct c. reflexivity. Qed.
Lemma counted_eta A (c : Counted A) k r : fst c = k -> snd c = r -> c = (k, r).
Proof. destruct c. cbn. congruence. Qed.
Lemma cbind_ok A B k (a : A) (f : A -> Counted B) : cbind (k, Ok a) f = add k (f a).
Proof. cbn. destruct (f a). reflexivity. Qed.
Lemma cbind_free A B (a : A) (f : A -> Counted B) : cbind (free (Ok a)) f = f a.
Proof. cbn. destruct (f a). reflexivity. Qed.
Lemma cbind_add A B k (m : Counted A) (f : A -> Counted B) : cbind (add k m) f = add k (cbind m f).
Proof. destruct m as [n [a|p]]; cbn; [|reflexivity]. destruct (f a). unfold add. cbn. f_equal. lia. Qed.
Lemma cbind_zero A B (m : Counted A) (f : A -> Counted B) : (forall a, fst (f a) = 0) -> fst (cbind m f) = fst m.
Proof. intros H. destruct m as [n [a|p]]; [|reflexivity]. rewrite cbind_ok. unfold add. cbn [fst]. rewrite H. lia. Qed.
Lemma cpbind_zero A B (m : Counted (option (A * Input))) (f : A -> Input -> Counted (option (B * Input))) : (forall a i, fst (f a i) = 0) -> fst (cpbind m f) = fst m.
Proof. intros H. unfold cpbind. apply cbind_zero. intros [[a i]|]; [apply H|reflexivity]. Qed.

Definition scripts_effort (s : Scripts Formula) : nat := fold_right (fun '(_, _, a, _) rest => S (effort a) + rest) 0 s.
Definition cells_effort (cells : list (nat * Formula)) : nat := fold_right (fun '(_, a) rest => S (effort a) + rest) 0 cells.
Definition atom_effort (a : Atom Formula) : nat := match a with ABrackets _ a => S (effort a) | ACells _ _ cells => cells_effort cells | _ => 0 end.
Definition postfix_effort (op : Postfix Formula) : nat := match op with PApply _ b | PScript _ _ b => S (effort b) | _ => 0 end.
Lemma effort_atom a k : effort (FAtom a k) = atom_effort a.
Proof. destruct a; reflexivity. Qed.
Lemma effort_prefix op k s a : effort (FPrefix op k s a) = scripts_effort s + S (effort a).
Proof. reflexivity. Qed.
Lemma effort_infix a op k s b : effort (FInfix a op k s b) = effort a + S (pending a) * scripts_effort s + S (effort b).
Proof. reflexivity. Qed.
Lemma effort_postfix a op k : effort (FPostfix a op k) = effort a + postfix_effort op.
Proof. destruct op; reflexivity. Qed.
Lemma pending_edge f : forall before p, pending f = length (right_edge (expr before p f)).
Proof. induction f as [a k _|op k s a _ IHa|a op k s b IHa _ IHb|a op k IHa _] using formula_induction; intros before p; cbn [pending expr right_edge length]; auto. Qed.

(** ** Tokens *)
Section Tokens.
Variables xs xc : N -> bool.
Hypothesis HC : classes_ok xs xc.
Local Notation g := (default_grammar xs xc).
Variable crec : Power -> Ending -> Input -> Counted (PrattResult * Input).
Local Notation rec := (fun m e i => snd (crec m e i)).
Let same : forall min e i, snd (crec min e i) = rec min e i := fun _ _ _ => eq_refl.
Definition symbol_token (t : TokenParser) : bool := match t with TContainer _ | TBrackets _ _ => false | _ => true end.
Lemma symbol_cheap t i : symbol_token t = true -> fst (cparse_token g crec t i) = 0.
Proof. destruct t; try discriminate; reflexivity. Qed.
Lemma begins_cheap n t pos r : begins g n t = false -> fst (cparse_token g crec t (pos, n :: r)) = 0.
Proof.
  destruct t as [l ty|v|a b|a b| | |], n as [v' c|s']; try reflexivity; cbn [begins cparse_token snd]; intros H.
  - rewrite H. reflexivity.
  - unfold just_symbol. cbn [snd]. rewrite H. reflexivity.
Qed.
Lemma rule_count name t before pos l : no_space l -> fst (cparse_rule g crec name t (pos, spaces before ++ l)) = fst (cparse_token g crec t (pos + before, l)).
Proof. intros H. unfold cparse_rule. destruct (spaces_read before pos H) as (o&->&_). rewrite cbind_free. apply cpbind_zero. reflexivity. Qed.
Lemma op_cheap op before pos l : no_space l -> fst (cparse_token g crec (op_token op) (pos + before, l)) = 0 -> snd (cparse_op g crec op (pos, spaces before ++ l)) = Ok None ->
  fst (cparse_op g crec op (pos, spaces before ++ l)) = 0.
Proof.
  intros H E N. pose proof (rule_count operator_rule_name (op_token op) before pos H) as R. rewrite E in R. unfold cparse_op in *.
  destruct (op_power op); try exact R; unfold cpbind in *; rewrite snd_cbind in N; destruct (cparse_rule g crec operator_rule_name (op_token op) (pos, spaces before ++ l)) as [k [[[n i1]|]|p]];
    cbn [fst snd bind] in *; subst k; try reflexivity; rewrite snd_cbind in N; destruct (snd (cparse_scripts g crec (length (snd i1)) n i1)); discriminate N.
Qed.
(** The calls of the operator that is found *)
Lemma iter_count ops before pos l v op i' : no_space l -> (forall o, In o ops -> o = op \/ fst (cparse_token g crec (op_token o) (pos + before, l)) = 0) ->
  snd (cparse_iter g crec ops (pos, spaces before ++ l)) = Ok (Some ((v, op), i')) -> fst (cparse_iter g crec ops (pos, spaces before ++ l)) = fst (cparse_op g crec op (pos, spaces before ++ l)).
Proof.
  intros Hl. assert (Last : forall ops, snd (cparse_iter g crec ops (pos, spaces before ++ l)) = Ok (Some ((v, op), i')) -> snd (cparse_op g crec op (pos, spaces before ++ l)) = Ok (Some (v, i'))).
  { clear ops. induction ops as [|o ops IH]; [discriminate|]. cbn [cparse_iter]. rewrite snd_cbind. destruct (snd (cparse_op g crec o (pos, spaces before ++ l))) as [[[n j]|]|p] eqn:E; cbn [bind snd free]; intros H.
    - inv H. exact E.
    - auto.
    - discriminate H. }
  induction ops as [|o ops IH]; intros Ho H; [discriminate H|]. pose proof (Last _ H) as Hop. cbn [cparse_iter] in *. rewrite snd_cbind in H.
  pose proof (@op_cheap o before pos l Hl) as Cheap.
  destruct (cparse_op g crec o (pos, spaces before ++ l)) as [k [[[n j]|]|p]] eqn:E; cbn [bind snd free] in H.
  - inv H. rewrite cbind_ok. rewrite E. unfold add. cbn. lia.
  - destruct (Ho o (or_introl eq_refl)) as [->|Ct]; [rewrite E in Hop; discriminate Hop|]. pose proof (Cheap Ct eq_refl) as K. cbn [fst] in K. subst k. rewrite cbind_ok, add_zero.
    apply IH; auto. intros o' Ho'. apply Ho. now right.
  - discriminate H.
Qed.
Lemma choice_cheap rules before pos l : no_space l -> (forall name t, In (name, t) rules -> fst (cparse_token g crec t (pos + before, l)) = 0) ->
  fst (cparse_choice g crec rules (pos, spaces before ++ l)) = 0.
Proof.
  intros Hl. induction rules as [|[name t] rules IH]; [reflexivity|]. intros H. cbn [cparse_choice]. pose proof (rule_count name t before pos Hl) as R. rewrite (H name t (or_introl eq_refl)) in R.
  destruct (cparse_rule g crec name t (pos, spaces before ++ l)) as [k [[x|]|p]]; cbn [fst] in R; subst k; [reflexivity| |reflexivity]. rewrite cbind_ok, add_zero. apply IH. intros. eapply H. right. eauto.
Qed.
Lemma choice_count a name t b before pos l x : no_space l -> (forall name t, In (name, t) a -> fst (cparse_token g crec t (pos + before, l)) = 0 /\ parse_token g rec t (pos + before, l) = Ok None) ->
  snd (cparse_rule g crec name t (pos, spaces before ++ l)) = Ok (Some x) ->
  fst (cparse_choice g crec (a ++ (name, t) :: b) (pos, spaces before ++ l)) = fst (cparse_token g crec t (pos + before, l)).
Proof.
  intros Hl Ha E. induction a as [|[m u] a IH]; cbn [app cparse_choice].
  - rewrite <- (rule_count name t before pos Hl). destruct (cparse_rule g crec name t (pos, spaces before ++ l)) as [k r]. cbn [snd] in E. subst r. rewrite cbind_ok. unfold add. cbn. lia.
  - destruct (Ha m u (or_introl eq_refl)) as [H1 H2]. pose proof (rule_count m u before pos Hl) as R. rewrite H1 in R.
    assert (N : snd (cparse_rule g crec m u (pos, spaces before ++ l)) = Ok None) by (rewrite (snd_rule g same); now apply rule_none).
    rewrite (counted_eta R N), cbind_ok, add_zero. apply IH. intros. eapply Ha. right. eauto.
Qed.
(** Rows inside *)
Definition row_counts (before : nat) (f : Formula) : Prop := cparse_row_with crec (row_of before f) = (S (effort f), Ok (tree before 0 f)).
Lemma row_counts_snd before f : row_counts before f -> parse_row_with rec (row_of before f) = Ok (tree before 0 f).
Proof. intros H. rewrite <- (snd_row same). unfold row_counts in H. now rewrite H. Qed.
Lemma cells_count cells : (forall b f, In (b, f) cells -> row_counts b f) ->
  cmap_res (cparse_row_with crec) (map (fun '(before, a) => row_of before a) cells) = (cells_effort cells, Ok (map (fun '(before, a) => tree before 0 a) cells)).
Proof.
  induction cells as [|[b f] cells IH]; intros H; [reflexivity|]. cbn [map cmap_res cells_effort fold_right]. rewrite (H b f (or_introl eq_refl)). rewrite cbind_ok.
  rewrite IH by (intros; apply H; now right). rewrite cbind_ok. unfold add, free. cbn [fst snd]. f_equal. unfold cells_effort. lia.
Qed.
Lemma container_count v w cells pos r : (forall b f, In (b, f) cells -> row_counts b f) ->
  fst (cparse_token g crec (TContainer v) (pos, Container v (mkGrid (map (fun '(before, a) => row_of before a) cells) w) :: r)) = cells_effort cells.
Proof.
  intros H. cbn [cparse_token snd gvalues]. replace (variant_eqb v v) with true by (destruct v; reflexivity). rewrite cells_count by exact H. rewrite cbind_ok. unfold add, free. cbn [fst]. lia.
Qed.
Lemma script_count u before a after pos r : row_counts before a ->
  fst (cparse_script g crec (script u) (pos, Container (script u) (mkGrid [row_of before a] 1) :: spaces after ++ r)) = S (effort a).
Proof.
  intros H. unfold cparse_script. rewrite cpbind_zero by reflexivity. pose proof (@container_count (script u) 1 [(before, a)] pos (spaces after ++ r)) as C. cbn [map cells_effort fold_right] in C.
  rewrite C; [lia|]. intros b f [E|[]]. inv E. exact H.
Qed.
Lemma script_free v i : match snd i with Container w _ :: _ => w <> v | _ => True end -> cparse_script g crec v i = (0, Ok None).
Proof.
  intros H. apply counted_eta; [|rewrite (snd_script g same); now apply script_none]. unfold cparse_script. rewrite cpbind_zero by reflexivity. cbn [cparse_token].
  destruct (snd i) as [|[w c|s] l]; try reflexivity. destruct (variant_eqb w v) eqn:E; [|reflexivity]. destruct w, v; try discriminate; congruence.
Qed.
Lemma scripts_free k node i : no_script (snd i) -> cparse_scripts g crec k node i = (0, Ok (node, i)).
Proof.
  destruct k as [|k]; [reflexivity|]. intros H. cbn [cparse_scripts]. rewrite !script_free; [reflexivity| |]; destruct (snd i) as [|[v c|s] l]; cbn in *; tauto.
Qed.
Lemma scripts_count s : forall node fuel pos r, (forall u b a k, In (u, b, a, k) s -> row_counts b a) ->
  no_space r -> no_script r -> length (written_scripts s) <= fuel -> end_of node = pos -> start_of node <= pos ->
  fst (cparse_scripts g crec fuel node (pos, written_scripts s ++ r)) = scripts_effort s.
Proof.
  induction s as [|[[[u b] a] k] s IH]; intros node fuel pos r Hs Hr Hr' Hf He Hl.
  - cbn [written_scripts flat_map app scripts_effort fold_right]. now rewrite scripts_free.
  - cbn [written_scripts flat_map app] in *. fold (written_scripts s) in *. cbn [length] in *. rewrite app_length, spaces_length in *.
    destruct fuel as [|fuel]; [lia|]. rewrite <- app_assoc. pose proof (Hs _ _ _ _ (or_introl eq_refl)) as Ha.
    pose proof (@script_read g rec u b a k pos (written_scripts s ++ r) (scripts_no_space s Hr) (row_counts_snd Ha)) as Sr.
    rewrite <- (snd_script g same) in Sr. pose proof (counted_eta (@script_count u b a k pos (written_scripts s ++ r) Ha) Sr) as Sc.
    assert (B : forall name, build_postfix name (spaced operator_name (NewRows (mkGrid [tree b 0 a] 1)) pos 0 1 k) node =
      Ok (mkSyntax name (Children [node; spaced operator_name (NewRows (mkGrid [tree b 0 a] 1)) pos 0 1 k]) (start_of node) (pos + 1 + k))).
    { intros name. unfold build_postfix. pose proof (spaced_start operator_name (NewRows (mkGrid [tree b 0 a] 1)) pos 0 1 k) as S1.
      pose proof (spaced_end operator_name (NewRows (mkGrid [tree b 0 a] 1)) pos 0 1 k) as S2. unfold combine_ranges. unfold start_of, end_of in *. rewrite S1, S2, He.
      replace (Nat.min (fst (syn_range node)) pos) with (fst (syn_range node)) by lia. replace (Nat.max pos (pos + 0 + 1 + k)) with (pos + 1 + k) by lia.
      apply new_two; unfold start_of, end_of; try reflexivity; rewrite ?S1, ?S2, ?He; lia. }
    assert (Rest : forall name, fst (cparse_scripts g crec fuel (mkSyntax name (Children [node; spaced operator_name (NewRows (mkGrid [tree b 0 a] 1)) pos 0 1 k]) (start_of node) (pos + 1 + k))
        (pos + 1 + k, written_scripts s ++ r)) = scripts_effort s).
    { intros name. apply IH; [intros; eapply Hs; right; eauto|auto|auto|lia|reflexivity|change (start_of node <= pos + 1 + k); lia]. }
    cbn [cparse_scripts]. change (scripts_effort ((u, b, a, k) :: s)) with (S (effort a) + scripts_effort s). destruct u; cbn [script] in *.
    + rewrite script_free by discriminate. rewrite cbind_ok, add_zero. rewrite Sc, cbind_ok, B, cbind_free. unfold add. cbn [fst]. now rewrite Rest.
    + rewrite Sc, cbind_ok, B, cbind_free. unfold add. cbn [fst]. now rewrite Rest.
Qed.
Lemma op_count op before pos l c len after s r : match op_power op with BPostfix _ => False | _ => True end -> no_space l -> no_space r -> no_script r -> fst (cparse_token g crec (op_token op) (pos + before, l)) = 0 ->
  parse_token g rec (op_token op) (pos + before, l) = Ok (Some (c, (pos + before + len, spaces after ++ written_scripts s ++ r))) ->
  syntax_node_new operator_name (pos + before, pos + before + len) c = Ok (mkSyntax operator_name c (pos + before) (pos + before + len)) ->
  (forall u b a k, In (u, b, a, k) s -> row_counts b a) ->
  fst (cparse_op g crec op (pos, spaces before ++ l)) = scripts_effort s.
Proof.
  intros Hop H Hr Hr' C E En Hs. pose proof (rule_some H (scripts_no_space s Hr) E En) as Er. rewrite <- (snd_rule g same) in Er. change operator_name with operator_rule_name in *.
  pose proof (rule_count operator_rule_name (op_token op) before pos H) as R. rewrite C in R. unfold cparse_op. rewrite (counted_eta R Er). destruct (op_power op); try destruct Hop.
  all: unfold cpbind; rewrite cbind_ok, add_zero; cbn [snd]; rewrite cbind_zero by reflexivity; apply scripts_count;
    [exact Hs|exact Hr|exact Hr'|rewrite app_length; lia|apply spaced_end|rewrite spaced_start; lia].
Qed.
Lemma inner_counts s : (forall u b a k, In (u, b, a, k) s -> row_counts b a) -> inner_ok rec s.
Proof. intros H u b a k Hs. eapply row_counts_snd, H, Hs. Qed.
Lemma infix_count pos op k s r : (forall u b a j, In (u, b, a, j) s -> row_counts b a) -> no_space r -> no_script r ->
  cparse_infix g crec (pos, sign (infix_char op) :: spaces k ++ written_scripts s ++ r) =
    (scripts_effort s, Ok (Some ((infix_value pos op k s, infix_op op), (end_of (infix_value pos op k s), r)))).
Proof.
  intros Hs Hr Hr'. pose proof (@infix_read xs xc rec pos op k s r (inner_counts Hs) Hr Hr') as E. unfold parse_infix in E. rewrite <- (snd_iter g same) in E.
  apply counted_eta; [|exact E]. unfold cparse_infix. assert (Sp : no_space (sign (infix_char op) :: spaces k ++ written_scripts s ++ r)) by (destruct op; reflexivity).
  etransitivity; [apply (fun H => @iter_count (infix_ops g) 0 pos _ _ _ _ Sp H E)|].
  - intros o Ho. right. apply symbol_cheap. assert (A : forallb (fun o => symbol_token (op_token o)) (infix_ops g) = true) by reflexivity. rewrite forallb_forall in A. now apply A.
  - apply (@op_count (infix_op op) 0 pos (sign (infix_char op) :: spaces k ++ written_scripts s ++ r) (Leaf LOperator [[infix_char op]]) 1 k s r); auto; [exact I|].
    rewrite Nat.add_0_r. exact (@text_token g rec [infix_char op] LOperator pos _).
Qed.
Lemma prefix_cheap o i : In o (prefix_ops g) -> fst (cparse_token g crec (op_token o) i) = 0.
Proof. intros Ho. apply symbol_cheap. assert (A : forallb (fun o => symbol_token (op_token o)) (prefix_ops g) = true) by reflexivity. rewrite forallb_forall in A. now apply A. Qed.
Lemma infix_cheap o i : In o (infix_ops g) -> fst (cparse_token g crec (op_token o) i) = 0.
Proof. intros Ho. apply symbol_cheap. assert (A : forallb (fun o => symbol_token (op_token o)) (infix_ops g) = true) by reflexivity. rewrite forallb_forall in A. now apply A. Qed.
Lemma prefix_count before pos op k s r : (forall u b a j, In (u, b, a, j) s -> row_counts b a) -> no_space r -> no_script r ->
  (op = Lim -> k = 0 -> s = [] -> firstn 3 r <> map Symbol (single (lit "sup")) /\ firstn 3 r <> map Symbol (single (lit "inf"))) ->
  cparse_prefix g crec (pos, spaces before ++ map Symbol (single (prefix_text op)) ++ spaces k ++ written_scripts s ++ r) =
    (scripts_effort s, Ok (Some ((prefix_value before pos op k s, prefix_op op), (end_of (prefix_value before pos op k s), r)))).
Proof.
  intros Hs Hr Hr' Hl. pose proof (@prefix_read xs xc rec before pos op k s r (inner_counts Hs) Hr Hr' Hl) as E. unfold parse_prefix in E. rewrite <- (snd_iter g same) in E.
  apply counted_eta; [|exact E]. unfold cparse_prefix.
  assert (Sp : no_space (map Symbol (single (prefix_text op)) ++ spaces k ++ written_scripts s ++ r)) by (destruct op; reflexivity).
  etransitivity; [apply (fun H => @iter_count (prefix_ops g) before pos _ _ _ _ Sp H E); intros o Ho; right; now apply prefix_cheap|].
  apply (@op_count (prefix_op op) before pos _ (Leaf LOperator [prefix_text op]) (length (prefix_text op)) k s r); [exact I|exact Sp|exact Hr|exact Hr'|reflexivity| |reflexivity|exact Hs].
  exact (@text_token g rec (prefix_text op) LOperator _ _).
Qed.
Lemma iter_free ops before pos l : no_space l -> (forall o, In o ops -> fst (cparse_token g crec (op_token o) (pos + before, l)) = 0) ->
  snd (cparse_iter g crec ops (pos, spaces before ++ l)) = Ok None -> cparse_iter g crec ops (pos, spaces before ++ l) = (0, Ok None).
Proof.
  intros Hl. induction ops as [|o ops IH]; intros Ho H; [reflexivity|]. cbn [cparse_iter] in *. rewrite snd_cbind in H. pose proof (@op_cheap o before pos l Hl (Ho o (or_introl eq_refl))) as K.
  destruct (cparse_op g crec o (pos, spaces before ++ l)) as [k [[[n j]|]|p]]; cbn [bind snd free fst] in *; try discriminate H. rewrite (K eq_refl), cbind_ok, add_zero. apply IH; auto. intros. apply Ho. now right.
Qed.
(** What is in brackets *)
Definition bracket_counts (p before : nat) (f : Formula) (x : InputRow) : Prop := spelled xs xc f /\
  crec (0, Weak) (EndSymbol [41%N]) (S p, row_of before f ++ sign 41 :: x) = (S (effort f), Ok ((true, tree before (S p) f), (S p + before + width f, sign 41 :: x))).
Lemma bracket_token p before f x : bracket_counts p before f x ->
  fst (cparse_token g crec (TBrackets [40%N] [41%N]) (p, sign 40 :: row_of before f ++ sign 41 :: x)) = S (effort f) /\ brackets_ok xs xc rec p before f x.
Proof.
  intros [Hs H]. unfold brackets_ok.
  assert (T : cparse_token g crec (TBrackets [40%N] [41%N]) (p, sign 40 :: row_of before f ++ sign 41 :: x) = (S (effort f), Ok (Some (in_brackets p (tree before (S p) f), (p + (before + width f + 2), x))))).
  { cbn [cparse_token]. unfold just_symbol at 1. cbn [snd fst sign]. change (str_eqb [40%N] [40%N]) with true. cbv iota. change (Symbol [41%N]) with (sign 41). rewrite H, cbind_ok. unfold just_symbol. cbn [snd fst sign].
    change (str_eqb [41%N] [41%N]) with true. cbv iota. unfold span. cbn [fst]. rewrite !new_leaf. cbn [bind free fst snd]. unfold add. unfold free. cbn [fst snd]. rewrite Nat.add_0_r.  unfold in_brackets, op_leaf.
    pose proof (tree_end before (S p) f) as Te. unfold end_of in Te. rewrite Te. replace (p + (before + width f + 2)) with (S (S p + before + width f)) by lia. reflexivity. }
  split; [now rewrite T|]. split; [exact Hs|]. rewrite <- (snd_token g same), T. reflexivity.
Qed.
Definition atom_counts (p : nat) (x : InputRow) (a : Atom Formula) : Prop :=
  match a with
  | ABrackets before f => bracket_counts p before f x
  | ACells v w cells => forall before f, In (before, f) cells -> row_counts before f
  | _ => True
  end.
Definition postfix_counts (p : nat) (x : InputRow) (op : Postfix Formula) : Prop :=
  match op with
  | PApply before f => bracket_counts p before f x
  | PScript u before f => row_counts before f
  | _ => True
  end.
Lemma atom_counts_ok p x a : atom_counts p x a -> atom_ok xs xc rec p x a.
Proof. destruct a; cbn [atom_counts atom_ok]; auto; intros H; [now apply bracket_token|]. intros. now apply row_counts_snd, H. Qed.
Lemma postfix_counts_ok p x op : postfix_counts p x op -> postfix_ok xs xc rec p x op.
Proof. destruct op; cbn [postfix_counts postfix_ok]; auto; intros H; [now apply bracket_token|]. now apply row_counts_snd. Qed.
Lemma rules_cheap (rules : list (PathIdentifier * TokenParser)) n : forallb (fun '(_, t) => symbol_token t || negb (begins g n t)) rules = true ->
  forall pos r name t, In (name, t) rules -> fst (cparse_token g crec t (pos, n :: r)) = 0.
Proof.
  intros H pos r name t Hin. rewrite forallb_forall in H. apply H in Hin. apply orb_prop in Hin as [Hin|Hin]; [now apply symbol_cheap|]. apply negb_true_iff in Hin. now apply begins_cheap.
Qed.
Lemma ops_cheap (ops : list OpParser) n : forallb (fun o => symbol_token (op_token o) || negb (begins g n (op_token o))) ops = true ->
  forall pos r o, In o ops -> fst (cparse_token g crec (op_token o) (pos, n :: r)) = 0.
Proof.
  intros H pos r o Hin. rewrite forallb_forall in H. apply H in Hin. apply orb_prop in Hin as [Hin|Hin]; [now apply symbol_cheap|]. apply negb_true_iff in Hin. now apply begins_cheap.
Qed.
Lemma atom_symbols s r : str_eqb s [40%N] = false -> forall pos name t, In (name, t) (atom_rules g) -> fst (cparse_token g crec t (pos, Symbol s :: r)) = 0.
Proof.
  intros H pos name t. apply rules_cheap. cbn [atom_rules]. apply forallb_forall. intros [m u] Hin. destruct u; try reflexivity; cbn [symbol_token begins orb negb].
  assert (A : forallb (fun '(_, t) => match t with TBrackets a _ => str_eqb a [40%N] | _ => true end) (atom_rules g) = true) by reflexivity. rewrite forallb_forall in A. apply A in Hin.
  apply str_eqb_eq in Hin. subst. now rewrite H.
Qed.
Lemma atom_count before pos a k r : atom_spelled xs xc a -> ends r -> no_space r -> atom_counts (pos + before) (spaces k ++ r) a ->
  cparse_prefix g crec (pos, spaces before ++ atom_row a ++ spaces k ++ r) = (0, Ok None) /\
  cparse_atom g crec (pos, spaces before ++ atom_row a ++ spaces k ++ r) =
    (atom_effort a, Ok (Some (spaced (atom_name a) (atom_content (pos + before) a) pos before (length (atom_row a)) k, (pos + before + length (atom_row a) + k, r)))).
Proof.
  intros Hs Hr Hr' Ho. destruct (@atom_read xs xc HC rec before pos a k r Hs Hr Hr' (atom_counts_ok Ho)) as [E1 E2]. unfold parse_prefix in E1. unfold parse_atom in E2.
  rewrite <- (snd_iter g same) in E1. rewrite <- (snd_choice g same) in E2.
  assert (Sp : no_space (atom_row a ++ spaces k ++ r)) by (destruct (atom_head HC Hs) as (n&t&->&Hn); now apply head_no_space).
  split; [apply iter_free; auto; intros; now apply prefix_cheap|]. apply counted_eta; [|exact E2]. unfold cparse_atom. clear E1 E2.
  destruct a as [s l|c l d|c|l| |b a|v w cells]; cbn [atom_effort atom_spelled atom_counts] in *.
  - destruct Hs as ((c&t&->&Hc&Ht)&_). apply choice_cheap; [exact Sp|]. cbn [atom_row map app]. apply atom_symbols. apply str_neqb. apply (start_ne HC); [exact Hc|cbn; tauto].
  - apply choice_cheap; [exact Sp|]. unfold atom_row, number_symbols, single. cbn [map app]. apply atom_symbols. destruct Hs as (Hc&_). apply digit_neqb; [exact Hc|unfold digit; lia].
  - apply choice_cheap; [exact Sp|]. cbn [atom_row app]. apply atom_symbols. destruct c; reflexivity.
  - apply choice_cheap; [exact Sp|]. cbn [atom_row string_symbols map app]. apply atom_symbols. reflexivity.
  - change (atom_rules g) with (firstn 5 (atom_rules g) ++ (named "Core" "RoundBrackets", TEmptyBrackets [40%N] [41%N]) :: skipn 6 (atom_rules g)).
    erewrite choice_count; [reflexivity|exact Sp| |].
    + intros name t Hin. cbn [atom_row app]. split; [eapply (@rules_cheap (firstn 5 (atom_rules g))); [reflexivity|exact Hin]|eapply (@rules_begin g rec (firstn 5 (atom_rules g))); [reflexivity|exact Hin]].
    + rewrite (snd_rule g same). eapply rule_some; [exact Sp|exact Hr'| |apply new_empty]. cbn [atom_row app parse_token length]. replace (pos + before + 2) with (S (S (pos + before))) by lia. reflexivity.
  - destruct (bracket_token Ho) as [C [Ha Ho']].
    assert (Er : atom_row (ABrackets b a) ++ spaces k ++ r = sign 40 :: row_of b a ++ sign 41 :: spaces k ++ r) by (cbn [atom_row app]; rewrite <- app_assoc; reflexivity). rewrite Er in *.
    change (atom_rules g) with ((firstn 5 (atom_rules g) ++ [(named "Core" "RoundBrackets", TEmptyBrackets [40%N] [41%N])]) ++ (named "Core" "RoundBrackets", TBrackets [40%N] [41%N]) :: skipn 7 (atom_rules g)).
    erewrite choice_count; [exact C|exact Sp| |].
    + intros name t Hin. apply in_app_or in Hin as [Hin|[E|[]]].
      * split; [eapply (@rules_cheap (firstn 5 (atom_rules g))); [reflexivity|exact Hin]|eapply (@rules_begin g rec (firstn 5 (atom_rules g))); [reflexivity|exact Hin]].
      * inv E. split; [reflexivity|]. now apply (@not_empty xs xc HC rec).
    + rewrite (snd_rule g same). eapply rule_some; [reflexivity|exact Hr'|exact Ho'|apply new_in_brackets].
  - destruct Hs as (Hv&Hw&_&Hm).
    assert (Fv : exists n, v = Fraction /\ n = 10 \/ v = RootV /\ n = 9 \/ v = Table /\ n = 8) by (cbn in Hv; destruct Hv as [<-|[<-|[<-|[]]]]; eauto).
    destruct Fv as (n&Fv).
    assert (E : atom_rules g = firstn n (atom_rules g) ++ (cells_name v, TContainer v) :: skipn (S n) (atom_rules g)) by (destruct Fv as [[-> ->]|[[-> ->]|[-> ->]]]; reflexivity). rewrite E.
    cbn [atom_row app] in *. erewrite choice_count; [apply container_count; exact Ho|exact Sp| |].
    + intros name t Hin. split; [eapply (@rules_cheap (firstn n (atom_rules g))); [|exact Hin]|eapply (@rules_begin g rec (firstn n (atom_rules g))); [|exact Hin]]; destruct Fv as [[-> ->]|[[-> ->]|[-> ->]]]; reflexivity.
    + rewrite (snd_rule g same). eapply rule_some with (len := 1) (c := NewRows (mkGrid (map (fun '(before, a) => tree before 0 a) cells) w)); [exact Sp|exact Hr'| |reflexivity]. rewrite Nat.add_1_r. apply cell_token with (nodes := map (fun '(before, a) => tree before 0 a) cells); [|exact Hw|now rewrite map_length].
      clear -Ho same. induction cells as [|[b f] cells IH]; [constructor|]. cbn [map]. constructor; [apply row_counts_snd, Ho; now left|]. apply IH. intros. apply Ho. now right.
Qed.
Lemma postfix_count pos op k r : ends r -> no_space r -> postfix_counts pos (spaces k ++ r) op ->
  cparse_infix g crec (pos, postfix_row op ++ spaces k ++ r) = (0, Ok None) /\
  cparse_postfix g crec (pos, postfix_row op ++ spaces k ++ r) = (postfix_effort op, Ok (Some ((postfix_value pos op k, postfix_op op), (end_of (postfix_value pos op k), r)))).
Proof.
  intros Hr Hr' Ho. destruct (@postfix_read xs xc HC rec pos op k r Hr Hr' (postfix_counts_ok Ho)) as [E1 E2]. unfold parse_infix in E1. unfold parse_postfix in E2.
  rewrite <- (snd_iter g same) in E1, E2.
  assert (Sp : no_space (postfix_row op ++ spaces k ++ r)) by (destruct op; reflexivity).
  split; [apply (@iter_free (infix_ops g) 0); auto; intros; now apply infix_cheap|]. apply counted_eta; [|exact E2]. unfold cparse_postfix.
  assert (C : fst (cparse_iter g crec (postfix_ops g) (pos, postfix_row op ++ spaces k ++ r)) = fst (cparse_op g crec (postfix_op op) (pos, postfix_row op ++ spaces k ++ r))).
  { destruct op as [| |b f|u b f].
    - apply (fun H => @iter_count (postfix_ops g) 0 pos _ _ _ _ Sp H E2). rewrite Nat.add_0_r. intros o Hin. right. cbn [postfix_row app]. eapply (@ops_cheap (postfix_ops g)); [reflexivity|exact Hin].
    - change (postfix_ops g) with (@postfix_op PCall :: skipn 1 (postfix_ops g)). cbn [cparse_iter].
      assert (O : snd (cparse_op g crec (postfix_op PCall) (pos, postfix_row PCall ++ spaces k ++ r)) = Ok (Some (spaced operator_name (Children [op_leaf 40 pos; op_leaf 41 (S pos)]) pos 0 2 k, (pos + 2 + k, r)))).
      { rewrite (snd_op g same). eapply op_postfix; [reflexivity|reflexivity|exact Hr'| |apply new_empty]. cbn [postfix_row app length]. replace (pos + 2) with (S (S pos)) by lia. reflexivity. }
      rewrite (counted_eta eq_refl O), cbind_ok. unfold add, free. cbn [fst]. apply Nat.add_0_r.
    - apply (fun H => @iter_count (postfix_ops g) 0 pos _ _ _ _ Sp H E2). rewrite Nat.add_0_r. intros o Hin. cbn [postfix_row app].
      change (postfix_ops g) with ([postfix_op PCall] ++ postfix_op (PApply b f) :: skipn 2 (postfix_ops g)) in Hin. apply in_app_or in Hin as [Hin|[<-|Hin]]; [|now left|]; right.
      + eapply (@ops_cheap [postfix_op PCall]); [reflexivity|exact Hin].
      + eapply (@ops_cheap (skipn 2 (postfix_ops g))); [reflexivity|exact Hin].
    - apply (fun H => @iter_count (postfix_ops g) 0 pos _ _ _ _ Sp H E2). rewrite Nat.add_0_r. intros o Hin. cbn [postfix_row app].
      assert (A : forallb (fun o => symbol_token (op_token o) || negb (begins g (Container (script u) (mkGrid [row_of b f] 1)) (op_token o))) (filter (fun o => negb (match op_token o with TContainer v => variant_eqb v (script u) | _ => false end)) (postfix_ops g)) = true) by (destruct u; reflexivity).
      destruct (match op_token o with TContainer v => variant_eqb v (script u) | _ => false end) eqn:Eo.
      + left. cbn in Hin. repeat (destruct Hin as [<-|Hin]; [destruct u; first [reflexivity|discriminate Eo]|]). destruct Hin.
      + right. eapply (@ops_cheap _ (Container (script u) (mkGrid [row_of b f] 1)) A). apply filter_In. split; [exact Hin|]. now rewrite Eo. }
  refine (eq_trans C _). unfold cparse_op. cbn [op_power postfix_op]. pose proof (rule_count operator_rule_name (op_token (postfix_op op)) 0 pos Sp) as R. rewrite Nat.add_0_r in R. cbn [spaces repeat app] in R. rewrite R. clear R C.
  destruct op as [| |b f|u b f]; cbn [postfix_effort postfix_counts op_token postfix_op postfix_token] in *.
  - reflexivity.
  - reflexivity.
  - destruct (bracket_token Ho) as [C _]. cbn [postfix_row app]. rewrite <- app_assoc. exact C.
  - pose proof (@container_count (script u) 1 [(b, f)] pos (spaces k ++ r)) as C. cbn [map cells_effort fold_right] in C. cbn [postfix_row app]. rewrite C; [lia|]. intros b' f' [E|[]]. inv E. exact Ho.
Qed.
End Tokens.

(** ** Sizes *)
Lemma size_app a b : row_size (a ++ b) = row_size a + row_size b.
Proof. unfold row_size. now rewrite map_app, list_sum_app. Qed.
Lemma size_cons n r : row_size (n :: r) = node_size n + row_size r.
Proof. reflexivity. Qed.
Lemma node_size_pos n : 0 < node_size n.
Proof. destruct n as [v [cells w]|s]; cbn; lia. Qed.
Lemma size_length r : length r <= row_size r.
Proof. induction r as [|n r IH]; [cbn; lia|]. rewrite size_cons. pose proof (node_size_pos n). cbn [length]. lia. Qed.
Lemma size_in n r : In n r -> node_size n <= row_size r.
Proof. induction r as [|m r IH]; [intros []|]. rewrite size_cons. intros [->|H]; [lia|]. apply IH in H. lia. Qed.
Lemma sum_in A (f : A -> nat) l x : In x l -> f x <= list_sum (map f l).
Proof. induction l as [|y l IH]; [intros []|]. change (list_sum (map f (y :: l))) with (f y + list_sum (map f l)). intros [->|H]; [lia|]. apply IH in H. lia. Qed.
Lemma size_inner v cells w c r : In (Container v (mkGrid cells w)) r -> In c cells -> row_size c < row_size r.
Proof.
  intros H Hc. apply size_in in H. cbn [node_size] in H. pose proof (sum_in (fun cell => S (list_sum (map node_size cell))) Hc) as Z. cbv beta in Z. unfold row_size at 1. lia.
Qed.

(** ** Formulas *)
Section Formulas.
Variables xs xc : N -> bool.
Hypothesis HC : classes_ok xs xc.
Local Notation g := (default_grammar xs xc).
Local Notation loop m := (cpratt_loop g (cpratt_parse g m)).
Local Notation step m := (cpratt_step g (cpratt_parse g m)).
Lemma parse_step n min e i : cpratt_parse g (S n) min e i = add 1 (step n min e i).
Proof. cbn [cpratt_parse]. destruct (step n min e i). reflexivity. Qed.
Lemma loop_end m k s e lhs q : 0 < k -> loop m k s e lhs (q, []) = (0, Ok ((true, lhs), (q, []))).
Proof. destruct k as [|k]; [lia|]. reflexivity. Qed.
Lemma close_free crec q x : cparse_infix g crec (q, sign 41 :: x) = (0, Ok None) /\ cparse_postfix g crec (q, sign 41 :: x) = (0, Ok None) /\
  cparse_prefix g crec (q, sign 41 :: x) = (0, Ok None) /\ cparse_atom g crec (q, sign 41 :: x) = (0, Ok None).
Proof.
  set (rec := fun m e i => snd (crec m e i)). assert (same : forall min e i, snd (crec min e i) = rec min e i) by reflexivity.
  assert (Sp : no_space (sign 41 :: x)) by reflexivity. split; [|split; [|split]].
  - apply (@iter_free xs xc crec (infix_ops g) 0 q _ Sp); [intros; now apply infix_cheap|]. rewrite (snd_iter g same). apply (@iter_none g rec 0); [reflexivity|]. now apply ops_begin.
  - apply (@iter_free xs xc crec (postfix_ops g) 0 q _ Sp); [intros; eapply (@ops_cheap xs xc crec (postfix_ops g)); [reflexivity|eassumption]|]. rewrite (snd_iter g same). apply (@iter_none g rec 0); [reflexivity|]. now apply ops_begin.
  - apply (@iter_free xs xc crec (prefix_ops g) 0 q _ Sp); [intros; now apply prefix_cheap|]. rewrite (snd_iter g same). apply (@iter_none g rec 0); [reflexivity|]. now apply ops_begin.
  - apply counted_eta.
    + apply (@choice_cheap xs xc crec (atom_rules g) 0 q _ Sp). intros name t. apply atom_symbols. reflexivity.
    + unfold cparse_atom. rewrite (snd_choice g same). apply (@choice_none g rec 0); [reflexivity|]. apply rules_begin. cbn. now rewrite (proj1 (proj1 HC 41%N ltac:(cbn; tauto))).
Qed.
Lemma loop_close m k s lhs q x : 0 < k -> loop m k s (EndSymbol [41%N]) lhs (q, sign 41 :: x) = (0, Ok ((true, lhs), (q, sign 41 :: x))).
Proof.
  destruct k as [|k]; [lia|]. intros _. destruct (close_free (cpratt_parse g m) q x) as (E1&E2&E3&E4). cbn [cpratt_loop at_end snd]. change (at_end (q, sign 41 :: x)) with false. cbv iota.
  rewrite E1, cbind_ok, add_zero. rewrite E2, cbind_ok, add_zero.
  destruct (@can_iter g (cpratt_parse g m) (prefix_ops g) (q, sign 41 :: x) None (f_equal snd E3)) as [S3 C3]. destruct (@can_choice g (cpratt_parse g m) (atom_rules g) (q, sign 41 :: x) None (f_equal snd E4)) as [S4 C4].
  fold (cparse_prefix g (cpratt_parse g m)) in C3. fold (cparse_atom g (cpratt_parse g m)) in C4. fold (ccan_prefix g (cpratt_parse g m)) in S3, C3. fold (ccan_atom g (cpratt_parse g m)) in S4, C4.
  rewrite E3 in C3. rewrite E4 in C4. cbn [fst] in C3, C4.
  rewrite (@counted_eta _ (ccan_prefix g (cpratt_parse g m) (q, sign 41 :: x)) 0 _ ltac:(lia) S3), (@counted_eta _ (ccan_atom g (cpratt_parse g m) (q, sign 41 :: x)) 0 _ ltac:(lia) S4). reflexivity.
Qed.
Lemma loop_weaker m k s e lhs q op j sc r : (forall u b a i, In (u, b, a, i) sc -> row_counts (cpratt_parse g m) b a) -> no_space r -> no_script r -> weaker (left_power (infix_op op)) s -> 0 < k ->
  loop m k s e lhs (q, sign (infix_char op) :: spaces j ++ written_scripts sc ++ r) = (scripts_effort sc, Ok ((false, lhs), (q, sign (infix_char op) :: spaces j ++ written_scripts sc ++ r))).
Proof.
  intros Hs Hr Hr' Hw Hk. destruct k as [|k]; [lia|]. cbn [cpratt_loop]. unfold at_end. cbn [snd]. rewrite (@infix_count xs xc (cpratt_parse g m) q op j sc r Hs Hr Hr'), cbind_ok. apply power_ltb_iff in Hw.
  change (strength_left (op_power (infix_op op))) with (left_power (infix_op op)). rewrite Hw. unfold add, free. cbn [fst snd]. now rewrite Nat.add_0_r.
Qed.
Definition counted_reads (f : Formula) : Prop := forall n min e before pos rest look (stopped : bool),
  ends rest -> no_space rest -> row_size (row_of before f ++ rest) <= n ->
  (forall s, In s (left_edge (expr before pos f)) -> ~ weaker s min) ->
  (forall m k s lhs, row_size rest <= m -> In s (right_edge (expr before pos f)) -> 0 < k ->
    loop m k s e lhs (pos + before + width f, rest) = (look, Ok ((stopped, lhs), (pos + before + width f, rest)))) ->
  (stopped = true -> forall m k s lhs, 0 < k -> loop m k s e lhs (pos + before + width f, rest) = (0, Ok ((true, lhs), (pos + before + width f, rest)))) ->
  exists k, length rest < k /\ step n min e (pos, row_of before f ++ rest) =
    add (effort f + pending f * look) (loop n k min e (tree before pos f) (pos + before + width f, rest)).
Lemma not_weaker_zero s : ~ weaker s (0, Weak).
Proof. unfold weaker. cbn. intros [H|(_&_&H)]; [lia|discriminate H]. Qed.
Lemma reads_row f before n : counted_reads f -> row_size (row_of before f) < n -> row_counts (cpratt_parse g n) before f.
Proof.
  intros H Hn. destruct n as [|n]; [lia|]. unfold row_counts, cparse_row_with. rewrite parse_step.
  destruct (H n (0, Weak) EndInput before 0 [] 0 true) as (k&Hk&E).
  - exact I.
  - exact I.
  - rewrite app_nil_r. lia.
  - intros. apply not_weaker_zero.
  - intros. now apply loop_end.
  - intros. now apply loop_end.
  - rewrite app_nil_r in E. rewrite E. rewrite loop_end by lia. unfold add. cbn [fst snd cbind at_end free]. f_equal; lia.
Qed.
Lemma reads_brackets f before p x n : counted_reads f -> spelled xs xc f -> row_size (row_of before f ++ sign 41 :: x) < n -> bracket_counts xs xc (cpratt_parse g n) p before f x.
Proof.
  intros H Hs Hn. split; [exact Hs|]. destruct n as [|n]; [lia|]. rewrite parse_step.
  destruct (H n (0, Weak) (EndSymbol [41%N]) before (S p) (sign 41 :: x) 0 true) as (k&Hk&E).
  - exists 41%N. split; [reflexivity|cbn; tauto].
  - reflexivity.
  - lia.
  - intros. apply not_weaker_zero.
  - intros. now apply loop_close.
  - intros. now apply loop_close.
  - rewrite E. rewrite loop_close by lia. unfold add. cbn [fst snd]. f_equal; lia.
Qed.
(** An operand of an operator *)
Lemma reads_operand f n s e pos rest look stopped : counted_reads f -> ends rest -> no_space rest -> row_size (written f ++ rest) < n -> holds_right s (expr 0 pos f) ->
  (forall m k s' lhs, row_size rest <= m -> s' = s \/ In s' (right_edge (expr 0 pos f)) -> 0 < k -> loop m k s' e lhs (pos + width f, rest) = (look, Ok ((stopped, lhs), (pos + width f, rest)))) ->
  (stopped = true -> forall m k s lhs, 0 < k -> loop m k s e lhs (pos + width f, rest) = (0, Ok ((true, lhs), (pos + width f, rest)))) ->
  cpratt_parse g n s e (pos, written f ++ rest) = (S (effort f + pending f * look + look), Ok ((stopped, tree 0 pos f), (pos + width f, rest))).
Proof.
  intros H Hr Hr' Hn Hh Hs Ht. destruct n as [|n]; [lia|]. rewrite parse_step.
  destruct (H n s e 0 pos rest look stopped) as (k&Hk&E); rewrite ?Nat.add_0_r; auto.
  - change (row_of 0 f) with (written f). lia.
  - change (row_of 0 f) with (written f) in E. rewrite E, Nat.add_0_r. rewrite size_app in Hn. rewrite Hs by first [lia|now left]. unfold add. cbn [fst snd]. f_equal; lia.
Qed.
(** The trees *)
Lemma prefix_tree before p op k s a : build_prefix (op_name (prefix_op op)) (prefix_value before p op k s) (tree 0 (end_of (prefix_value before p op k s)) a) = Ok (tree before p (FPrefix op k s a)).
Proof.
  rewrite tree_prefix. unfold build_prefix. set (v := prefix_value before p op k s).
  pose proof (prefix_value_start before p op k s) as S1. pose proof (prefix_value_end before p op k s) as E1. fold v in S1, E1. pose proof (tree_start 0 (end_of v) a) as S2. pose proof (tree_end 0 (end_of v) a) as E2.
  rewrite width_prefix. unfold combine_ranges. unfold start_of, end_of in *. rewrite S1, S2, E2, E1 in *.
  replace (Nat.min p (p + before + length (prefix_text op) + k + length (written_scripts s))) with p by lia.
  replace (Nat.max (p + before + length (prefix_text op) + k + length (written_scripts s)) (p + before + length (prefix_text op) + k + length (written_scripts s) + 0 + width a)) with
    (p + before + (length (prefix_text op) + k + length (written_scripts s) + width a)) by lia.
  apply new_two; unfold start_of, end_of; rewrite ?S1, ?E1, ?S2, ?E2; lia.
Qed.
Lemma infix_tree before p a op k s b : let v := infix_value (p + before + width a) op k s in build_infix (op_name (infix_op op)) v (tree before p a) (tree 0 (end_of v) b) = Ok (tree before p (FInfix a op k s b)).
Proof.
  cbv zeta. rewrite tree_infix. cbv zeta. unfold build_infix. set (v := infix_value (p + before + width a) op k s).
  pose proof (infix_value_start (p + before + width a) op k s) as S1. pose proof (infix_value_end (p + before + width a) op k s) as E1. fold v in S1, E1.
  pose proof (tree_start 0 (end_of v) b) as S2. pose proof (tree_end 0 (end_of v) b) as E2. pose proof (tree_start before p a) as S3. pose proof (tree_end before p a) as E3.
  rewrite width_infix. unfold combine_ranges. unfold start_of, end_of in *. cbn [fst snd]. rewrite S1, S2, S3, E2, E3, E1 in *.
  match goal with |- syntax_node_new _ (?x, ?y) _ = _ => replace x with p by lia; replace y with (p + before + (width a + 1 + k + length (written_scripts s) + width b)) by lia end.
  apply new_three; unfold start_of, end_of; rewrite ?S1, ?E1, ?S2, ?E2, ?S3, ?E3; lia.
Qed.
Lemma postfix_tree before p a op k : build_postfix (op_name (postfix_op op)) (postfix_value (p + before + width a) op k) (tree before p a) = Ok (tree before p (FPostfix a op k)).
Proof.
  rewrite tree_postfix. unfold build_postfix. set (v := postfix_value (p + before + width a) op k).
  pose proof (postfix_value_start (p + before + width a) op k) as S1. pose proof (postfix_value_end (p + before + width a) op k) as E1. fold v in S1, E1.
  pose proof (tree_start before p a) as S3. pose proof (tree_end before p a) as E3.
  rewrite width_postfix. unfold combine_ranges. unfold start_of, end_of in *. cbn [fst snd]. rewrite S1, S3, E3, E1 in *.
  match goal with |- syntax_node_new _ (?x, ?y) _ = _ => replace x with p by lia; replace y with (p + before + (width a + length (postfix_row op) + k)) by lia end.
  apply new_two; unfold start_of, end_of; rewrite ?S1, ?E1, ?S3, ?E3; lia.
Qed.
Lemma not_at_end pos l : l <> [] -> at_end (pos, l) = false.
Proof. destruct l; [congruence|reflexivity]. Qed.
Theorem count_formula f : spelled xs xc f -> forall l r, r <= 6 -> conventional l r f -> counted_reads f.
Proof.
  induction f as [a k IHa|op k s a IHs IHa|a op k s b IHa IHs IHb|a op k IHa IHo] using formula_induction; intros Hs l r Hr6 Hc n min e before pos rest look stopped Hr Hr' Hn Hleft Hstop Hend.
  - apply spelled_atom in Hs as [Ha Hi]. rewrite conventional_atom in Hc. unfold row_of in *. rewrite written_atom in *. rewrite <- !app_assoc in *. rewrite effort_atom, width_atom in *. cbn [pending].
    assert (Hne : atom_row a <> []) by (destruct (atom_head HC Ha) as (x&t&->&_); discriminate).
    assert (Ho : atom_counts xs xc (cpratt_parse g n) (pos + before) (spaces k ++ rest) a).
    { destruct a as [s t|c t d|c|t| |b a|v w cells]; cbn [atom_counts]; try exact I.
      - apply reads_brackets; [|now apply Hi|].
        + exact (IHa a eq_refl (Hi a eq_refl) 0 0 ltac:(lia) (Hc a eq_refl)).
        + cbn [atom_row app] in Hn. rewrite <- app_assoc in Hn. cbn [app] in Hn. rewrite !size_app, !size_cons in Hn. rewrite !size_app in Hn. rewrite size_app. rewrite !size_cons in *. rewrite !size_app in *. cbn [node_size sign] in *. lia.
      - intros b f Hf. assert (Hin : in_atom f (ACells v w cells)) by (cbn; eauto). apply reads_row.
        + exact (IHa f Hin (Hi f Hin) 0 0 ltac:(lia) (Hc f Hin)).
        + eapply Nat.lt_le_trans; [|exact Hn]. eapply (@size_inner v (map (fun '(before, a) => row_of before a) cells) w).
          * apply in_or_app. right. now left.
          * apply in_map_iff. exists (b, f). auto. }
    destruct (atom_count HC Ha Hr Hr' Ho) as [E1 E2]. exists (S (length rest)). split; [lia|]. unfold cpratt_step, cpratt_first.
    rewrite not_at_end by (intros E; apply app_eq_nil in E as [_ E]; apply app_eq_nil in E as [E _]; contradiction).
    rewrite E1, cbind_ok, add_zero. rewrite E2, cbind_ok. unfold add at 1. cbn [fst snd free]. rewrite cbind_ok. rewrite tree_atom. cbn [snd]. rewrite !Nat.add_0_r, !Nat.add_assoc. reflexivity.
  - apply spelled_prefix in Hs as (Hss&Ha&Hlim). pose proof (@expr_respects (FPrefix op k s a) l r before pos Hr6 Hc) as Rs. apply conventional_prefix in Hc as (_&Hcs&Hca). unfold row_of in *. rewrite written_prefix in *. rewrite <- !app_assoc in *.
    assert (Hq : pos + before + width (FPrefix op k s a) = end_of (prefix_value before pos op k s) + width a) by (rewrite prefix_value_end, width_prefix; lia). rewrite Hq in *.
    assert (Ho : forall u b f j, In (u, b, f, j) s -> row_counts (cpratt_parse g n) b f).
    { intros u b f j Hin. assert (Hf : in_scripts f s) by (exists u, b, j; exact Hin). apply reads_row; [exact (IHs f Hf (Hss f Hf) 0 0 ltac:(lia) (Hcs f Hf))|].
      eapply Nat.lt_le_trans; [|exact Hn]. eapply (@size_inner (script u) [row_of b f] 1); [|now left].
      apply in_or_app. right. apply in_or_app. right. apply in_or_app. right. apply in_or_app. left. unfold written_scripts. apply in_flat_map. exists (u, b, f, j). split; [exact Hin|now left]. }
    assert (N3 : op = Lim -> k = 0 -> s = [] -> firstn 3 (written a ++ rest) <> map Symbol (single (lit "sup")) /\ firstn 3 (written a ++ rest) <> map Symbol (single (lit "inf"))).
    { intros X1 X2 X3. destruct (Hlim X1 X2 X3) as [N1 N2]. split; [apply (@firstn_ends (lit "sup"))|apply (@firstn_ends (lit "inf"))]; try assumption; apply letters_no_stops; reflexivity. }
    pose proof (@prefix_count xs xc (cpratt_parse g n) before pos op k s (written a ++ rest) Ho (written_no_space HC rest Ha) (written_no_script HC rest Ha) N3) as R.
    pose proof (IHa Ha _ r Hr6 Hca) as Ia. cbn [expr respects] in Rs. destruct Rs as [_ Hh].
    assert (Op : cpratt_parse g n (strength_right (op_power (prefix_op op))) e (end_of (prefix_value before pos op k s), written a ++ rest) =
      (S (effort a + pending a * look + look), Ok ((stopped, tree 0 (end_of (prefix_value before pos op k s)) a), (end_of (prefix_value before pos op k s) + width a, rest)))).
    { apply reads_operand; auto.
      - rewrite !size_app in Hn. rewrite size_app. assert (0 < row_size (map Symbol (single (prefix_text op)))) by (destruct op; cbn; lia). lia.
      - intros m j s' lhs Hm Hs' Hj. apply Hstop; auto. cbn [expr right_edge]. destruct Hs' as [->|Hs']; [now left|now right]. }
    exists (S (length rest)). split; [lia|]. unfold cpratt_step, cpratt_first.
    rewrite not_at_end by (intros E; apply app_eq_nil in E as [_ E]; destruct op; discriminate E).
    rewrite R, cbind_ok, Op, cbind_ok, prefix_tree. cbn [bind]. unfold add at 1 2. cbn [fst snd free]. rewrite cbind_ok. rewrite effort_prefix. cbn [pending].
    destruct stopped.
    + rewrite Hend by lia. unfold add, free. cbn [fst snd]. f_equal. lia.
    + unfold add. cbn [fst snd]. apply f_equal2; [|reflexivity]. refine (f_equal2 Nat.add _ eq_refl). lia.
  - apply spelled_infix in Hs as (Ha&Hss&Hb). pose proof (@expr_respects (FInfix a op k s b) l r before pos Hr6 Hc) as Rs. apply conventional_infix in Hc as (_&_&Hcs&Hca&Hcb). pose proof (level_le op) as Hle.
    assert (Ew : row_of before (FInfix a op k s b) ++ rest = row_of before a ++ sign (infix_char op) :: spaces k ++ written_scripts s ++ written b ++ rest).
    { unfold row_of. rewrite written_infix. rewrite <- !app_assoc. cbn [app]. rewrite <- !app_assoc. reflexivity. } rewrite Ew in *. clear Ew.
    remember (pos + before + width a) as q eqn:Eq. pose proof (infix_value_end q op k s) as Pe.
    assert (Hq : pos + before + width (FInfix a op k s b) = end_of (infix_value q op k s) + width b) by (rewrite Pe, width_infix; lia). rewrite Hq in *.
    assert (Hsz : row_size (sign (infix_char op) :: spaces k ++ written_scripts s ++ written b ++ rest) <= n) by (rewrite size_app in Hn; lia).
    assert (Ho : forall m, row_size (sign (infix_char op) :: spaces k ++ written_scripts s ++ written b ++ rest) <= m -> forall u b f j, In (u, b, f, j) s -> row_counts (cpratt_parse g m) b f).
    { intros m Hm u b0 f j Hin. assert (Hf : in_scripts f s) by (exists u, b0, j; exact Hin). apply reads_row; [exact (IHs f Hf (Hss f Hf) 0 0 ltac:(lia) (Hcs f Hf))|].
      eapply Nat.lt_le_trans; [|exact Hm]. eapply (@size_inner (script u) [row_of b0 f] 1); [|now left].
      right. apply in_or_app. right. apply in_or_app. left. unfold written_scripts. apply in_flat_map. exists (u, b0, f, j). split; [exact Hin|now left]. }
    cbn [expr respects] in Rs. rewrite <- Eq in Rs. destruct Rs as (_&_&Hhl&Hhr).
    pose proof (written_no_space HC rest Hb) as Nb. pose proof (written_no_script HC rest Hb) as Nb'.
    destruct (IHa Ha l (level op) ltac:(lia) Hca n min e before pos (sign (infix_char op) :: spaces k ++ written_scripts s ++ written b ++ rest) (scripts_effort s) false) as (ka&Hka&Ea).
    { exists (infix_char op). split; [reflexivity|destruct op; cbn; tauto]. }
    { destruct op; reflexivity. }
    { exact Hn. }
    { intros x Hx. apply Hleft. cbn [expr left_edge]. now right. }
    { intros m j x lhs Hm Hx Hj. rewrite <- Eq. apply loop_weaker; auto. now apply Ho. }
    { discriminate. }
    rewrite <- Eq in Ea. destruct ka as [|ka]; [lia|].
    assert (Op : cpratt_parse g n (strength_right (op_power (infix_op op))) e (end_of (infix_value q op k s), written b ++ rest) =
      (S (effort b + pending b * look + look), Ok ((stopped, tree 0 (end_of (infix_value q op k s)) b), (end_of (infix_value q op k s) + width b, rest)))).
    { apply reads_operand; auto.
      - exact (IHb Hb _ r Hr6 Hcb).
      - rewrite size_cons, !size_app in Hsz. rewrite size_app. cbn [node_size sign] in Hsz. lia.
      - intros m j s' lhs Hm Hs' Hj. apply Hstop; auto. cbn [expr right_edge]. rewrite <- Eq. destruct Hs' as [->|Hs']; [now left|now right]. }
    exists ka. split. { cbn [length] in Hka. rewrite !app_length in Hka. pose proof (width_pos HC Hb) as Hw. unfold width in Hw. lia. }
    rewrite Ea. cbn [cpratt_loop]. rewrite not_at_end by discriminate. rewrite (@infix_count xs xc (cpratt_parse g n) q op k s _ (Ho n Hsz) Nb Nb'), cbind_ok.
    replace (power_ltb (strength_left (op_power (infix_op op))) min) with false.
    2: { symmetry. apply power_ltb_false. apply (Hleft (left_power (infix_op op))). cbn [expr left_edge]. now left. }
    rewrite Op, cbind_ok. pose proof (@infix_tree before pos a op k s b) as T. cbv zeta in T. rewrite <- Eq in T. rewrite T, cbind_free. rewrite effort_infix. cbn [pending].
    destruct stopped.
    + destruct ka as [|ka]; [cbn [length] in Hka; rewrite !app_length in Hka; pose proof (width_pos HC Hb) as Hw; unfold width in Hw; lia|]. rewrite Hend by lia. unfold add, free. cbn [fst snd]. f_equal; lia.
    + rewrite !add_add. apply f_equal2; [lia|reflexivity].
  - apply spelled_postfix in Hs as (Ha&Hi). apply conventional_postfix in Hc as (Hca&Hci). clear Hr6.
    assert (Ew : row_of before (FPostfix a op k) ++ rest = row_of before a ++ postfix_row op ++ spaces k ++ rest).
    { unfold row_of. rewrite written_postfix. now rewrite <- !app_assoc. } rewrite Ew in *. clear Ew.
    remember (pos + before + width a) as q eqn:Eq. pose proof (postfix_value_end q op k) as Pe.
    assert (Hq : pos + before + width (FPostfix a op k) = end_of (postfix_value q op k)) by (rewrite Pe, width_postfix; lia). rewrite Hq in *.
    destruct (@edges a l 6 before pos ltac:(lia) Hca) as (_&_&Re). specialize (Re eq_refl).
    assert (Hsz : row_size (postfix_row op ++ spaces k ++ rest) <= n) by (rewrite size_app in Hn; lia).
    destruct (IHa Ha l 6 ltac:(lia) Hca n min e before pos (postfix_row op ++ spaces k ++ rest) 0 false) as (ka&Hka&Ea).
    { destruct op; cbn; auto; eexists; (split; [reflexivity|cbn; tauto]). }
    { destruct op; reflexivity. }
    { exact Hn. }
    { intros x Hx. apply Hleft. cbn [expr left_edge]. now right. }
    { intros m j x lhs Hm Hx. rewrite Re in Hx. destruct Hx. }
    { discriminate. }
    rewrite <- Eq in Ea. destruct ka as [|ka]; [lia|].
    assert (Ho : postfix_counts xs xc (cpratt_parse g n) q (spaces k ++ rest) op).
    { destruct op as [| |b f|u b f]; cbn [postfix_counts]; try exact I.
      - apply reads_brackets; [exact (IHo f eq_refl (Hi f eq_refl) 0 0 ltac:(lia) (Hci f eq_refl))|now apply Hi|].
        cbn [postfix_row app] in Hsz. rewrite <- app_assoc in Hsz. cbn [app] in Hsz. rewrite size_cons in Hsz. cbn [node_size sign] in Hsz. unfold sign in *. lia.
      - apply reads_row; [exact (IHo f eq_refl (Hi f eq_refl) 0 0 ltac:(lia) (Hci f eq_refl))|]. eapply Nat.lt_le_trans; [|exact Hsz]. eapply (@size_inner (script u) [row_of b f] 1); now left. }
    destruct (postfix_count HC Hr Hr' Ho) as [E1 E2]. exists ka. split. { rewrite !app_length in Hka. destruct op; cbn [postfix_row length] in Hka; lia. }
    rewrite Ea. cbn [cpratt_loop]. rewrite not_at_end by (destruct op; discriminate). rewrite E1, cbind_ok, add_zero. rewrite E2, cbind_ok.
    replace (power_ltb (strength_left (op_power (postfix_op op))) min) with false.
    2: { symmetry. apply power_ltb_false. apply (Hleft (left_power (postfix_op op))). cbn [expr left_edge]. now left. }
    pose proof (@postfix_tree before pos a op k) as T. rewrite <- Eq in T. rewrite T, cbind_free. rewrite effort_postfix. cbn [pending]. rewrite !add_add. apply f_equal2; [|reflexivity].
    rewrite (pending_edge a before pos), Re. cbn [length]. lia.
Qed.
Theorem formula_calls before f : spelled xs xc f -> conventional 0 0 f -> calls g (spaces before ++ written f) = S (effort f).
Proof.
  intros Hs Hc. unfold calls, cparse. change (spaces before ++ written f) with (row_of before f). pose proof (@reads_row f before (S (row_size (row_of before f))) (@count_formula f Hs 0 0 ltac:(lia) Hc) ltac:(lia)) as R.
  unfold row_counts in R. now rewrite R.
Qed.
End Formulas.

(** ** Steady formulas *)
Lemma scripts_size s : (forall f, in_scripts f s -> effort f < row_size (written f)) -> scripts_effort s <= row_size (written_scripts s).
Proof.
  induction s as [|[[[u b] a] k] s IH]; intros H; [cbn; lia|]. change (scripts_effort ((u, b, a, k) :: s)) with (S (effort a) + scripts_effort s).
  change (written_scripts ((u, b, a, k) :: s)) with ((Container (script u) (mkGrid [row_of b a] 1) :: spaces k) ++ written_scripts s). rewrite size_app, size_cons.
  assert (A : effort a < row_size (written a)) by (apply H; exists u, b, k; now left). assert (B : scripts_effort s <= row_size (written_scripts s)).
  { apply IH. intros f (u'&b'&k'&Hf). apply H. exists u', b', k'. now right. }
  cbn [node_size map]. fold (row_size (row_of b a)). unfold row_of. rewrite size_app. change (list_sum [S (row_size (spaces b) + row_size (written a))]) with (S (row_size (spaces b) + row_size (written a)) + 0). lia.
Qed.
Lemma cells_size cells : (forall b f, In (b, f) cells -> effort f < row_size (written f)) ->
  cells_effort cells <= list_sum (map (fun cell => S (list_sum (map node_size cell))) (map (fun '(b, a) => row_of b a) cells)).
Proof.
  induction cells as [|[b a] cells IH]; intros H; [cbn; lia|]. change (cells_effort ((b, a) :: cells)) with (S (effort a) + cells_effort cells).
  cbn [map]. match goal with |- _ <= list_sum (S ?x :: ?y) => change (list_sum (S x :: y)) with (S x + list_sum y) end. fold (row_size (row_of b a)). unfold row_of at 1. rewrite size_app.
  pose proof (H b a (or_introl eq_refl)). assert (B : cells_effort cells <= list_sum (map (fun cell => S (list_sum (map node_size cell))) (map (fun '(b, a) => row_of b a) cells))) by (apply IH; intros; eapply H; right; eauto). lia.
Qed.
Lemma steady_atom a k : steady (FAtom a k) -> forall f, in_atom f a -> steady f.
Proof. destruct a as [s t|c t d|c|t| |b a|v w cells]; cbn [steady in_atom]; try (intros _ ? []; fail); [now intros H f <-|]. intros H. now apply fold_cells. Qed.
Lemma steady_effort f : steady f -> effort f < row_size (written f).
Proof.
  induction f as [a k IHa|op k s a IHs IHa|a op k s b IHa IHs IHb|a op k IHa IHo] using formula_induction; intros H.
  - rewrite effort_atom, written_atom, size_app. pose proof (steady_atom H) as Hi.
    destruct a as [s t|c t d|c|t| |b a|v w cells]; cbn [atom_effort atom_row]; try (cbn; lia).
    + rewrite size_cons, !size_app, size_cons. pose proof (IHa a eq_refl (Hi a eq_refl)). unfold row_of in *. rewrite ?size_app. cbn [node_size sign] in *. lia.
    + rewrite size_cons. cbn [node_size]. pose proof (@cells_size cells (fun b f Hf => IHa f (ex_intro _ b Hf) (Hi f (ex_intro _ b Hf)))). lia.
  - destruct H as [H1 H2]. pose proof (proj1 (@fold_scripts steady s) H1) as H1'. rewrite effort_prefix, written_prefix, !size_app. pose proof (IHa H2). pose proof (@scripts_size s (fun f Hf => IHs f Hf (H1' f Hf))).
    assert (0 < row_size (map Symbol (single (prefix_text op)))) by (destruct op; cbn; lia). lia.
  - destruct H as (H1&H2&H3&H4). pose proof (proj1 (@fold_scripts steady s) H3) as H3'. rewrite effort_infix, written_infix, size_app, size_cons, !size_app. pose proof (IHa H1). pose proof (IHb H4). pose proof (@scripts_size s (fun f Hf => IHs f Hf (H3' f Hf))).
    assert (S (pending a) * scripts_effort s <= row_size (written_scripts s)) by (destruct H2 as [->| ->]; cbn in *; lia). cbn [node_size sign]. lia.
  - destruct H as [H1 H2]. rewrite effort_postfix, written_postfix, !size_app. pose proof (IHa H1). destruct op as [| |b f|u b f]; cbn [postfix_effort]; try lia; pose proof (IHo f eq_refl H2); cbn [postfix_row].
    + rewrite size_cons, !size_app, size_cons. unfold row_of in *. rewrite ?size_app. cbn [node_size sign]. lia.
    + rewrite size_cons. cbn [node_size map]. fold (row_size (row_of b f)). unfold row_of. rewrite size_app. change (list_sum [S (row_size (spaces b) + row_size (written f))]) with (S (row_size (spaces b) + row_size (written f)) + 0). lia.
Qed.
