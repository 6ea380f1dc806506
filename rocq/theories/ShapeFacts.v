(** The shape of the trees that the parser returns, in terms of the rules of the grammar. *)
From Coq Require Import String.
From Verif Require Import Base Str Grid Node Focus Autocomplete Spec NameMap Syntax Pratt SpecSyntax SpecPratt BaseFacts TreeFacts ParseFacts ParseTotal.
Open Scope list_scope.
Open Scope nat_scope.
Set Implicit Arguments.
Unset Strict Implicit.

Definition blank (row : InputRow) (k : nat) : Prop := nth_error row k = Some (Symbol space).
Definition space_leaf (s e : nat) : SyntaxNode := mkSyntax whitespace_rule_name (Leaf LOperator (repeat space (e - s))) s e.
Inductive spaces (row : InputRow) : nat -> nat -> option SyntaxNode -> Prop :=
| spaces_none s : spaces row s s None
| spaces_some s e : s < e -> (forall k, s <= k < e -> blank row k) -> spaces row s e (Some (space_leaf s e)).
Definition wrap (before : option SyntaxNode) (n : SyntaxNode) (after : option SyntaxNode) (s e : nat) : SyntaxNode :=
  match before, after with
  | None, None => n
  | Some b, None => mkSyntax whitespaces_rule_name (Children [b; n]) s e
  | None, Some a => mkSyntax whitespaces_rule_name (Children [n; a]) s e
  | Some b, Some a => mkSyntax whitespaces_rule_name (Children [b; n; a]) s e
  end.
Definition op_leaf (s : str) (p : nat) : SyntaxNode := mkSyntax operator_rule_name (Leaf LOperator [s]) p (S p).
Definition script_name (v : InputNodeVariant) (name : PathIdentifier) : Prop :=
  (v = Sub /\ name = sub_rule_name) \/ (v = Sup /\ name = sup_rule_name).

Section Shape.
Variable g : Grammar.
(** The symbols of the leaf of a token that takes the symbols [l]. *)
Definition leaf_of (t : TokenParser) (symbols l : list str) : Prop :=
  match t with
  | TSymbols l' _ => symbols = [concat l] /\ l' = l
  | TNumber => symbols = l /\ is_digits (last l []) = true
  | TString => symbols = l /\ last l [] = lit """"
  | TVariable => symbols = l /\ is_identifier_start g (hd [] symbols) = true /\ (is_identifier_start g (last l []) = true \/ is_identifier_continue g (last l []) = true)
  | _ => False
  end.
(** What is at [p] starts the token [t], whatever comes after it. *)
Definition recognises (row : InputRow) (p : nat) (t : TokenParser) : Prop :=
  match t with
  | TSymbols l _ => reads row p l
  | TContainer v => exists c, nth_error row p = Some (Container v c)
  | TNumber => exists x, nth_error row p = Some (Symbol x) /\ is_digits x = true
  | TVariable => exists x, nth_error row p = Some (Symbol x) /\ is_identifier_start g x = true
  | _ => False
  end.
(** No rule reads a token from [s] on. *)
Definition unrecognised (row : InputRow) (s : nat) : Prop :=
  forall r t a o, In r (g_rules g) -> rule_token r = Some t -> spaces row s a o -> ~ blank row a -> ~ recognises row a t.
Inductive tree : InputRow -> nat -> nat -> SyntaxNode -> Prop :=
| t_missing row s : tree row s s (missing_at s)
| t_juxt row s m e a b : tree row s m a -> tree row m e b ->
    tree row s e (mkSyntax error_missing_operator_name (Children [a; missing_at m; b]) s e)
| t_unknown row s x : nth_error row s = Some (Symbol x) -> unrecognised row s -> tree row s (S s) (mkSyntax error_unknown_token_name (Leaf LSymbol [x]) s (S s))
| t_prefix row s m e op v a : In op (prefix_ops g) -> scripted row s m (op_token op) v -> tree row m e a ->
    tree row s e (mkSyntax (op_name op) (Children [v; a]) s e)
| t_infix row s m k e op a v b : In op (infix_ops g) -> tree row s m a -> scripted row m k (op_token op) v -> tree row k e b ->
    tree row s e (mkSyntax (op_name op) (Children [a; v; b]) s e)
| t_postfix row s m e op a v : In op (postfix_ops g) -> tree row s m a -> wrapped row m e operator_rule_name (op_token op) v ->
    tree row s e (mkSyntax (op_name op) (Children [a; v]) s e)
| t_atom row s e name t n : In (name, t) (atom_rules g) -> wrapped row s e name t n -> tree row s e n
with token : InputRow -> nat -> nat -> TokenParser -> SyntaxNodeChildren -> Prop :=
| k_leaf row s e t ty symbols l : leaf_of t symbols l -> s < e -> e <= length row -> (forall k, s <= k < e -> exists x, nth_error row k = Some (Symbol x)) ->
    reads row s l -> length l = e - s -> concat symbols = concat l -> token row s e t (Leaf ty symbols)
| k_container row s v cells w nodes : nth_error row s = Some (Container v (mkGrid cells w)) -> 0 < w -> length nodes mod w = 0 -> cells_tree cells nodes ->
    token row s (S s) (TContainer v) (NewRows (mkGrid nodes w))
| k_brackets row s m a b c : nth_error row s = Some (Symbol a) -> tree row (S s) m c -> nth_error row m = Some (Symbol b) ->
    token row s (S m) (TBrackets a b) (Children [op_leaf a s; c; op_leaf b m])
| k_empty row s a b : nth_error row s = Some (Symbol a) -> nth_error row (S s) = Some (Symbol b) ->
    token row s (S (S s)) (TEmptyBrackets a b) (Children [op_leaf a s; op_leaf b (S s)])
with wrapped : InputRow -> nat -> nat -> PathIdentifier -> TokenParser -> SyntaxNode -> Prop :=
| w_intro row s a b e name t c before after : spaces row s a before -> token row a b t c -> spaces row b e after -> ~ blank row e ->
    wrapped row s e name t (wrap before (mkSyntax name c a b) after s e)
with scripted : InputRow -> nat -> nat -> TokenParser -> SyntaxNode -> Prop :=
| s_base row s e t n : wrapped row s e operator_rule_name t n -> scripted row s e t n
| s_more row s m e t n v name op : script_name v name -> scripted row s m t n -> wrapped row m e operator_rule_name (TContainer v) op ->
    scripted row s e t (mkSyntax name (Children [n; op]) s e)
with cells_tree : list InputRow -> list SyntaxNode -> Prop :=
| c_nil : cells_tree [] []
| c_cons cell cells n nodes : tree cell 0 (length cell) n -> cells_tree cells nodes -> cells_tree (cell :: cells) (n :: nodes).

Scheme tree_mut := Induction for tree Sort Prop
  with token_mut := Induction for token Sort Prop
  with wrapped_mut := Induction for wrapped Sort Prop
  with scripted_mut := Induction for scripted Sort Prop
  with cells_tree_mut := Induction for cells_tree Sort Prop.
Combined Scheme tree_mutind from tree_mut, token_mut, wrapped_mut, scripted_mut, cells_tree_mut.

Lemma spaces_range row s e o : spaces row s e o -> s <= e /\ match o with Some n => syn_range n = (s, e) | None => s = e end.
Proof. intros H. inv H; cbn; repeat split; lia. Qed.
Lemma shape_range :
  (forall row s e n, tree row s e n -> syn_range n = (s, e) /\ s <= e) /\
  (forall row s e t c, token row s e t c -> s < e) /\
  (forall row s e name t n, wrapped row s e name t n -> syn_range n = (s, e) /\ s < e) /\
  (forall row s e t n, scripted row s e t n -> syn_range n = (s, e) /\ s < e) /\
  (forall cells nodes, cells_tree cells nodes -> length nodes = length cells).
Proof.
  apply tree_mutind; intros; cbn [syn_range missing_at] in *; repeat split; auto; try lia.
  - apply H.
  - apply spaces_range in s0 as [? ?]. apply spaces_range in s1 as [? ?]. destruct before, after; subst; cbn in *; auto.
  - apply spaces_range in s0 as [? ?]. apply spaces_range in s1 as [? ?]. lia.
  - apply H.
  - cbn. now f_equal.
Qed.
Lemma tree_range row s e n : tree row s e n -> syn_range n = (s, e).
Proof. intros H. now apply shape_range in H. Qed.
Lemma tree_le row s e n : tree row s e n -> s <= e.
Proof. intros H. now apply shape_range in H. Qed.
Lemma wrapped_range row s e name t n : wrapped row s e name t n -> syn_range n = (s, e) /\ s < e.
Proof. apply shape_range. Qed.
Lemma scripted_range row s e t n : scripted row s e t n -> syn_range n = (s, e) /\ s < e.
Proof. apply shape_range. Qed.
Lemma cells_tree_length cells nodes : cells_tree cells nodes -> length nodes = length cells.
Proof. apply shape_range. Qed.
Lemma cells_tree_nth cells nodes j n : cells_tree cells nodes -> nth_error nodes j = Some n ->
  exists cell, nth_error cells j = Some cell /\ tree cell 0 (length cell) n.
Proof. intros H. revert j. induction H; intros [|j] E; try discriminate; cbn in *; [inv E; eauto|auto]. Qed.

(** ** The parser returns such trees *)
Lemma take_spaces row p rest : (forall s, p s = true <-> s = space) -> forall pos l i, skipn pos row = rest -> take_symbols p pos rest = (l, i) ->
  l = repeat space (length l) /\ (forall k, pos <= k < pos + length l -> blank row k) /\ ~ blank row (pos + length l).
Proof.
  intros Hp. induction rest as [|[v c|s] r IH]; intros pos l i Hr H; cbn [take_symbols] in H.
  - inv H. rewrite Nat.add_0_r. repeat split; [intros; lia|]. intros B. unfold blank in B.
    assert (pos < length row) by (apply nth_error_Some; congruence). destruct (skipn_lt H) as [n E]. congruence.
  - inv H. rewrite Nat.add_0_r. repeat split; [intros; lia|]. intros B. unfold blank in B. destruct (skipn_cons_S Hr) as (_&_&E). congruence.
  - destruct (p s) eqn:Es.
    + destruct (take_symbols p (S pos) r) as [t i'] eqn:E. inv H. destruct (skipn_cons_S Hr) as (Hr'&_&En).
      destruct (IH _ _ _ Hr' E) as (El&Hb&Hn). apply Hp in Es. subst s. cbn [length]. repeat split.
      * cbn. now rewrite <- El.
      * intros k Hk. destruct (Nat.eq_dec k pos) as [->|]; [exact En|]. apply Hb. lia.
      * now rewrite Nat.add_succ_r.
    + inv H. rewrite Nat.add_0_r. repeat split; [intros; cbn in *; lia|]. intros B. unfold blank in B. destruct (skipn_cons_S Hr) as (_&_&E).
      assert (s = space) by congruence. apply Hp in H. congruence.
Qed.
Lemma parse_spaces_shape row pos o i : parse_spaces (inp row pos) = Ok (o, i) -> pos <= length row ->
  exists pos', i = inp row pos' /\ pos <= pos' <= length row /\ spaces row pos pos' o /\ ~ blank row pos'.
Proof.
  unfold parse_spaces. destruct (repeat_symbols _ (inp row pos)) as [l i'] eqn:E. pose proof (repeat_symbols_inp E) as (->&R).
  unfold repeat_symbols in E. apply take_spaces with (row := row) in E as (El&Hb&Hn); [|intros s; apply str_eqb_eq|reflexivity].
  intros H Hp. pose proof (reads_le Hp R) as Hle. cbn [fst inp] in Hb, Hn. exists (pos + length l). destruct l as [|s l].
  - inv H. cbn [length] in *. rewrite Nat.add_0_r in *. split; [reflexivity|]. split; [lia|]. split; [constructor|exact Hn].
  - cbn [bind] in H. inv H. split; [reflexivity|]. split; [lia|]. split; [|exact Hn]. cbn [inp fst].
    replace (mkSyntax _ _ _ _) with (space_leaf pos (pos + length (s :: l))).
    + constructor; [cbn; lia|exact Hb].
    + unfold space_leaf. replace (pos + length (s :: l) - pos) with (length (s :: l)) by lia. now rewrite <- El.
Qed.

Definition rec_shape (rec : Power -> Ending -> Input -> Res (PrattResult * Input)) : Prop :=
  forall row pos min e b n i, pos <= length row -> rec min e (inp row pos) = Ok ((b, n), i) ->
  exists pos', i = inp row pos' /\ pos' <= length row /\ tree row pos pos' n.
Definition gets A (row : InputRow) (pos : nat) (post : nat -> A -> Prop) (r : PRes A) : Prop :=
  forall x i, r = Ok (Some (x, i)) -> exists pos', i = inp row pos' /\ pos' <= length row /\ post pos' x.

Section Step.
Variable rec : Power -> Ending -> Input -> Res (PrattResult * Input).
Hypothesis R : rec_shape rec.

Lemma row_shape row n : parse_row_with rec row = Ok n -> tree row 0 (length row) n.
Proof.
  unfold parse_row_with. intros H. apply bind_ok in H as ([[b n'] i]&E&H). change (0, row) with (inp row 0) in E.
  apply R in E as (pos'&->&Hle&Ht); [|lia]. destruct (at_end (inp row pos')) eqn:Ea; [|discriminate]. inv H.
  apply at_end_inp in Ea; [|exact Hle]. now subst.
Qed.
Lemma rows_shape cells nodes : map_res (parse_row_with rec) cells = Ok nodes -> cells_tree cells nodes.
Proof.
  revert nodes. induction cells as [|c cells IH]; intros nodes H; cbn [map_res] in H; [inv H; constructor|].
  apply bind_ok in H as (n&En&H). apply bind_ok in H as (r&Er&H). inv H. constructor; [now apply row_shape|auto].
Qed.
Lemma reads_symbols row pos l : reads row pos l -> forall k, pos <= k < pos + length l -> exists x, nth_error row k = Some (Symbol x).
Proof.
  revert pos. induction l as [|x l IH]; intros pos [t H] k Hk; cbn [length] in Hk; [lia|]. cbn in H.
  destruct (skipn_cons_S H) as (E&_&En). destruct (Nat.eq_dec k pos) as [->|]; [eauto|].
  apply (IH (S pos)); [exists t; exact E|lia].
Qed.
(** What a leaf parser reads *)
Definition leaf_gets row pos t (o : option (list str * Input)) : Prop :=
  forall symbols i, o = Some (symbols, i) -> exists l, l <> [] /\ reads row pos l /\ concat symbols = concat l /\ i = inp row (pos + length l) /\ leaf_of t symbols l.
Lemma leaf_shape row pos t ty o : pos <= length row -> leaf_gets row pos t o -> gets row pos (fun e c => token row pos e t c) (leaf_token ty o).
Proof.
  intros Hp H x i E. unfold leaf_token in E. destruct o as [[symbols i']|]; [|discriminate]. cbn in E. inv E.
  destruct (H _ _ eq_refl) as (l&Hl&Hr&Hc&->&Hs). pose proof (reads_le Hp Hr) as Hle. exists (pos + length l). split; [reflexivity|]. split; [exact Hle|].
  apply k_leaf with (l := l).
  - exact Hs.
  - destruct l; [congruence|cbn; lia].
  - exact Hle.
  - intros k Hk. apply (reads_symbols Hr). lia.
  - exact Hr.
  - lia.
  - exact Hc.
Qed.
Lemma repeat_all p row pos l i : repeat_symbols p (inp row pos) = (l, i) -> forall x, In x l -> p x = true.
Proof.
  unfold repeat_symbols, inp. cbn [fst snd]. generalize (skipn pos row) as rest. intros rest. revert pos l i.
  induction rest as [|[v c|s] r IH]; intros pos l i H; cbn [take_symbols] in H; try (inv H; now intros x []).
  destruct (p s) eqn:Es; [|inv H; now intros x []]. destruct (take_symbols p (S pos) r) as [t i'] eqn:E. inv H. intros x [<-|Hx]; [exact Es|exact (IH _ _ _ E _ Hx)].
Qed.
Lemma last_in (l : list str) : l <> [] -> In (last l []) l.
Proof. intros H. destruct (exists_last H) as (l'&x&->). rewrite last_last. apply in_or_app. right. now left. Qed.
Lemma last_app (l l' : list str) : l' <> [] -> last (l ++ l') [] = last l' [].
Proof. intros H. destruct (exists_last H) as (m&x&->). now rewrite app_assoc, !last_last. Qed.
Lemma number_gets row pos : leaf_gets row pos TNumber (parse_number (inp row pos)).
Proof.
  intros symbols i H. exists symbols. unfold parse_number in H.
  destruct (repeat_symbols is_digits (inp row pos)) as [a i1] eqn:E. pose proof (repeat_all E) as Fa. apply repeat_symbols_inp in E as (->&Ra). destruct a as [|a0 a]; [discriminate|].
  assert (Z : is_digits (last (a0 :: a) []) = true) by (apply Fa, last_in; discriminate).
  assert (K : Some (a0 :: a, inp row (pos + length (a0 :: a))) = Some (symbols, i) -> symbols <> [] /\ reads row pos symbols /\ concat symbols = concat symbols /\ i = inp row (pos + length symbols) /\ leaf_of TNumber symbols symbols).
  { intros E. injection E as <- <-. repeat split; auto. discriminate. }
  destruct (just_symbol _ (inp row (pos + length (a0 :: a)))) as [[c i2]|] eqn:Ec; [|now apply K].
  apply just_symbol_inp in Ec as (->&->&Rc). destruct (repeat_symbols is_digits _) as [d i3] eqn:Ed. pose proof (repeat_all Ed) as Fd. apply repeat_symbols_inp in Ed as (->&Rd).
  destruct d as [|d0 d]; [now apply K|]. clear K. injection H as <- <-. change (a0 :: a ++ lit "." :: d0 :: d) with ((a0 :: a) ++ [lit "."] ++ (d0 :: d)). repeat split.
  - discriminate.
  - apply reads_app; [exact Ra|]. apply reads_app; [exact Rc|]. replace (pos + length (a0 :: a) + length [lit "."]) with (S (pos + length (a0 :: a))) by (cbn; lia). exact Rd.
  - unfold inp. rewrite !app_length. cbn [length]. f_equal; [|f_equal]; lia.
  - rewrite !last_app by discriminate. apply Fd, last_in. discriminate.
Qed.
Lemma variable_gets row pos : leaf_gets row pos TVariable (parse_variable g (inp row pos)).
Proof.
  intros symbols i H. exists symbols. unfold parse_variable, select_symbol, inp in H. cbn [fst snd] in H.
  destruct (skipn pos row) as [|[v c|s] r] eqn:E; try discriminate. destruct (is_identifier_start g s) eqn:Es; [|discriminate].
  destruct (skipn_cons_S E) as (E'&_&En). rewrite <- E' in H. fold (inp row (S pos)) in H.
  destruct (repeat_symbols _ (inp row (S pos))) as [l i'] eqn:El. pose proof (repeat_all El) as Fl. apply repeat_symbols_inp in El as (->&Rl). injection H as <- <-. repeat split.
  - discriminate.
  - change (s :: l) with ([s] ++ l). apply reads_app; [now apply reads_one|]. cbn [length]. rewrite Nat.add_1_r. exact Rl.
  - unfold inp. cbn [length]. now rewrite Nat.add_succ_r.
  - exact Es.
  - destruct l as [|x l]; [now left|]. right. change (s :: x :: l) with ([s] ++ (x :: l)). rewrite last_app by discriminate. apply Fl, last_in. discriminate.
Qed.
Lemma string_gets row pos : leaf_gets row pos TString (parse_string (inp row pos)).
Proof.
  intros symbols i H. exists symbols. unfold parse_string in H.
  destruct (just_symbol _ (inp row pos)) as [[a i1]|] eqn:Ea; [|discriminate].
  apply just_symbol_inp in Ea as (->&->&Ra). destruct (take_string _ _) as [b i2] eqn:Eb.
  apply take_string_inp with (row := row) (k := length (skipn (S pos) row)) in Eb as (->&Rb); auto.
  destruct (just_symbol _ (inp row _)) as [[c i3]|] eqn:Ec; [|discriminate]. apply just_symbol_inp in Ec as (->&->&Rc).
  injection H as <- <-. change (lit """" :: b ++ [lit """"]) with ([lit """"] ++ b ++ [lit """"]). cbn [fst inp] in Rb, Rc. repeat split.
  - discriminate.
  - apply reads_app; [exact Ra|]. cbn [length]. rewrite Nat.add_1_r. apply reads_app; [exact Rb|exact Rc].
  - unfold inp. rewrite !app_length. cbn [fst length]. f_equal; [|f_equal]; lia.
  - now rewrite !last_app by (try discriminate; now destruct b).
Qed.
Lemma symbols_gets row pos l ty : l <> [] -> leaf_gets row pos (TSymbols l ty) (option_map (fun '(s, i) => ([s], i)) (just_symbols l (inp row pos))).
Proof.
  intros Hl symbols i H. destruct (just_symbols l (inp row pos)) as [[s i']|] eqn:E; [|discriminate]. inv H.
  apply just_symbols_inp in E as (->&->&Hr). exists l. repeat split; auto. cbn. now rewrite app_nil_r.
Qed.
Lemma reads_nth row pos s : reads row pos [s] -> nth_error row pos = Some (Symbol s).
Proof. intros [t H]. now apply skipn_cons_S in H as (_&_&H). Qed.
Lemma nth_lt (row : InputRow) k n : nth_error row k = Some n -> k < length row.
Proof. intros H. apply nth_error_Some. congruence. Qed.
Lemma token_shape row pos t : pos <= length row -> (forall ty, t <> TSymbols [] ty) -> gets row pos (fun e c => token row pos e t c) (parse_token g rec t (inp row pos)).
Proof.
  intros Hp Ht. destruct t as [l ty|v|a b|a b| | |]; cbn [parse_token].
  - apply leaf_shape; [exact Hp|]. apply symbols_gets. intros ->. now apply (Ht ty).
  - intros x i E. unfold inp in E. cbn [fst snd] in E. destruct (skipn pos row) as [|[v' [cells w]|s] r] eqn:Es; try discriminate.
    destruct (variant_eqb v' v) eqn:Ev; [|discriminate]. assert (v' = v) as -> by (destruct v', v; try reflexivity; discriminate Ev).
    apply bind_ok in E as (nodes&En&E). apply bind_ok in E as (w'&Ew&E). apply bind_ok in E as (grid&Eg&E). inv E.
    apply rows_shape in En. unfold gwidth_of, gsize in Ew. cbn [gvalues gwidth] in *. unfold udiv in Ew. destruct (w =? 0) eqn:Ew0; [discriminate|]. cbn in Ew. inv Ew.
    unfold from_one_dimensional in Eg. apply bind_ok in Eg as ([]&E1&Eg). apply bind_ok in Eg as (m&E2&Eg). apply bind_ok in Eg as ([]&E3&Eg). inv Eg.
    unfold assert_ in E1, E3. destruct (0 <? w') eqn:Ew; [|discriminate]. destruct (m =? 0) eqn:Em; [|discriminate].
    unfold umod in E2. rewrite Ew0 in E2. inv E2. destruct (skipn_cons_S Es) as (Es'&Hl&Hn). exists (S pos). split; [unfold inp; now rewrite Es'|]. split; [lia|].
    econstructor; eauto; lia.
  - intros x i E. destruct (just_symbol a (inp row pos)) as [[l i1]|] eqn:Ea; [|discriminate]. apply just_symbol_inp in Ea as (->&->&Ra). apply reads_nth in Ra.
    apply bind_ok in E as ([[bb child] i2]&Er&E). apply R in Er as (m&->&Hm&Htree); [|apply nth_lt in Ra; lia].
    destruct (just_symbol b (inp row m)) as [[r i3]|] eqn:Eb; [|discriminate]. apply just_symbol_inp in Eb as (->&->&Rb). apply reads_nth in Rb.
    cbn [bind syntax_node_new get_combined_range] in E. inv E. exists (S m). split; [reflexivity|]. split; [apply nth_lt in Rb; lia|].
    now apply k_brackets.
  - intros x i E. destruct (just_symbol a (inp row pos)) as [[l i1]|] eqn:Ea; [|discriminate]. apply just_symbol_inp in Ea as (->&->&Ra). apply reads_nth in Ra.
    destruct (just_symbol b (inp row (S pos))) as [[r i3]|] eqn:Eb; [|discriminate]. apply just_symbol_inp in Eb as (->&->&Rb). apply reads_nth in Rb.
    cbn [bind syntax_node_new get_combined_range] in E. inv E. exists (S (S pos)). split; [reflexivity|]. split; [apply nth_lt in Rb; lia|].
    now apply k_empty.
  - apply leaf_shape; [exact Hp|apply number_gets].
  - apply leaf_shape; [exact Hp|apply variable_gets].
  - apply leaf_shape; [exact Hp|apply string_gets].
Qed.
Lemma new_name name r c n : syntax_node_new name r c = Ok n -> n = mkSyntax name c (fst r) (snd r).
Proof. unfold syntax_node_new. intros H. apply bind_ok in H as (x&_&H). apply bind_ok in H as (y&_&H). now inv H. Qed.
Lemma whitespaces_wrap before n after r n' : whitespaces_node before n after r = Ok n' -> n' = wrap before n after (fst r) (snd r).
Proof. unfold whitespaces_node, wrap. destruct before, after; intros H; try (apply new_name in H; exact H). now inv H. Qed.
Lemma rule_shape row pos name t : pos <= length row -> (forall ty, t <> TSymbols [] ty) -> gets row pos (fun e n => wrapped row pos e name t n) (parse_rule g rec name t (inp row pos)).
Proof.
  intros Hp Ht x i E. unfold parse_rule in E. apply bind_ok in E as ([before i1]&Eb&E). apply parse_spaces_shape in Eb as (p1&->&H1&S1&_); [|exact Hp].
  unfold pbind in E. apply bind_ok in E as ([[c i2]|]&Ec&E); [|discriminate]. apply (token_shape (proj2 H1) Ht) in Ec as (p2&->&H2&T).
  apply bind_ok in E as (n&En&E). apply new_name in En. cbn [span inp fst snd] in En. subst n.
  apply bind_ok in E as ([after i3]&Ea&E). apply parse_spaces_shape in Ea as (p3&->&H3&S3&B3); [|exact H2].
  apply bind_ok in E as (n&En&E). apply whitespaces_wrap in En. cbn [span inp fst snd] in En. inv E. exists p3. split; [reflexivity|]. split; [lia|].
  now apply w_intro with (a := p1) (b := p2).
Qed.
Lemma script_shape row pos v : pos <= length row -> gets row pos (fun e n => wrapped row pos e operator_rule_name (TContainer v) n) (parse_script g rec v (inp row pos)).
Proof.
  intros Hp x i E. unfold parse_script, pbind in E. apply bind_ok in E as ([[c i2]|]&Ec&E); [|discriminate].
  apply (token_shape (t := TContainer v) Hp) in Ec as (p2&->&H2&T); [|discriminate].
  apply bind_ok in E as (n&En&E). apply new_name in En. cbn [span inp fst snd] in En. subst n.
  apply bind_ok in E as ([after i3]&Ea&E). apply parse_spaces_shape in Ea as (p3&->&H3&S3&B3); [|exact H2].
  apply bind_ok in E as (n&En&E). apply whitespaces_wrap in En. cbn [span inp fst snd] in En. inv E. exists p3. split; [reflexivity|]. split; [lia|].
  apply w_intro with (a := pos) (b := p2) (before := None); auto. constructor.
Qed.
Lemma postfix_node s m e name lhs op n : syn_range lhs = (s, m) -> syn_range op = (m, e) -> s <= m -> m <= e -> build_postfix name op lhs = Ok n ->
  n = mkSyntax name (Children [lhs; op]) s e.
Proof. intros E1 E2 L1 L2 H. unfold build_postfix in H. apply new_name in H. rewrite E1, E2, (combine_ranges_adjacent L1 L2) in H. exact H. Qed.
Lemma scripts_shape row s t : forall fuel pos node node' i, pos <= length row -> scripted row s pos t node ->
  parse_scripts g rec fuel node (inp row pos) = Ok (node', i) -> exists pos', i = inp row pos' /\ pos' <= length row /\ scripted row s pos' t node'.
Proof.
  induction fuel as [|fuel IH]; intros pos node node' i Hp Hs E; cbn [parse_scripts] in E; [inv E; eauto|].
  assert (K : forall v name op p' n, script_name v name -> p' <= length row -> wrapped row pos p' operator_rule_name (TContainer v) op -> build_postfix name op node = Ok n ->
    scripted row s p' t n).
  { intros v name op p' n Hv Hp' W B. destruct (scripted_range Hs) as [R1 L1]. destruct (wrapped_range W) as [R2 L2].
    rewrite (postfix_node R1 R2 ltac:(lia) ltac:(lia) B). now apply s_more with (m := pos) (v := v). }
  apply bind_ok in E as ([[op i1]|]&Eo&E).
  - apply (script_shape (v := Sub) Hp) in Eo as (p'&->&Hp'&W). apply bind_ok in E as (n&En&E). apply IH in E; eauto. eapply K; eauto. now left.
  - apply bind_ok in E as ([[op i1]|]&Eo'&E).
    + apply (script_shape (v := Sup) Hp) in Eo' as (p'&->&Hp'&W). apply bind_ok in E as (n&En&E). apply IH in E; eauto. eapply K; eauto. now right.
    + inv E. eauto.
Qed.
Hypothesis Htok : no_empty_tokens g.
Definition op_shape row pos op e n : Prop :=
  match op_power op with BPostfix _ => wrapped row pos e operator_rule_name (op_token op) n | _ => scripted row pos e (op_token op) n end.
Lemma parse_op_shape row pos op : pos <= length row -> (forall ty, op_token op <> TSymbols [] ty) -> gets row pos (op_shape row pos op) (parse_op g rec op (inp row pos)).
Proof.
  intros Hp Ht x i E. unfold parse_op in E. unfold op_shape.
  assert (K : pbind (parse_rule g rec operator_rule_name (op_token op) (inp row pos)) (fun node i1 => r <- parse_scripts g rec (length (snd i1)) node i1 ;; Ok (Some r)) = Ok (Some (x, i)) ->
    exists pos', i = inp row pos' /\ pos' <= length row /\ scripted row pos pos' (op_token op) x).
  { clear E. intros E. unfold pbind in E. apply bind_ok in E as ([[node i1]|]&Er&E); [|discriminate]. apply (rule_shape Hp Ht) in Er as (p1&->&H1&W).
    apply bind_ok in E as ([n' i']&Es&E). inv E. apply scripts_shape with (s := pos) (t := op_token op) in Es; auto. now apply s_base. }
  destruct (op_power op); auto. apply (rule_shape Hp Ht) in E. exact E.
Qed.
Lemma iter_shape row pos ops : pos <= length row -> (forall op, In op ops -> forall ty, op_token op <> TSymbols [] ty) ->
  gets row pos (fun e '(n, op) => In op ops /\ op_shape row pos op e n) (parse_iter g rec ops (inp row pos)).
Proof.
  intros Hp. induction ops as [|op ops IH]; intros Ht [n op'] i E; cbn [parse_iter] in E; [discriminate|].
  apply bind_ok in E as ([[n' i']|]&Eo&E).
  - inv E. apply (parse_op_shape Hp) in Eo as (p'&->&Hp'&S'); [|apply Ht; now left]. exists p'. repeat split; auto. now left.
  - apply IH in E as (p'&->&Hp'&Hin&S'); [|intros op'' H; apply Ht; now right]. exists p'. repeat split; auto. now right.
Qed.
Lemma choice_shape row pos rules : pos <= length row -> (forall name t, In (name, t) rules -> forall ty, t <> TSymbols [] ty) ->
  gets row pos (fun e n => exists name t, In (name, t) rules /\ wrapped row pos e name t n) (parse_choice g rec rules (inp row pos)).
Proof.
  intros Hp. induction rules as [|[name t] rules IH]; intros Ht n i E; cbn [parse_choice] in E; [discriminate|].
  apply bind_ok in E as ([[n' i']|]&Eo&E).
  - inv E. apply (rule_shape Hp) in Eo as (p'&->&Hp'&S'); [|apply (Ht name); now left]. exists p'. repeat split; auto. exists name, t. split; [now left|exact S'].
  - apply IH in E as (p'&->&Hp'&name'&t'&Hin&S'); [|intros name' t' H; apply (Ht name'); now right]. exists p'. repeat split; auto. exists name', t'. split; [now right|exact S'].
Qed.
Lemma infix_power op : In op (infix_ops g) -> match op_power op with BPostfix _ => False | _ => True end.
Proof. intros H. apply ops_in in H as (r&_&E). destruct r; inv E; exact I. Qed.
Lemma prefix_power op : In op (prefix_ops g) -> match op_power op with BPostfix _ => False | _ => True end.
Proof. intros H. apply ops_in in H as (r&_&E). destruct r; inv E; exact I. Qed.
Lemma postfix_power op : In op (postfix_ops g) -> match op_power op with BPostfix _ => True | _ => False end.
Proof. intros H. apply ops_in in H as (r&_&E). destruct r; inv E; exact I. Qed.
Lemma op_token_ok sel op : (forall r o, sel r = Some o -> rule_token r = Some (op_token o)) -> In op (g_ops sel g) -> forall ty, op_token op <> TSymbols [] ty.
Proof. intros Hs H. apply ops_in in H as (r&Hr&E). apply (Htok Hr). auto. Qed.
Lemma prefix_shape row pos : pos <= length row ->
  gets row pos (fun e '(n, op) => In op (prefix_ops g) /\ scripted row pos e (op_token op) n) (parse_prefix g rec (inp row pos)).
Proof.
  intros Hp [n op] i E. apply (iter_shape Hp) in E as (p'&->&Hp'&Hin&S').
  - exists p'. repeat split; auto. unfold op_shape in S'. apply prefix_power in Hin. destruct (op_power op); easy.
  - intros op'. apply op_token_ok. intros r o Eo. destruct r; inv Eo; reflexivity.
Qed.
Lemma infix_shape row pos : pos <= length row ->
  gets row pos (fun e '(n, op) => In op (infix_ops g) /\ scripted row pos e (op_token op) n) (parse_infix g rec (inp row pos)).
Proof.
  intros Hp [n op] i E. apply (iter_shape Hp) in E as (p'&->&Hp'&Hin&S').
  - exists p'. repeat split; auto. unfold op_shape in S'. apply infix_power in Hin. destruct (op_power op); easy.
  - intros op'. apply op_token_ok. intros r o Eo. destruct r; inv Eo; reflexivity.
Qed.
Lemma postfix_shape row pos : pos <= length row ->
  gets row pos (fun e '(n, op) => In op (postfix_ops g) /\ wrapped row pos e operator_rule_name (op_token op) n) (parse_postfix g rec (inp row pos)).
Proof.
  intros Hp [n op] i E. apply (iter_shape Hp) in E as (p'&->&Hp'&Hin&S').
  - exists p'. repeat split; auto. unfold op_shape in S'. apply postfix_power in Hin. destruct (op_power op); easy.
  - intros op'. apply op_token_ok. intros r o Eo. destruct r; inv Eo; reflexivity.
Qed.
Lemma atom_shape row pos : pos <= length row -> gets row pos (fun e n => tree row pos e n) (parse_atom g rec (inp row pos)).
Proof.
  intros Hp n i E. apply (choice_shape Hp) in E as (p'&->&Hp'&name&t&Hin&W).
  - exists p'. repeat split; auto. now apply t_atom with (name := name) (t := t).
  - intros name t Hin. apply atoms_in in Hin. now apply (Htok Hin).
Qed.

Lemma missing_shape p n : missing_token p = Ok n -> n = missing_at p.
Proof. intros H. now inv H. Qed.
Lemma juxt_shape row s m e a b n : tree row s m a -> tree row m e b -> missing_operator a b = Ok n -> tree row s e n.
Proof.
  intros A B H. unfold missing_operator in H. apply bind_ok in H as (mt&Em&H). apply missing_shape in Em. subst mt. apply new_name in H.
  rewrite (tree_range A), (tree_range B), (combine_ranges_adjacent (tree_le A) (tree_le B)) in H. cbn [fst snd] in H. subst n. now apply t_juxt with (m := m).
Qed.
(** *** What no rule reads *)
Lemma spaces_end row s a o a' o' : spaces row s a o -> ~ blank row a -> spaces row s a' o' -> ~ blank row a' -> a = a'.
Proof.
  intros H B H' B'. destruct (lt_eq_lt_dec a a') as [[L| ->]|L]; [exfalso|reflexivity|exfalso].
  - apply B. inv H'; [inv H; lia|]. apply H1. split; [|exact L]. now apply spaces_range in H.
  - apply B'. inv H; [inv H'; lia|]. apply H1. split; [|exact L]. now apply spaces_range in H'.
Qed.
Lemma digits_some row p x : nth_error row p = Some (Symbol x) -> is_digits x = true -> exists l i, repeat_symbols is_digits (inp row p) = (x :: l, i).
Proof.
  intros E D. unfold repeat_symbols, inp. cbn [fst snd]. destruct (skipn p row) as [|n r] eqn:Es.
  - apply nth_lt in E. destruct (skipn_lt E) as [m Em]. congruence.
  - destruct (skipn_cons_S Es) as (_&_&En). rewrite En in E. inv E. cbn [take_symbols]. rewrite D. destruct (take_symbols is_digits (S p) r) as [l i]. eauto.
Qed.
Lemma just_symbols_some row : forall l p, reads row p l -> exists x, just_symbols l (inp row p) = Some x.
Proof.
  induction l as [|s l IH]; intros p [t H]; cbn [just_symbols]; [eauto|]. cbn in H. unfold just_symbol, select_symbol, inp. cbn [fst snd]. rewrite H. cbn [app map].
  assert (str_eqb s s = true) as -> by (now apply str_eqb_eq). destruct (skipn_cons_S H) as (E&_&_). rewrite <- E. fold (inp row (S p)). destruct (IH (S p)) as [[y i] ->]; [exists t; exact E|]. eauto.
Qed.
Lemma token_none row p t : recognises row p t -> parse_token g rec t (inp row p) = Ok None -> False.
Proof.
  intros H E. destruct t as [l ty|v|a b|a b| | |]; cbn [recognises parse_token] in *; try easy.
  - destruct (just_symbols_some H) as [[y i] Ey]. rewrite Ey in E. discriminate.
  - destruct H as [c H]. unfold inp in E. cbn [fst snd] in E. destruct (skipn p row) as [|n r] eqn:Es.
    + apply nth_lt in H. destruct (skipn_lt H) as [m Em]. congruence.
    + destruct (skipn_cons_S Es) as (_&_&En). rewrite En in H. inv H. assert (variant_eqb v v = true) as Ev by (now destruct v). rewrite Ev in E.
      apply bind_ok in E as (?&_&E). apply bind_ok in E as (?&_&E). apply bind_ok in E as (?&_&E). discriminate.
  - destruct H as (x&H&D). destruct (digits_some H D) as (l&i&Er). unfold leaf_token, parse_number in E. rewrite Er in E.
    destruct (just_symbol _ i) as [[c i2]|]; [|discriminate]. destruct (repeat_symbols _ i2) as [[|d0 d] i3]; discriminate.
  - destruct H as (x&H&D). unfold leaf_token, parse_variable, select_symbol, inp in E. cbn [fst snd] in E. destruct (skipn p row) as [|n r] eqn:Es.
    + apply nth_lt in H. destruct (skipn_lt H) as [m Em]. congruence.
    + destruct (skipn_cons_S Es) as (_&_&En). rewrite En in H. inv H. rewrite D in E. destruct (repeat_symbols _ _) as [l i]. discriminate.
Qed.
Lemma rule_none row pos name t a o : pos <= length row -> parse_rule g rec name t (inp row pos) = Ok None -> spaces row pos a o -> ~ blank row a -> ~ recognises row a t.
Proof.
  intros Hp E S B H. unfold parse_rule in E. apply bind_ok in E as ([before i1]&Eb&E). apply parse_spaces_shape in Eb as (p1&->&_&S1&B1); [|exact Hp].
  rewrite <- (spaces_end S B S1 B1) in E. unfold pbind in E. apply bind_ok in E as ([[c i2]|]&Ec&E); [|exact (token_none H Ec)].
  apply bind_ok in E as (?&_&E). apply bind_ok in E as ([? ?]&_&E). apply bind_ok in E as (?&_&E). discriminate.
Qed.
Lemma op_none row pos op : parse_op g rec op (inp row pos) = Ok None -> parse_rule g rec operator_rule_name (op_token op) (inp row pos) = Ok None.
Proof.
  unfold parse_op. destruct (op_power op); auto; unfold pbind; intros E; apply bind_ok in E as ([[n i]|]&Er&E); auto; apply bind_ok in E as (?&_&E); discriminate.
Qed.
Lemma iter_none row pos ops op : parse_iter g rec ops (inp row pos) = Ok None -> In op ops -> parse_rule g rec operator_rule_name (op_token op) (inp row pos) = Ok None.
Proof.
  induction ops as [|op' ops IH]; intros E H; [destruct H|]. cbn [parse_iter] in E. apply bind_ok in E as ([[n i]|]&Eo&E); [discriminate|]. destruct H as [->|H]; [now apply op_none|auto].
Qed.
Lemma choice_none row pos rules name t : parse_choice g rec rules (inp row pos) = Ok None -> In (name, t) rules -> parse_rule g rec name t (inp row pos) = Ok None.
Proof.
  induction rules as [|[name' t'] rules IH]; intros E H; [destruct H|]. cbn [parse_choice] in E. apply bind_ok in E as ([[n i]|]&Eo&E); [discriminate|]. destruct H as [H|H]; [inv H; exact Eo|auto].
Qed.
Lemma none_unrecognised row pos : pos <= length row -> parse_prefix g rec (inp row pos) = Ok None -> parse_infix g rec (inp row pos) = Ok None -> parse_postfix g rec (inp row pos) = Ok None ->
  parse_atom g rec (inp row pos) = Ok None -> unrecognised row pos.
Proof.
  intros Hp E1 E2 E3 E4 r t a o Hr Et S B. destruct r; inv Et.
  - eapply rule_none; eauto. eapply choice_none; [exact E4|]. apply atoms_in. exact Hr.
  - eapply rule_none; eauto. apply (iter_none (op := mkOp (BPrefix v) t name) E1). apply ops_in. eexists. split; [exact Hr|reflexivity].
  - eapply rule_none; eauto. apply (iter_none (op := mkOp (BLeftInfix v) t name) E2). apply ops_in. eexists. split; [exact Hr|reflexivity].
  - eapply rule_none; eauto. apply (iter_none (op := mkOp (BRightInfix v) t name) E2). apply ops_in. eexists. split; [exact Hr|reflexivity].
  - eapply rule_none; eauto. apply (iter_none (op := mkOp (BPostfix v) t name) E3). apply ops_in. eexists. split; [exact Hr|reflexivity].
Qed.
Lemma can_none A (p : Input -> PRes A) i : can_parse p i = Ok false -> p i = Ok None.
Proof. unfold can_parse. intros E. apply bind_ok in E as ([x|]&E'&E); [discriminate|exact E']. Qed.
Lemma or_none a b : or_else a b = Ok false -> a = Ok false /\ b = Ok false.
Proof. unfold or_else. intros E. apply bind_ok in E as ([|]&E'&E); [discriminate|auto]. Qed.
Lemma unknown_shape row p n r n' : unrecognised row p -> skipn p row = n :: r -> unknown_token p n = Ok n' -> tree row p (S p) n' /\ S p <= length row.
Proof.
  intros U Hs H. destruct (skipn_cons_S Hs) as (_&L&E). destruct n as [|x]; [discriminate|]. apply new_name in H. subst n'. split; [|lia]. now apply t_unknown.
Qed.
Lemma unknown_loop_shape row s e : forall l pos node n i, skipn pos row = l -> pos <= length row -> tree row s pos node -> unknown_loop g rec e node pos l = Ok (n, i) ->
  exists pos', i = inp row pos' /\ pos' <= length row /\ tree row s pos' n.
Proof.
  induction l as [|x l IH]; intros pos node n i Hl Hp T E; cbn [unknown_loop] in E; apply bind_ok in E as (stop&Est&E); destruct stop.
  - inv E. exists pos. unfold inp. now rewrite Hl.
  - discriminate.
  - inv E. exists pos. unfold inp. now rewrite Hl.
  - apply bind_ok in E as (next&En&E). apply bind_ok in E as (node'&Em&E).
    assert (U : unrecognised row pos).
    { destruct (is_at_end _ _); [discriminate|]. rewrite <- Hl in Est. fold (inp row pos) in Est. apply or_none in Est as [E1 Est]. apply or_none in Est as [E4 Est]. apply or_none in Est as [E2 E3].
      apply none_unrecognised; auto using can_none. }
    destruct (unknown_shape U Hl En) as [Tn L].
    apply IH in E; auto; [now destruct (skipn_cons_S Hl)|]. eapply juxt_shape; eauto.
Qed.
Lemma parse_unknown_shape row pos e n i : unrecognised row pos -> pos <= length row -> parse_unknown g rec e (inp row pos) = Ok (n, i) ->
  exists pos', i = inp row pos' /\ pos' <= length row /\ tree row pos pos' n.
Proof.
  intros U Hp E. unfold parse_unknown, inp in E. cbn [fst snd] in E. destruct (skipn pos row) as [|x r] eqn:Es; [discriminate|].
  apply bind_ok in E as (node&En&E). destruct (unknown_shape U Es En) as [Tn L]. apply unknown_loop_shape with (row := row) (s := pos) in E; auto. now destruct (skipn_cons_S Es).
Qed.
Lemma first_shape row pos e b n i : pos <= length row -> pratt_first g rec e (inp row pos) = Ok ((b, n), i) ->
  exists pos', i = inp row pos' /\ pos' <= length row /\ tree row pos pos' n.
Proof.
  intros Hp E. unfold pratt_first in E.
  assert (M : forall n', missing_token (fst (inp row pos)) = Ok n' -> exists pos', inp row pos = inp row pos' /\ pos' <= length row /\ tree row pos pos' n').
  { intros n' H. apply missing_shape in H. subst n'. exists pos. repeat split; auto. apply t_missing. }
  destruct (at_end (inp row pos)); [apply bind_ok in E as (n'&En&E); inv E; auto|].
  apply bind_ok in E as ([[[v op] i1]|]&Ep&E).
  - apply (prefix_shape Hp) in Ep as (p1&->&H1&Hin&Hs). apply bind_ok in E as ([[ended rhs] i2]&Er&E). apply R in Er as (p2&->&H2&T); [|exact H1].
    apply bind_ok in E as (n'&En&E). inv E. exists p2. repeat split; auto. destruct (scripted_range Hs) as [Rv Lv].
    unfold build_prefix in En. apply new_name in En. rewrite Rv, (tree_range T), combine_ranges_adjacent in En; [|lia|apply (tree_le T)]. cbn [fst snd] in En. subst.
    now apply t_prefix with (m := p1).
  - apply bind_ok in E as ([[n' i1]|]&Ea&E).
    + inv E. apply (atom_shape Hp) in Ea. exact Ea.
    + apply bind_ok in E as ([|]&Eo&E); [apply bind_ok in E as (n'&En&E); inv E; auto|]. apply or_none in Eo as [E2 E3].
      destruct (is_at_end e (inp row pos)); [apply bind_ok in E as (n'&En&E); inv E; auto|].
      apply bind_ok in E as ([n' i']&Eu&E). inv E. apply parse_unknown_shape in Eu; auto. apply none_unrecognised; auto using can_none.
Qed.
Lemma loop_shape row s min e : forall fuel pos lhs b n i, pos <= length row -> tree row s pos lhs -> pratt_loop g rec fuel min e lhs (inp row pos) = Ok ((b, n), i) ->
  exists pos', i = inp row pos' /\ pos' <= length row /\ tree row s pos' n.
Proof.
  induction fuel as [|fuel IH]; intros pos lhs b n i Hp T E; cbn [pratt_loop] in E; [discriminate|].
  destruct (at_end (inp row pos)); [inv E; eauto|].
  apply bind_ok in E as ([[[v op] i1]|]&Ei&E).
  - destruct (power_ltb _ _); [inv E; eauto|]. apply (infix_shape Hp) in Ei as (p1&->&H1&Hin&Hs).
    apply bind_ok in E as ([[ended rhs] i2]&Er&E). apply R in Er as (p2&->&H2&T2); [|exact H1]. apply bind_ok in E as (n'&En&E).
    assert (tree row s p2 n') as T'.
    { destruct (scripted_range Hs) as [Rv Lv]. unfold build_infix in En. apply new_name in En. pose proof (tree_le T). pose proof (tree_le T2).
      rewrite Rv, (tree_range T), (tree_range T2), (combine_ranges_adjacent (s := pos)), combine_ranges_adjacent in En; try lia. cbn [fst snd] in En. subst.
      now apply t_infix with (m := pos) (k := p1). }
    destruct ended; [inv E; eauto|]. now apply IH in E.
  - apply bind_ok in E as ([[[v op] i1]|]&Eq&E).
    + destruct (power_ltb _ _); [inv E; eauto|]. apply (postfix_shape Hp) in Eq as (p1&->&H1&Hin&Hs). apply bind_ok in E as (n'&En&E).
      apply IH in E; auto. destruct (wrapped_range Hs) as [Rv Lv]. pose proof (tree_le T).
      rewrite (postfix_node (tree_range T) Rv ltac:(lia) ltac:(lia) En). now apply t_postfix with (m := pos).
    + apply bind_ok in E as ([|]&Eo&E).
      * destruct (power_ltb _ _); [inv E; eauto|]. apply bind_ok in E as ([[ended rhs] i2]&Er&E). apply R in Er as (p2&->&H2&T2); [|exact Hp].
        apply bind_ok in E as (n'&En&E). pose proof (juxt_shape T T2 En) as T'. destruct ended; [inv E; eauto|]. now apply IH in E.
      * destruct (is_at_end e (inp row pos)); [inv E; eauto|]. apply bind_ok in E as ([rhs i1]&Eu&E).
        apply or_none in Eo as [E1 E4]. apply parse_unknown_shape in Eu as (p2&->&H2&T2); [|apply none_unrecognised; auto using can_none|exact Hp]. apply bind_ok in E as (n'&En&E). apply IH in E; auto. eapply juxt_shape; eauto.
Qed.
Lemma step_shape : rec_shape (pratt_step g rec).
Proof.
  intros row pos min e b n i Hp E. unfold pratt_step in E. apply bind_ok in E as ([[ended lhs] i1]&Ef&E).
  apply first_shape in Ef as (p1&->&H1&T); [|exact Hp]. destruct ended; [inv E; eauto|]. now apply loop_shape with (s := pos) in E.
Qed.
End Step.
Hypothesis Htok : no_empty_tokens g.
Lemma pratt_parse_shape fuel : rec_shape (pratt_parse g fuel).
Proof. induction fuel as [|fuel IH]; [intros row pos min e b n i _ E; discriminate|]. cbn [pratt_parse]. now apply step_shape. Qed.
Theorem parse_shape doc n : parse g doc = Ok n -> tree doc 0 (length doc) n.
Proof. apply row_shape. apply pratt_parse_shape. Qed.
End Shape.
