(** Spaces before sub- and superscripts. *)
From Coq Require Import String.
From Verif Require Import Base Str Grid Node Focus Autocomplete Spec NameMap Syntax Pratt Grammar Render SpecSyntax SpecPratt SpecRender BaseFacts TreeFacts ParseFacts ParseTotal GrammarFacts ShapeFacts RenderFacts.
Open Scope list_scope.
Open Scope nat_scope.
Set Implicit Arguments.
Unset Strict Implicit.

(** ** What a rendered tree tells about the spaces before its scripts *)
Section Necessary.
Variable rs : Renderers.
Variable g : Grammar.
Hypothesis F : fits rs g.
(** The last symbols of tokens *)
Variable ends : str -> Prop.
Definition token_ends (t : TokenParser) : Prop :=
  match t with
  | TSymbols l _ => ends (last l []) /\ last l [] <> space
  | TNumber => forall x, is_digits x = true -> ends x /\ x <> space
  | TVariable => forall x, is_identifier_start g x = true \/ is_identifier_continue g x = true -> ends x /\ x <> space
  | TString => ends (lit """") /\ lit """" <> space
  | TBrackets a b | TEmptyBrackets a b => ends b /\ b <> space
  | TContainer _ => True
  end.
Hypothesis Ends : forall r t, In r (g_rules g) -> rule_token r = Some t -> token_ends t.
Hypothesis Scripts : forall v, v = Sub \/ v = Sup -> exists r, In r (g_rules g) /\ rule_token r = Some (TContainer v).

Definition follows_end (row : InputRow) (j : nat) : Prop :=
  exists i, j = S i /\ ((exists v c, nth_error row i = Some (Container v c)) \/ exists x, nth_error row i = Some (Symbol x) /\ ends x).
Lemma reads_last row : forall l s, reads row s l -> l <> [] -> nth_error row (s + List.length l - 1) = Some (Symbol (last l [])).
Proof.
  intros l. induction l as [|x l IH]; intros s [t H] Hl; [congruence|]. cbn in H. destruct (skipn_cons_S H) as (E&_&En). destruct l as [|y l].
  - cbn [List.length last]. now replace (s + 1 - 1) with s by lia.
  - cbn [List.length]. replace (s + S (S (List.length l)) - 1) with (S s + List.length (y :: l) - 1) by (cbn [List.length]; lia).
    change (last (x :: y :: l) []) with (last (y :: l) []). apply IH; [exists t; exact E|discriminate].
Qed.
Definition token_end (row : InputRow) (b : nat) : Prop :=
  exists i, b = S i /\ ~ blank row i /\ ((exists v c, nth_error row i = Some (Container v c)) \/ exists x, nth_error row i = Some (Symbol x) /\ ends x).
Lemma token_end_ok row a b t c : usable g t -> token g row a b t c -> token_end row b.
Proof.
  intros U H. assert (E : token_ends t) by (destruct t; try exact I; destruct U as (r&Hr&Ht); exact (Ends Hr Ht)). clear U.
  destruct H as [row s e t ty symbols l Hl Hlt _ _ Hr Len _|row s v cells w nodes En _ _ _|row s m x y c Ex _ Ey|row s x y Ex Ey].
  - assert (l <> []) as Hne by (intros ->; cbn in Len; lia). pose proof (reads_last Hr Hne) as En. replace (s + List.length l - 1) with (e - 1) in En by lia.
    exists (e - 1). split; [lia|]. assert (X : ends (last l []) /\ last l [] <> space).
    { destruct t; cbn [leaf_of token_ends] in *; try easy.
      - destruct Hl as [_ ->]. exact E.
      - destruct Hl as [_ Hl]. auto.
      - destruct Hl as (_&_&Hl). auto.
      - destruct Hl as [_ Hl]. rewrite Hl. exact E. }
    destruct X as [X1 X2]. split; [unfold blank; intros B; rewrite En in B; inv B; auto|right; eauto].
  - exists s. split; [reflexivity|]. split; [unfold blank; congruence|left; eauto].
  - exists m. destruct E as [E1 E2]. split; [reflexivity|]. split; [unfold blank; intros B; rewrite Ey in B; inv B; auto|right; eauto].
  - exists (S s). destruct E as [E1 E2]. split; [reflexivity|]. split; [unfold blank; intros B; rewrite Ey in B; inv B; auto|right; eauto].
Qed.
(** Spaces before [e] come after a token. *)
Definition starts (row : InputRow) (e : nat) : Prop := is_script row e -> forall j, spaces_before row j e -> follows_end row j.
Lemma wrapped_starts row s e name t n : usable g t -> wrapped g row s e name t n -> starts row e.
Proof.
  intros U W. inv W. intros _ j (L&A&B). destruct (token_end_ok U H0) as (i&->&Hb&Hi). apply spaces_range in H1 as R. destruct R as [R _].
  assert (S i <= j).
  { destruct (le_lt_dec (S i) j) as [|L']; [auto|]. exfalso. apply Hb. apply A. lia. }
  destruct (Nat.eq_dec j (S i)) as [->|Ne]; [exists i; auto|]. exfalso. destruct j as [|j]; [lia|]. apply (B j eq_refl). inv H1; [lia|]. apply H5. lia.
Qed.
Lemma scripted_starts row s e t n : usable g t -> scripted g row s e t n -> starts row e.
Proof. intros U W. inv W; [now apply wrapped_starts with (2 := H)|apply wrapped_starts with (2 := H1); exact I]. Qed.
Lemma op_usable sel op : (forall r o, sel r = Some o -> rule_token r = Some (op_token o)) -> In op (g_ops sel g) -> usable g (op_token op).
Proof. intros Hs H. apply ops_in in H as (r&Hr&E). eapply rule_usable; eauto. Qed.
Lemma tree_starts row s e n : tree g row s e n -> starts row s -> starts row e.
Proof.
  induction 1; intros S; auto.
  - intros (v&c&E&Hv) j (L&A&_). exfalso. assert (B : blank row s) by (apply A; lia). destruct (Scripts Hv) as (r&Hr&Ht).
    apply (H0 r (TContainer v) (Datatypes.S s) (Some (space_leaf s (Datatypes.S s))) Hr Ht); [|unfold blank; congruence|exists c; exact E].
    constructor; [lia|]. intros k Hk. now replace k with s by lia.
  - apply IHtree. eapply scripted_starts; [|exact H0]. eapply op_usable; [|exact H]. intros [] ? E; inv E; reflexivity.
  - apply IHtree2. eapply scripted_starts; [|exact H1]. eapply op_usable; [|exact H]. intros [] ? E; inv E; reflexivity.
  - eapply wrapped_starts; [|exact H1]. eapply op_usable; [|exact H]. intros [] ? E; inv E; reflexivity.
  - apply atoms_in in H. eapply wrapped_starts; [|exact H0]. eapply rule_usable; [exact H|reflexivity].
Qed.

Definition ordered (row : InputRow) : Prop := spaces_follow ends row.
Definition container_ordered (row : InputRow) (k : nat) : Prop :=
  forall v cells w, nth_error row k = Some (Container v (mkGrid cells w)) ->
  (v = Sub \/ v = Sup -> forall j, spaces_before row j k -> follows_end row j) /\ forall cell, In cell cells -> everywhere ordered cell.
Definition part_ordered (row : InputRow) (s e : nat) : Prop := forall k, s <= k < e -> container_ordered row k.
Lemma ordered_app row s m e : part_ordered row s m -> part_ordered row m e -> part_ordered row s e.
Proof. intros H H' k Hk. destruct (le_lt_dec m k); [apply H'; lia|apply H; lia]. Qed.
Lemma ordered_nil row s : part_ordered row s s.
Proof. intros k Hk. lia. Qed.
Lemma spaces_ordered row s e o : spaces row s e o -> part_ordered row s e.
Proof. intros H. inv H; [apply ordered_nil|]. intros k Hk v cells w E. apply H1 in Hk. unfold blank in Hk. congruence. Qed.
Lemma symbol_ordered row s x : nth_error row s = Some (Symbol x) -> part_ordered row s (S s).
Proof. intros H k Hk v cells w E. assert (k = s) as -> by lia. congruence. Qed.
Definition token_ordered (row : InputRow) (s e : nat) (t : TokenParser) (c : SyntaxNodeChildren) : Prop :=
  match t with
  | TContainer v => exists cells nodes w, c = NewRows (mkGrid nodes w) /\ e = S s /\ nth_error row s = Some (Container v (mkGrid cells w)) /\
      (content_rendered rs c -> forall cell, In cell cells -> everywhere ordered cell)
  | TBrackets _ _ | TEmptyBrackets _ _ => exists l, c = Children l /\ (content_rendered rs c -> part_ordered row s e)
  | _ => exists ty l, c = Leaf ty l /\ part_ordered row s e
  end.
Definition unpacked (row : InputRow) (s e : nat) (name : PathIdentifier) (t : TokenParser) (n : SyntaxNode) : Prop :=
  exists a b c before after, n = wrap before (mkSyntax name c a b) after s e /\ spaces row s a before /\ spaces row b e after /\ token_ordered row a b t c.
Lemma unpacked_part row s e name t n : unpacked row s e name t n -> (forall a b c before after, n = wrap before (mkSyntax name c a b) after s e -> token_ordered row a b t c -> part_ordered row a b) -> part_ordered row s e.
Proof. intros (a&b&c&before&after&E&Sb&Sa&C) H. apply ordered_app with (m := a); [eapply spaces_ordered; eauto|]. apply ordered_app with (m := b); [eauto|eapply spaces_ordered; eauto]. Qed.
Lemma ordered_op row s e t n : not_container t -> unpacked row s e operator_rule_name t n -> rendered rs n -> part_ordered row s e.
Proof.
  intros Ht Ho Hn. apply (unpacked_part Ho). intros a b c before after -> C. apply (rendered_wrap F) in Hn.
  assert (K : forall l, c = Children l -> content_rendered rs c).
  { intros l ->. destruct Hn as (ri&o&x&H). rewrite render_eq in H. unfold render_node in H. cbn [syn_name syn_range syn_children] in H. rewrite (fit_operator F) in H.
    apply simple_inv in H as (l'&E&Hl&_). cbn in E. inv E. exact Hl. }
  destruct t; try easy; cbn [token_ordered] in C; try (destruct C as (ty&l&_&C); exact C); destruct C as (l&->&C); eapply C, K; reflexivity.
Qed.
Lemma ordered_atom row s e name t n : In (RAtom name t) (g_rules g) -> unpacked row s e name t n -> rendered rs n -> part_ordered row s e.
Proof.
  intros Hr Ho Hn. apply (unpacked_part Ho). intros a b c before after -> C. apply (rendered_wrap F) in Hn. apply (fit_rules F) in Hr.
  destruct t as [l ty|v|x y|x y| | |]; cbn [token_ordered] in C; try (destruct C as (ty'&l'&_&C); exact C).
  - destruct C as (cells&nodes&w&->&->&En&C). intros k Hk v' cells' w' E. assert (k = a) as -> by lia. rewrite En in E. inv E.
    destruct Hn as (ri&o&x&H). rewrite render_eq in H. unfold render_node in H. cbn [syn_name syn_range syn_children] in H.
    assert (K : Forall (rendered rs) nodes /\ v' <> Sub /\ v' <> Sup).
    { destruct v', (get_renderer rs name) as [[| | | |[]| | | | |]|]; try easy.
      - apply rows_inv in H as (l&w''&E&Hl&R). cbn in E. inv E. repeat split; auto; discriminate.
      - apply rows_inv in H as (l&w''&E&Hl&R). cbn in E. inv E. repeat split; auto; discriminate.
      - apply bind_ok in H as (?&_&H). apply bind_ok in H as (?&_&H). apply rows_inv in H as (l&w''&E&Hl&R). cbn in E. inv E. repeat split; auto; discriminate. }
    destruct K as (K1&K2&K3). split; [intros [|]; contradiction|auto].
  - destruct C as (l&->&C). apply C. apply (rendered_simple Hr Hn).
  - destruct C as (l&->&C). apply C. apply (rendered_simple Hr Hn).
Qed.
Lemma ordered_script row s e name v n lhs s0 e0 : (v = Sub \/ v = Sup) -> script_renderer (get_renderer rs name) -> starts row s -> unpacked row s e operator_rule_name (TContainer v) n ->
  rendered rs (mkSyntax name (Children [lhs; n]) s0 e0) -> rendered rs lhs /\ part_ordered row s e.
Proof.
  intros Hv Hn St (a&b&c&before&after&->&Sb&Sa&C) (ri&o&x&H). rewrite render_eq in H. unfold render_node in H. cbn [syn_name syn_range syn_children] in H.
  assert (K : exists tag, (_ <- assert_ (is_new_rows (nth_error [lhs; wrap before (mkSyntax operator_rule_name c a b) after s e] 1)) ;;
    simple_container rs (mkSyntax name (Children [lhs; wrap before (mkSyntax operator_rule_name c a b) after s e]) s0 e0) ri tag (mkOptions false (Some ri))) = Ok x)
    by (destruct Hn as [Hn|Hn]; rewrite Hn in H; eauto). clear H. destruct K as (tag&H). apply bind_ok in H as (?&Hr&H). apply assert_inv in Hr.
  destruct C as (cells&nodes&w&->&->&En&C).
  assert (before = None) as -> by (destruct before; [destruct after; discriminate|reflexivity]). assert (after = None) as -> by (destruct after; [discriminate|reflexivity]).
  apply spaces_range in Sa as [_ <-]. apply spaces_range in Sb as [_ <-]. cbn [wrap] in *. apply simple_inv in H as (l&E&Hl&_). cbn in E. inv E. inv Hl. inv H2. clear H4. split; [assumption|].
  intros k Hk v' cells' w' E. assert (k = s) as -> by lia. rewrite En in E. inv E.
  assert (K : Forall (rendered rs) nodes).
  { destruct H3 as (ri'&o'&y&H). rewrite render_eq in H. unfold render_node in H. cbn [syn_name syn_range syn_children] in H. rewrite (fit_operator F) in H.
    destruct (opt_override o'); [|discriminate]. apply rows_inv in H as (l&w''&E&Hl&_). cbn in E. now inv E. }
  split; [|auto]. intros _. apply St. exists v', (mkGrid cells' w'). auto.
Qed.
Lemma part_ordered_all row : part_ordered row 0 (List.length row) -> everywhere ordered row.
Proof.
  intros H. assert (K : forall k v c, nth_error row k = Some (Container v c) -> k < List.length row) by (intros k v c E; apply nth_error_Some; congruence).
  apply everywhere_intro.
  - intros j k (v&[cells w]&E&Hv). destruct (H k (conj (Nat.le_0_l k) (K _ _ _ E)) _ _ _ E) as (H1&_). exact (H1 Hv j).
  - intros k v cells w cell E Hc. destruct (H k (conj (Nat.le_0_l k) (K _ _ _ E)) _ _ _ E) as (_&H3). exact (H3 _ Hc).
Qed.
Lemma starts_zero row : starts row 0.
Proof. intros _ j (L&_). lia. Qed.
Theorem tree_ordered :
  (forall row s e n, tree g row s e n -> rendered rs n -> starts row s -> part_ordered row s e) /\
  (forall row s e t c, token g row s e t c -> usable g t -> token_ordered row s e t c) /\
  (forall row s e name t n, wrapped g row s e name t n -> usable g t -> unpacked row s e name t n) /\
  (forall row s e t n, scripted g row s e t n -> usable g t -> not_container t -> rendered rs n -> part_ordered row s e) /\
  (forall cells nodes, cells_tree g cells nodes -> Forall (rendered rs) nodes -> forall cell, In cell cells -> everywhere ordered cell).
Proof.
  apply tree_mutind.
  - intros. apply ordered_nil.
  - intros row s m e a b Ta IHa _ IHb H S. apply rendered_simple with (b := false) in H; [|apply (fit_juxt F)]. inv H. inv H3. inv H4. pose proof (tree_starts Ta S). apply ordered_app with (m := m); auto.
  - intros row s x E _ _ _. eapply symbol_ordered; eauto.
  - intros row s m e op v a Hop Tv IHv _ IHa H S. apply op_rule in Hop as (r&Hr&E). destruct r; inv E. pose proof (rule_usable Hr eq_refl) as U. apply (fit_rules F) in Hr as [Hc Hn]. cbn [op_token op_name] in *.
    pose proof (scripted_starts U Tv). apply (rendered_simple Hn) in H. inv H. inv H4. apply ordered_app with (m := m); auto.
  - intros row s m k e op a v b Hop _ IHa Tv IHv _ IHb H S. apply op_rule in Hop as (r&Hr&E). destruct r; inv E; pose proof (rule_usable Hr eq_refl) as U; apply (fit_rules F) in Hr as [Hc Hn]; cbn [op_token op_name] in *;
      pose proof (scripted_starts U Tv); apply (rendered_simple Hn) in H; inv H; inv H4; inv H5; (apply ordered_app with (m := m); auto; apply ordered_app with (m := k); auto).
  - intros row s m e op a v Hop Ta IHa _ IHv H S. apply op_rule in Hop as (r&Hr&E). destruct r; inv E. pose proof (rule_usable Hr eq_refl) as U. apply (fit_rules F) in Hr. cbn [op_token op_name] in *.
    pose proof (tree_starts Ta S) as Sm.
    assert (K : not_container t -> get_renderer rs name = Some (RenderSimple false) -> part_ordered row s e).
    { intros Hc Hn. apply (rendered_simple Hn) in H. inv H. inv H3. apply ordered_app with (m := m); auto. eapply ordered_op; eauto. }
    destruct t; try (now apply K). destruct Hr as [Hv Hr]. destruct (ordered_script Hv Hr Sm (IHv U) H). apply ordered_app with (m := m); auto.
  - intros row s e name t n Hr _ IH H _. apply atoms_in in Hr. pose proof (rule_usable Hr eq_refl) as U. eapply ordered_atom; eauto.
  - intros row s e t ty symbols l Hl _ _ Hs _ _ _ _. assert (part_ordered row s e) by (intros k Hk v cells w E; apply Hs in Hk as [x Hk]; congruence). destruct t; try easy; cbn; eauto.
  - intros row s v cells w nodes En Hw Hm Hc IH _. exists cells, nodes, w. auto.
  - intros row s m a b c Ea Hc IH Eb (r&Hr&Ht). eexists. split; [reflexivity|]. intros H. cbn in H. inv H. inv H3. apply ordered_app with (m := S s); [eapply symbol_ordered; eauto|].
    apply ordered_app with (m := m); [|eapply symbol_ordered; eauto]. apply IH; [auto|]. intros _ j (L&A&_). exfalso. apply (fit_open F (x := a)); [exists r, b; auto|].
    assert (B : is_space row s) by (apply A; lia). unfold is_space in B. rewrite Ea in B. now inv B.
  - intros row s a b Ea Eb _. eexists. split; [reflexivity|]. intros _. apply ordered_app with (m := S s); eapply symbol_ordered; eauto.
  - intros row s a b e name t c before after Sb _ IH Sa Hb U. exists a, b, c, before, after. auto.
  - intros row s e t n _ IH U Ht H. eapply ordered_op; eauto.
  - intros row s m e t n v name op Hv Tn IHn _ IHo U Ht H.
    assert (Hv' : v = Sub \/ v = Sup) by (destruct Hv as [[-> _]|[-> _]]; auto).
    assert (Hn : script_renderer (get_renderer rs name)) by (destruct Hv as [[_ ->]|[_ ->]]; [left; apply (fit_sub F)|right; apply (fit_sup F)]).
    destruct (ordered_script Hv' Hn (scripted_starts U Tn) (IHo I) H). apply ordered_app with (m := m); auto.
  - easy.
  - intros cell cells n nodes _ IHn _ IHc H c [<-|Hc]; inv H; [|auto]. apply part_ordered_all. apply IHn; [auto|apply starts_zero].
Qed.
End Necessary.

(** ** The default grammar *)
Definition default_token_b (r : ParseRule) : bool :=
  match rule_token r with
  | Some (TSymbols l _) => existsb (str_eqb (last l [])) (operator_symbols ++ [[109%N]; [112%N]; [102%N]]) && negb (str_eqb (last l []) space)
  | Some (TBrackets a b) => str_eqb a [40%N] && str_eqb b [41%N]
  | Some (TEmptyBrackets a b) => str_eqb b [41%N]
  | _ => true
  end.
Lemma default_tokens : forallb default_token_b default_parse_rules = true.
Proof. vm_compute. reflexivity. Qed.
Definition operator_b (x : str) : bool := existsb (fun r => match rule_token r with Some (TSymbols [y] _) => str_eqb x y | _ => false end) default_parse_rules.
Lemma default_operators : forallb operator_b operator_symbols = true.
Proof. vm_compute. reflexivity. Qed.
Lemma digits_iff x : is_digits x = true <-> digit_symbol x.
Proof.
  unfold is_digits, digit_symbol. rewrite forallb_forall. split; intros H c Hc; specialize (H c Hc).
  - apply andb_prop in H as [H1 H2]. apply N.leb_le in H1, H2. auto.
  - apply andb_true_intro. rewrite !N.leb_le. exact H.
Qed.
Section Default.
Variables xs xc : N -> bool.
Notation g := (default_grammar xs xc).
Lemma start_iff x : is_identifier_start g x = true <-> letter_symbol xs xc x.
Proof.
  unfold is_identifier_start, letter_symbol. cbn [g_xid_start g_xid_continue default_grammar]. destruct x as [|c r]; split.
  - discriminate.
  - intros (c&r&E&_). discriminate.
  - intros H. apply andb_prop in H as [H1 H2]. rewrite forallb_forall in H2. eauto 6.
  - intros (c'&r'&E&H1&H2). inv E. apply andb_true_intro. split; [exact H1|now rewrite forallb_forall].
Qed.
Lemma continue_iff x : is_identifier_continue g x = true <-> continue_symbol xc x.
Proof. unfold is_identifier_continue, continue_symbol. cbn [g_xid_continue default_grammar]. apply forallb_forall. Qed.
Lemma default_alone x : stands_alone xs xc x -> exists r t, In r (g_rules g) /\ rule_token r = Some t /\ forall row p, nth_error row p = Some (Symbol x) -> recognises g row p t.
Proof.
  intros [_ [H|[H|H]]].
  - pose proof default_operators as A. rewrite forallb_forall in A. apply A in H. apply existsb_exists in H as (r&Hr&H). exists r. destruct (rule_token r) as [[[|y [|]] ty| | | | | |]|] eqn:E; try discriminate H.
    apply str_eqb_eq in H. subst y. eexists. split; [exact Hr|]. split; [reflexivity|]. intros row p En. cbn [recognises]. now apply reads_one.
  - assert (X : exists r, In r default_parse_rules /\ rule_token r = Some TNumber).
    { assert (B : existsb (fun r => match rule_token r with Some TNumber => true | _ => false end) default_parse_rules = true) by (vm_compute; reflexivity).
      apply existsb_exists in B as (r&Hr&B). exists r. split; [exact Hr|]. destruct (rule_token r) as [[]|]; try discriminate B. reflexivity. }
    destruct X as (r&Hr&Ht). exists r, TNumber. split; [exact Hr|]. split; [exact Ht|]. intros row p En. exists x. split; [exact En|now apply digits_iff].
  - assert (X : exists r, In r default_parse_rules /\ rule_token r = Some TVariable).
    { assert (B : existsb (fun r => match rule_token r with Some TVariable => true | _ => false end) default_parse_rules = true) by (vm_compute; reflexivity).
      apply existsb_exists in B as (r&Hr&B). exists r. split; [exact Hr|]. destruct (rule_token r) as [[]|]; try discriminate B. reflexivity. }
    destruct X as (r&Hr&Ht). exists r, TVariable. split; [exact Hr|]. split; [exact Ht|]. intros row p En. exists x. split; [exact En|now apply start_iff].
Qed.
Lemma default_open x : opens g x -> x = [40%N].
Proof.
  intros (r&b&Hr&Ht). pose proof default_tokens as A. rewrite forallb_forall in A. specialize (A r Hr). unfold default_token_b in A. rewrite Ht in A. apply andb_prop in A as [A _]. now apply str_eqb_eq.
Qed.
Lemma default_alone_open x : stands_alone xs xc x -> ~ opens g x.
Proof. intros [H _] O. apply H. now apply default_open. Qed.
Theorem default_rendered_spaces doc n : wf_row doc -> parse g doc = Ok n ->
  everywhere two_cells doc -> everywhere no_space_after_scripts doc -> everywhere (spaces_follow (stands_alone xs xc)) doc -> exists x, render_all default_renderers n = Ok x.
Proof.
  intros Hwf En H2 Ha Hb. apply parse_shape in En; [|apply default_no_empty_tokens].
  destruct (@tree_renders _ _ (default_fits xs xc) _ default_alone default_alone_open) as (T&_). apply T in En; [apply En| |apply settled_start].
  intros p row E. split; [eapply wf_nonempty; eauto|]. split; [eauto|]. split; eauto.
Qed.

Hypothesis X1 : xs 32%N = false.
Hypothesis X2 : xc 32%N = false.
Lemma default_ends r t : In r (g_rules g) -> rule_token r = Some t -> token_ends g (may_end xs xc) t.
Proof.
  intros Hr Ht. pose proof default_tokens as A. rewrite forallb_forall in A. specialize (A r Hr). unfold default_token_b in A. rewrite Ht in A. unfold may_end.
  destruct t as [l ty|v|a b|a b| | |]; cbn [token_ends].
  - apply andb_prop in A as [A1 A2]. apply existsb_exists in A1 as (y&Hy&E). apply str_eqb_eq in E. rewrite E in *. split.
    + apply in_app_or in Hy as [Hy|Hy]; tauto.
    + intros ->. discriminate A2.
  - exact I.
  - apply andb_prop in A as [_ A]. apply str_eqb_eq in A. subst b. split; [tauto|discriminate].
  - apply str_eqb_eq in A. subst b. split; [tauto|discriminate].
  - intros x H. split; [apply digits_iff in H; tauto|]. intros ->. discriminate H.
  - intros x [H|H]; (split; [|intros ->; cbn in H; rewrite ?X1, ?X2 in H; discriminate H]).
    + apply start_iff in H. tauto.
    + apply continue_iff in H. tauto.
  - split; [tauto|discriminate].
Qed.
Theorem default_rendered_spaces_inv doc n x : parse g doc = Ok n -> render_all default_renderers n = Ok x -> everywhere (spaces_follow (may_end xs xc)) doc.
Proof.
  intros En Hx. apply parse_shape in En; [|apply default_no_empty_tokens].
  assert (S : forall v, v = Sub \/ v = Sup -> exists r, In r (g_rules g) /\ rule_token r = Some (TContainer v)) by (intros v _; apply default_all_containers).
  destruct (@tree_ordered _ _ (default_fits xs xc) _ default_ends S) as (T&_). apply part_ordered_all. apply T in En; auto; [exists None, no_options, x; exact Hx|apply starts_zero].
Qed.
End Default.
