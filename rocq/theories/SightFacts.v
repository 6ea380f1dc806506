(** What is seen of a document that is drawn. *)
From Coq Require Import String.
From Verif Require Import Base Str Grid Node Focus Autocomplete Spec NameMap Syntax Pratt Grammar SyntaxFind Render Layout SpecSyntax SpecPratt SpecRender SpecDom SpecSafety SpecSight BaseFacts TreeFacts ParseFacts ParseTotal GrammarFacts FindFacts NameMapFacts ShapeFacts RenderFacts LayoutFacts DomFacts.
Open Scope list_scope.
Open Scope nat_scope.
Set Implicit Arguments.
Unset Strict Implicit.

Definition sight (x : Element) : InputRow := flat_map seen (get_elements x).
Lemma seen_wrap l : seen (wrap_in_mrow l) = flat_map seen l.
Proof. destruct l as [|a [|b l]]; try reflexivity. cbn [wrap_in_mrow flat_map]. now rewrite app_nil_r. Qed.
Lemma seen_children xs : map seen (child_doms xs) = map sight xs.
Proof. unfold child_doms. rewrite map_map. apply map_ext. intros x. apply seen_wrap. Qed.
Lemma seen_flat xs : flat_map seen (child_doms xs) = concat (map sight xs).
Proof. rewrite flat_map_concat_map. now rewrite seen_children. Qed.
Lemma letters_app a b : letters (a ++ b) = letters a ++ letters b.
Proof. apply map_app. Qed.
Lemma seen_texts l : flat_map seen (map DomText l) = letters (concat l).
Proof. induction l as [|a l IH]; [reflexivity|]. cbn [map flat_map concat seen]. now rewrite letters_app, IH. Qed.
Lemma outline_symbols l : flat_map outline (map Symbol l) = letters (concat l).
Proof. induction l as [|a l IH]; [reflexivity|]. cbn [map flat_map concat outline]. now rewrite letters_app, IH. Qed.

(** ** Parts of a row *)
Definition part (row : InputRow) (s e : nat) : InputRow := flat_map outline (firstn (e - s) (skipn s row)).
Lemma part_nil row s : part row s s = [].
Proof. unfold part. now rewrite Nat.sub_diag. Qed.
Lemma firstn_split A n m (l : list A) : firstn (n + m) l = firstn n l ++ firstn m (skipn n l).
Proof. revert l. induction n as [|n IH]; intros [|a l]; cbn; auto; [now destruct m|]. now rewrite IH. Qed.
Lemma skipn_skipn_add A n m (l : list A) : skipn n (skipn m l) = skipn (m + n) l.
Proof. revert l. induction m as [|m IH]; intros [|a l]; cbn; auto. now destruct n. Qed.
Lemma part_app row s m e : s <= m -> m <= e -> part row s e = part row s m ++ part row m e.
Proof.
  intros H H'. unfold part. replace (e - s) with ((m - s) + (e - m)) by lia. rewrite firstn_split, flat_map_app. do 2 f_equal.
  rewrite skipn_skipn_add. now replace (s + (m - s)) with m by lia.
Qed.
Lemma part_one row s n : nth_error row s = Some n -> part row s (S s) = outline n.
Proof.
  intros H. unfold part. replace (S s - s) with 1 by lia. assert (s < List.length row) as L by (apply nth_error_Some; congruence).
  destruct (skipn_lt L) as (n'&E). rewrite E. cbn. rewrite app_nil_r. destruct (skipn_cons_S E) as (_&_&En). congruence.
Qed.
Lemma part_all row : part row 0 (List.length row) = flat_map outline row.
Proof. unfold part. rewrite Nat.sub_0_r. cbn [skipn]. now rewrite firstn_all. Qed.
Lemma part_reads row s e l : reads row s l -> List.length l = e - s -> part row s e = letters (concat l).
Proof.
  intros [tail H] L. unfold part. rewrite H, <- L. rewrite <- (map_length Symbol l). rewrite firstn_app, Nat.sub_diag, firstn_all. cbn [firstn]. rewrite app_nil_r. apply outline_symbols.
Qed.
Lemma part_blank row s e : s <= e -> (forall k, s <= k < e -> blank row k) -> part row s e = letters (concat (repeat space (e - s))).
Proof.
  intros H. remember (e - s) as d eqn:Ed. revert s H Ed. induction d as [|d IH]; intros s H Ed Hb.
  - assert (e = s) as -> by lia. now rewrite part_nil.
  - rewrite (part_app row (m := S s)) by lia. rewrite (part_one (Hb s ltac:(lia))). rewrite IH by (try (intros; apply Hb); lia). reflexivity.
Qed.

Lemma Forall2_imp A B (R R' : A -> B -> Prop) l l' : (forall a b, R a b -> R' a b) -> Forall2 R l l' -> Forall2 R' l l'.
Proof. intros H. induction 1; constructor; auto. Qed.

(** ** Rendering *)
Section Sight.
Variable rs : Renderers.
Definition shows (n : SyntaxNode) (r : InputRow) : Prop := forall ri o x, render rs n ri o = Ok x -> sight x = r.
Lemma mapi_sight (f : nat -> SyntaxNode -> Res Element) l rows : Forall2 (fun n r => forall k x, f k n = Ok x -> sight x = r) l rows ->
  forall k xs, mapi_res f k l = Ok xs -> map sight xs = rows.
Proof.
  induction 1 as [|n r l rows Hn Hl IH]; intros k xs H; cbn [mapi_res] in H; [now inv H|]. apply bind_ok in H as (x&Ex&H). apply bind_ok in H as (xs'&Exs&H). inv H.
  cbn. f_equal; eauto.
Qed.
Lemma simple_sight n ri tag o x l rows : simple_container rs n ri tag o = Ok x -> syn_children n = Children l -> Forall2 shows l rows ->
  exists xs, x = mkElement (SimpleContainer tag) n ri xs /\ map sight xs = rows.
Proof.
  intros H En Hl. unfold simple_container in H. rewrite En in H. apply bind_ok in H as (xs&Ex&H). apply bind_ok in H as (?&_&H). apply bind_ok in H as (?&_&H). inv H.
  exists xs. split; [reflexivity|]. cbn [render_children] in Ex. eapply mapi_sight; [|exact Ex]. eapply Forall2_imp; [|exact Hl]. cbn. intros a r Ha k x. apply Ha.
Qed.
Lemma mrow_sight n ri o x l rows : simple_container rs n ri Tmrow o = Ok x -> syn_children n = Children l -> Forall2 shows l rows -> sight x = concat rows.
Proof.
  intros H En Hl. destruct (simple_sight H En Hl) as (xs&->&E). unfold sight. cbn [get_elements flat_map seen create_math_element]. fold (child_doms xs). now rewrite seen_flat, E, app_nil_r.
Qed.
Lemma rows_sight n class tag ri x l w rows : rows_container rs n class tag ri = Ok x -> syn_children n = NewRows (mkGrid l w) -> Forall2 shows l rows ->
  exists xs, x = mkElement class n ri xs /\ map sight xs = rows /\ List.length xs = List.length l /\ right_number tag (List.length xs) = true.
Proof.
  intros H En Hl. unfold rows_container in H. rewrite En in H. apply bind_ok in H as (?&_&H). apply bind_ok in H as (xs&Ex&H). apply bind_ok in H as (?&_&H). apply bind_ok in H as (?&Hn&H). inv H.
  apply assert_inv in Hn. exists xs. split; [reflexivity|]. cbn [render_rows] in Ex. split; [|split; [now apply mapi_inv in Ex as [_ ->]|exact Hn]].
  eapply mapi_sight; [|exact Ex]. eapply Forall2_imp; [|exact Hl]. cbn. intros a r Ha k x. apply Ha.
Qed.
Lemma shows_simple name l s e b rows r : get_renderer rs name = Some (RenderSimple b) -> Forall2 shows l rows -> r = concat rows -> shows (mkSyntax name (Children l) s e) r.
Proof. intros Hn Hl -> ri o x H. rewrite render_eq in H. unfold render_node in H. cbn [syn_name syn_range] in H. rewrite Hn in H. eapply mrow_sight; [exact H|reflexivity|exact Hl]. Qed.

(** A text is not taken for a placeholder. *)
Definition no_filler (tag : Tag) (symbols : list str) : Prop :=
  match tag with
  | Tmi => symbols <> [[160%N; 160%N]] /\ symbols <> [[11034%N]]
  | Tmn | Tmtext | Tmspace | Tmerror | Tmo => True
  | _ => False
  end.
Lemma seen_leaf tag b symbols : no_filler tag symbols -> seen (DomElement tag b (map DomText symbols)) = letters (concat symbols).
Proof.
  intros H. pose proof (seen_texts symbols) as T. destruct tag; cbn in H; try contradiction; cbn [seen]; try exact T.
  destruct symbols as [|x [|y symbols]]; cbn [map] in *; try exact T. destruct (str_eqb x [160%N; 160%N]) eqn:E1; [apply str_eqb_eq in E1; subst x; now destruct H|].
  destruct (str_eqb x [11034%N]) eqn:E2; [apply str_eqb_eq in E2; subst x; now destruct H|]. cbn [orb concat]. now rewrite app_nil_r.
Qed.
Lemma shows_text name ty symbols s e tag : get_renderer rs name = Some (RenderText tag) -> no_filler tag symbols -> shows (mkSyntax name (Leaf ty symbols) s e) (letters (concat symbols)).
Proof.
  intros Hn Ht ri o x H. rewrite render_eq in H. unfold render_node in H. cbn [syn_name syn_range syn_children] in H. rewrite Hn in H. inv H.
  unfold sight. cbn [get_elements flat_map leaf_symbols syn_children]. unfold create_math_element. now rewrite seen_leaf, app_nil_r.
Qed.

Variable g : Grammar.
Hypothesis F : fits rs g.
(** What is needed beyond [fits] *)
Hypothesis Atoms : forall name t tag symbols l, In (RAtom name t) (g_rules g) -> get_renderer rs name = Some (RenderText tag) -> leaf_of g t symbols l -> no_filler tag symbols.
Hypothesis Scripts : forall name p v tag, In (RPostfix name p (TContainer v)) (g_rules g) -> get_renderer rs name = Some (RenderScript tag) -> (v = Sub /\ tag = Tmsub) \/ (v = Sup /\ tag = Tmsup).

Lemma shows_missing p : shows (missing_at p) [].
Proof. intros ri o x H. rewrite render_eq in H. unfold render_node, missing_at in H. cbn [syn_name syn_range syn_children] in H. rewrite (fit_missing F) in H. apply bind_ok in H as (?&_&H). now inv H. Qed.
Lemma shows_op ty symbols s e : shows (mkSyntax operator_rule_name (Leaf ty symbols) s e) (letters (concat symbols)).
Proof.
  intros ri o x H. rewrite render_eq in H. unfold render_node in H. cbn [syn_name syn_range syn_children] in H. rewrite (fit_operator F) in H. inv H.
  unfold sight. cbn [get_elements flat_map leaf_symbols syn_children]. now rewrite seen_leaf, app_nil_r.
Qed.
Lemma shows_op_children l s e rows : Forall2 shows l rows -> shows (mkSyntax operator_rule_name (Children l) s e) (concat rows).
Proof. intros Hl ri o x H. rewrite render_eq in H. unfold render_node in H. cbn [syn_name syn_range syn_children] in H. rewrite (fit_operator F) in H. eapply mrow_sight; [exact H|reflexivity|exact Hl]. Qed.
Lemma spaces_show row s e o n : spaces row s e o -> o = Some n -> shows n (part row s e).
Proof.
  intros H ->. inversion H as [|s' e' L B]; subst. rewrite (part_blank (Nat.lt_le_incl _ _ L) B). apply shows_text with (tag := Tmspace); [apply (fit_whitespace F)|exact I].
Qed.
Lemma spaces_part row s e o : spaces row s e o -> s <= e /\ (o = None -> part row s e = []).
Proof. intros H. pose proof (spaces_range H) as [L _]. split; [exact L|]. intros ->. inv H. apply part_nil. Qed.
Lemma shows_wrap row s a b e before after n : spaces row s a before -> spaces row b e after -> a <= b -> shows n (part row a b) -> shows (wrap before n after s e) (part row s e).
Proof.
  intros Sb Sa Hab Hn. destruct (spaces_part Sb) as [L1 N1]. destruct (spaces_part Sa) as [L2 N2]. pose proof (fun m => spaces_show (n := m) Sb) as Hb. pose proof (fun m => spaces_show (n := m) Sa) as Ha.
  assert (E : part row s e = concat [part row s a; part row a b; part row b e]) by (cbn; rewrite app_nil_r, <- !part_app by lia; reflexivity).
  assert (K : forall l rows, Forall2 shows l rows -> concat rows = part row s e -> shows (mkSyntax whitespaces_rule_name (Children l) s e) (part row s e)).
  { intros l rows Hl Er ri o x H. rewrite render_eq in H. unfold render_node in H. cbn [syn_name syn_range] in H. rewrite (fit_whitespaces F) in H. rewrite <- Er. eapply mrow_sight; [exact H|reflexivity|exact Hl]. }
  unfold wrap. destruct before as [m1|], after as [m2|].
  - apply K with (rows := [part row s a; part row a b; part row b e]); [repeat constructor; auto|now rewrite E].
  - apply K with (rows := [part row s a; part row a b]); [repeat constructor; auto|]. rewrite E. cbn. now rewrite (N2 eq_refl), !app_nil_r.
  - apply K with (rows := [part row a b; part row b e]); [repeat constructor; auto|]. rewrite E. cbn. now rewrite (N1 eq_refl), !app_nil_r.
  - rewrite E. cbn. now rewrite (N1 eq_refl), (N2 eq_refl), !app_nil_r.
Qed.
(** The contents of a token *)
Definition content_shows (row : InputRow) (s e : nat) (t : TokenParser) (c : SyntaxNodeChildren) : Prop :=
  match c with
  | Leaf _ symbols => exists l, leaf_of g t symbols l /\ part row s e = letters (concat symbols)
  | Children l => is_bracket_token t /\ exists rows, Forall2 shows l rows /\ part row s e = concat rows
  | NewRows (mkGrid l w) => exists v cells, t = TContainer v /\ nth_error row s = Some (Container v (mkGrid cells w)) /\ e = S s /\ Forall2 shows l (map (flat_map outline) cells)
  end.
Definition open_shows (row : InputRow) (s e : nat) (name : PathIdentifier) (t : TokenParser) (n : SyntaxNode) : Prop :=
  exists a b c before after, n = wrap before (mkSyntax name c a b) after s e /\ spaces row s a before /\ spaces row b e after /\ a <= b /\ content_shows row a b t c.
Lemma open_op row s e t n : not_container t -> open_shows row s e operator_rule_name t n -> shows n (part row s e).
Proof.
  intros Ht (a&b&c&before&after&->&Sb&Sa&L&C). eapply shows_wrap; eauto. destruct c as [[l w]|l|ty l]; cbn [content_shows] in C.
  - destruct C as (v&cells&->&_). easy.
  - destruct C as (_&rows&Hl&->). now apply shows_op_children.
  - destruct C as (l'&_&->). apply shows_op.
Qed.
Lemma readers_sight d : flat_map seen [create_math_element Tmphantom []; d; create_math_element Tmphantom []] = seen d.
Proof. cbn [flat_map create_math_element seen app]. now rewrite app_nil_r. Qed.
Lemma table_seen w : 0 < w -> forall fuel l, List.length l <= fuel ->
  flat_map (fun line => match line with DomElement Tmtr _ cells => map seen cells | _ => [] end) (table_rows fuel w l) = map seen l.
Proof.
  intros Hw. induction fuel as [|fuel IH]; intros l Hf; [destruct l; [reflexivity|cbn in Hf; lia]|]. destruct l as [|d l]; [reflexivity|]. cbn [table_rows flat_map create_math_element].
  rewrite IH by (rewrite skipn_length; cbn [List.length] in *; lia). rewrite <- (firstn_skipn w (d :: l)) at 3. rewrite map_app. f_equal. rewrite map_map. apply map_ext. intros x. cbn. apply app_nil_r.
Qed.
Lemma table_width fuel w l : 0 < fuel -> 0 < List.length l -> List.length (firstn w l) = w -> match table_rows fuel w l with DomElement Tmtr _ cells :: _ => List.length cells | _ => 0 end = w.
Proof. intros Hf Hl E. destruct fuel; [lia|]. destruct l as [|d l]; [cbn in Hl; lia|]. cbn [table_rows create_math_element]. now rewrite map_length. Qed.
Lemma open_atom row s e name t n : In (RAtom name t) (g_rules g) -> open_shows row s e name t n -> shows n (part row s e).
Proof.
  intros Hr (a&b&c&before&after&->&Sb&Sa&L&C). eapply shows_wrap; eauto. pose proof (fit_rules F Hr) as Hf. destruct c as [[l w]|l|ty l]; cbn [content_shows] in C.
  - destruct C as (v&cells&->&En&->&Hl). rewrite (part_one En). cbn [outline]. intros ri o x H. rewrite render_eq in H. unfold render_node in H. cbn [syn_name syn_range syn_children] in H.
    destruct v, (get_renderer rs name) as [[| | | |[]| | | | |]|]; try easy.
    + destruct (rows_sight H eq_refl Hl) as (xs&->&E&_&_). unfold sight. cbn [get_elements]. rewrite readers_sight. fold (child_doms xs). cbn [create_math_element seen]. now rewrite seen_children, E.
    + destruct (rows_sight H eq_refl Hl) as (xs&->&E&_&N). unfold sight. cbn [get_elements]. rewrite readers_sight. fold (child_doms xs). apply Nat.eqb_eq in N.
      destruct xs as [|x1 [|x2 [|]]]; try discriminate. rewrite <- E. cbn [map child_doms rev app create_math_element seen]. now rewrite !seen_wrap.
    + apply bind_ok in H as (?&Hl0&H). apply bind_ok in H as (?&Hw&H). apply assert_inv, Nat.ltb_lt in Hl0. destruct (Nat.eqb_spec w 0) as [|W]; [discriminate|]. apply assert_inv, Nat.eqb_eq in Hw.
      destruct (rows_sight H eq_refl Hl) as (xs&->&E&Hlen&_). unfold sight. cbn [get_elements]. rewrite readers_sight. fold (child_doms xs). cbn [syn_children gwidth create_math_element seen].
      assert (Hd : List.length (child_doms xs) = List.length l) by (unfold child_doms; now rewrite map_length).
      rewrite table_seen, seen_children, E by (auto; lia). rewrite table_width; auto; try lia. apply firstn_length_le. rewrite Hd.
      destruct (le_lt_dec w (List.length l)) as [|Q]; [assumption|exfalso]. rewrite (Nat.div_small (List.length l)) in Hw by exact Q. apply Nat.div_small_iff in Hw; lia.
  - destruct C as (Ht&rows&Hl&E). eapply shows_simple; [|exact Hl|exact E]. destruct t; try easy; exact Hf.
  - destruct C as (l'&Hl&->). assert (exists tag, get_renderer rs name = Some (RenderText tag)) as (tag&Et) by (destruct t; easy). eapply shows_text; eauto.
Qed.
Lemma open_script row s m e name v tag n lhs : (v = Sub /\ tag = Tmsub) \/ (v = Sup /\ tag = Tmsup) -> get_renderer rs name = Some (RenderScript tag) -> s <= m -> shows lhs (part row s m) ->
  open_shows row m e operator_rule_name (TContainer v) n -> shows (mkSyntax name (Children [lhs; n]) s e) (part row s e).
Proof.
  intros Hv Hn Hsm Hl (a&b&c&before&after&->&Sb&Sa&L&C) ri o x H. rewrite render_eq in H. unfold render_node in H. cbn [syn_name syn_range syn_children nth_error] in H. rewrite Hn in H.
  apply bind_ok in H as (?&Hnew&H). apply assert_inv in Hnew. destruct before, after; try discriminate. cbn [wrap] in *. inv Sb. inv Sa.
  destruct c as [[l w]|l|ty l]; try discriminate. cbn [content_shows] in C. destruct C as (v'&cells&Ev&En&->&Hr). inv Ev.
  unfold simple_container in H. cbn [syn_children render_children mapi_res] in H. apply bind_ok in H as (xs&Ex&H). apply bind_ok in H as (?&_&H). apply bind_ok in H as (?&_&H). inv H.
  apply bind_ok in Ex as (xb&Exb&Ex). apply bind_ok in Ex as (xs'&Ex'&Ex). inv Ex. apply bind_ok in Ex' as (xo&Exo&Ex'). inv Ex'.
  apply Hl in Exb. rewrite render_eq in Exo. unfold render_node in Exo. cbn [syn_name syn_range syn_children opt_override] in Exo. rewrite (fit_operator F) in Exo.
  destruct (rows_sight Exo eq_refl Hr) as (ys&->&E&_&_). rewrite (part_app row (m := a)) by lia. rewrite (part_one En). rewrite <- Exb.
  unfold sight at 1. cbn [get_elements map]. change (wrap_in_mrow (get_elements xb)) with (wrap_in_mrow (get_elements xb)). fold (child_doms ys).
  cbn [wrap_in_mrow flat_map]. rewrite app_nil_r. unfold create_math_element. destruct Hv as [[-> ->]|[-> ->]]; cbn [seen outline]; rewrite seen_wrap, seen_children, E; reflexivity.
Qed.
Theorem tree_shows :
  (forall row s e n, tree g row s e n -> shows n (part row s e)) /\
  (forall row s e t c, token g row s e t c -> content_shows row s e t c) /\
  (forall row s e name t n, wrapped g row s e name t n -> open_shows row s e name t n) /\
  (forall row s e t n, scripted g row s e t n -> not_container t -> shows n (part row s e)) /\
  (forall cells nodes, cells_tree g cells nodes -> Forall2 shows nodes (map (flat_map outline) cells)).
Proof.
  assert (OL : forall row k x, nth_error row k = Some (Symbol x) -> shows (op_leaf x k) (part row k (S k))).
  { intros row k x E. rewrite (part_one E). cbn [outline]. replace (letters x) with (letters (concat [x])) by (cbn; now rewrite app_nil_r). apply shows_op. }
  apply tree_mutind.
  - intros row s. rewrite part_nil. apply shows_missing.
  - intros row s m e a b Ta IHa Tb IHb. apply shows_simple with (b := false) (rows := [part row s m; []; part row m e]); [apply (fit_juxt F)|repeat constructor; auto; apply shows_missing|].
    cbn [concat]. rewrite app_nil_r. apply part_app; eauto using tree_le.
  - intros row s x E _. rewrite (part_one E). cbn [outline]. replace (letters x) with (letters (concat [x])) by (cbn; now rewrite app_nil_r). apply shows_text with (tag := Tmerror); [apply (fit_unknown F)|exact I].
  - intros row s m e op v a Hop Tv IHv Ta IHa. apply op_rule in Hop as (r&Hr&E). destruct r; inv E. apply (fit_rules F) in Hr as [Hc Hn]. cbn [op_token op_name] in *.
    apply scripted_range in Tv as [_ Lv]. apply tree_le in Ta as La. apply shows_simple with (b := false) (rows := [part row s m; part row m e]); [exact Hn|repeat constructor; auto|]. cbn [concat]. rewrite app_nil_r. apply part_app; lia.
  - intros row s m k e op a v b Hop Ta IHa Tv IHv Tb IHb. apply scripted_range in Tv as [_ Lv]. apply tree_le in Ta as La. apply tree_le in Tb as Lb.
    apply op_rule in Hop as (r&Hr&E). destruct r; inv E; apply (fit_rules F) in Hr as [Hc Hn]; cbn [op_token op_name] in *;
      (apply shows_simple with (b := false) (rows := [part row s m; part row m k; part row k e]); [exact Hn|repeat constructor; auto|]; cbn [concat]; rewrite app_nil_r, <- !part_app by lia; reflexivity).
  - intros row s m e op a v Hop Ta IHa Tv IHv. apply wrapped_range in Tv as [_ Lv]. apply tree_le in Ta as La. apply op_rule in Hop as (r&Hr&E). destruct r; inv E. pose proof (fit_rules F Hr) as Hf. cbn [op_token op_name] in *.
    assert (K : not_container t -> get_renderer rs name = Some (RenderSimple false) -> shows (mkSyntax name (Children [a; v]) s e) (part row s e)).
    { intros Hc Hn. apply shows_simple with (b := false) (rows := [part row s m; part row m e]); [exact Hn|repeat constructor; auto; now apply open_op with (t := t)|]. cbn [concat]. rewrite app_nil_r. apply part_app; lia. }
    destruct t; try (now apply K). destruct Hf as [_ [Hf|Hf]]; (eapply open_script; [eapply Scripts; eauto|exact Hf| |exact IHa|exact IHv]; lia).
  - intros row s e name t n Hr _ IH. apply atoms_in in Hr. eapply open_atom; eauto.
  - intros row s e t ty symbols l Hl _ _ _ Hr Hlen Hc. cbn [content_shows]. exists l. split; [exact Hl|]. rewrite Hc. now apply part_reads.
  - intros row s v cells w nodes En _ _ _ IH. cbn [content_shows]. eauto 8.
  - intros row s m a b c Ea Tc IH Eb. split; [exact I|]. apply tree_le in Tc as Lc. exists [part row s (S s); part row (S s) m; part row m (S m)]. split; [repeat constructor; auto|]. cbn [concat]. rewrite app_nil_r, <- !part_app by lia. reflexivity.
  - intros row s a b Ea Eb. split; [exact I|]. exists [part row s (S s); part row (S s) (S (S s))]. split; [repeat constructor; auto|]. cbn [concat]. rewrite app_nil_r. apply part_app; lia.
  - intros row s a b e name t c before after Sb Tt IH Sa _. exists a, b, c, before, after. apply shape_range in Tt. repeat split; auto. lia.
  - intros row s e t n _ IH Ht. eapply open_op; eauto.
  - intros row s m e t n v name op Hv Tn IHn _ IHo Ht. apply scripted_range in Tn as [_ Ln]. destruct Hv as [[-> ->]|[-> ->]].
    + eapply open_script; [left; auto|apply (fit_sub F)| |apply IHn, Ht|exact IHo]. lia.
    + eapply open_script; [right; auto|apply (fit_sup F)| |apply IHn, Ht|exact IHo]. lia.
  - constructor.
  - intros cell cells n nodes _ IHn _ IHc. cbn [map]. constructor; [|exact IHc]. now rewrite <- part_all.
Qed.
End Sight.

(** ** The default grammar *)
Section Default.
Variable xs xc : N -> bool.
Hypothesis X1 : xs 160%N = false.
Hypothesis X2 : xs 11034%N = false.
Definition atom_b (r : ParseRule) : bool :=
  match r with
  | RAtom name t =>
      match get_renderer default_renderers name with
      | Some (RenderText Tmi) => match t with TVariable => true | TSymbols l _ => negb (str_eqb (concat l) [160%N; 160%N] || str_eqb (concat l) [11034%N]) | _ => false end
      | Some (RenderText (Tmn | Tmtext | Tmspace | Tmerror | Tmo)) => true
      | Some (RenderText _) => false
      | _ => true
      end
  | RPostfix name _ (TContainer v) =>
      match get_renderer default_renderers name with
      | Some (RenderScript tag) => match v, tag with Sub, Tmsub | Sup, Tmsup => true | _, _ => false end
      | _ => true
      end
  | _ => true
  end.
Lemma default_atoms : forallb atom_b (g_rules (default_grammar xs xc)) = true.
Proof. vm_compute. reflexivity. Qed.
Lemma default_atom name t tag symbols l : In (RAtom name t) (g_rules (default_grammar xs xc)) -> get_renderer default_renderers name = Some (RenderText tag) ->
  leaf_of (default_grammar xs xc) t symbols l -> no_filler tag symbols.
Proof.
  intros Hr Hn Hl. pose proof default_atoms as A. rewrite forallb_forall in A. apply A in Hr. clear A. unfold atom_b in Hr. rewrite Hn in Hr. clear Hn. destruct tag; try discriminate Hr; try exact I. cbn [no_filler].
  destruct t as [l' ty| | | | | |]; try discriminate Hr; cbn [leaf_of] in Hl.
  - destruct Hl as [-> ->]. apply negb_true_iff, orb_false_iff in Hr as [H1 H2]. split; intros E; inv E; rewrite H0 in *; discriminate.
  - destruct Hl as (_&Hl&_). split; intros ->; cbn in Hl; rewrite ?X1, ?X2 in Hl; discriminate.
Qed.
Lemma default_script name p v tag : In (RPostfix name p (TContainer v)) (g_rules (default_grammar xs xc)) -> get_renderer default_renderers name = Some (RenderScript tag) ->
  (v = Sub /\ tag = Tmsub) \/ (v = Sup /\ tag = Tmsup).
Proof. intros Hr Hn. pose proof default_atoms as A. rewrite forallb_forall in A. apply A in Hr. clear A. unfold atom_b in Hr. rewrite Hn in Hr. clear Hn. destruct v, tag; try discriminate Hr; auto. Qed.
Theorem default_sight doc n x : parse (default_grammar xs xc) doc = Ok n -> render_all default_renderers n = Ok x -> sight x = flat_map outline doc.
Proof.
  intros En Hx. apply parse_shape in En; [|apply default_no_empty_tokens]. destruct (tree_shows (default_fits xs xc) default_atom default_script) as (T&_). specialize (T _ _ _ _ En). rewrite part_all in T. exact (T _ _ _ Hx).
Qed.
End Default.

(** ** Documents that are as they look *)
Lemma in_row_parts x row n : In n row -> In x (node_parts n) -> In x (row_parts row).
Proof. intros Hn Hx. unfold row_parts. apply in_concat. exists (node_parts n). split; [now apply in_map|exact Hx]. Qed.
Lemma outline_usual n : (forall x, In x (node_parts n) -> usual x) -> outline n = [n].
Proof.
  induction n as [s|v cells w IH] using node_ind'; intros H.
  - specialize (H _ (or_introl eq_refl)). cbn in H. destruct s as [|c [|]]; try discriminate. reflexivity.
  - cbn [outline node_parts] in *. pose proof (H _ (or_introl eq_refl)) as Hc. do 2 f_equal. f_equal; [|destruct v; cbn in Hc; congruence].
    rewrite <- (map_id cells) at 2. apply map_ext_in. intros cell Hcell. specialize (IH _ Hcell).
    assert (Hp : forall n, In n cell -> outline n = [n]).
    { intros n Hn. apply IH; [exact Hn|]. intros x Hx. apply H. right. apply in_concat. exists (row_parts cell). split; [exact (in_map row_parts cells cell Hcell)|eapply in_row_parts; eauto]. }
    clear - Hp. induction cell as [|n cell IHc]; [reflexivity|]. cbn [flat_map]. rewrite (Hp n (or_introl eq_refl)), IHc; [reflexivity|]. intros m Hm. apply Hp. now right.
Qed.
Lemma usual_outline doc : (forall x, In x (row_parts doc) -> usual x) -> flat_map outline doc = doc.
Proof.
  intros H. assert (Hp : forall n, In n doc -> outline n = [n]) by (intros n Hn; apply outline_usual; intros x Hx; apply H; eapply in_row_parts; eauto).
  clear H. induction doc as [|n doc IH]; [reflexivity|]. cbn [flat_map]. rewrite (Hp n (or_introl eq_refl)), IH; [reflexivity|]. intros m Hm. apply Hp. now right.
Qed.
