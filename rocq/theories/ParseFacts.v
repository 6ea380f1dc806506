(** The parser: no panics, and the syntax tree covers the input. *)
From Coq Require Import String.
From Verif Require Import Base Str Grid Node Focus Spec NameMap Syntax Pratt SyntaxFind SpecSyntax BaseFacts TreeFacts.
Open Scope list_scope.
Open Scope nat_scope.
Set Implicit Arguments.
Unset Strict Implicit.

(** ** Tiling *)
Scheme covers_mut := Induction for covers Sort Prop
  with tiles_mut := Induction for tiles Sort Prop
  with cells_mut := Induction for covers_cells Sort Prop.
Combined Scheme covers_mutind from covers_mut, tiles_mut, cells_mut.

Lemma covers_range row s e n : covers row s e n -> syn_range n = (s, e).
Proof. intros H. inv H; reflexivity. Qed.
Lemma covers_le_all :
  (forall row s e n, covers row s e n -> s <= e) /\ (forall row s e l, tiles row s e l -> s <= e) /\ (forall cells nodes, covers_cells cells nodes -> True).
Proof. apply covers_mutind; intros; auto; lia. Qed.
Lemma covers_le row s e n : covers row s e n -> s <= e.
Proof. apply covers_le_all. Qed.
Lemma tiles_le row s e l : tiles row s e l -> s <= e.
Proof. apply covers_le_all. Qed.

(** The same for any relation between the cells of a container and their trees. *)
Inductive gtree (P : InputRow -> SyntaxNode -> Prop) : InputRow -> nat -> nat -> SyntaxNode -> Prop :=
| g_children row s e name l : gtiles P row s e l -> gtree P row s e (mkSyntax name (Children l) s e)
| g_leaf row s name ty symbols l tail : skipn s row = map Symbol l ++ tail -> l <> [] -> concat symbols = concat l ->
    gtree P row s (s + length l) (mkSyntax name (Leaf ty symbols) s (s + length l))
| g_rows row s name v cells w nodes : nth_error row s = Some (Container v (mkGrid cells w)) -> Forall2 P cells nodes ->
    gtree P row s (S s) (mkSyntax name (NewRows (mkGrid nodes w)) s (S s))
with gtiles (P : InputRow -> SyntaxNode -> Prop) : InputRow -> nat -> nat -> list SyntaxNode -> Prop :=
| g_nil row s : gtiles P row s s []
| g_cons row s m e n l : gtree P row s m n -> gtiles P row m e l -> gtiles P row s e (n :: l).
Scheme gtree_mut := Induction for gtree Sort Prop with gtiles_mut := Induction for gtiles Sort Prop.
Combined Scheme gtree_mutind from gtree_mut, gtiles_mut.
Lemma gtree_range P row s e n : gtree P row s e n -> syn_range n = (s, e).
Proof. intros H. inv H; reflexivity. Qed.
Lemma gtree_le_all P : (forall row s e n, gtree P row s e n -> s <= e) /\ (forall row s e l, gtiles P row s e l -> s <= e).
Proof. apply gtree_mutind; intros; auto; lia. Qed.
Lemma gtree_le P row s e n : gtree P row s e n -> s <= e.
Proof. apply gtree_le_all. Qed.
Lemma gtiles_le P row s e l : gtiles P row s e l -> s <= e.
Proof. apply gtree_le_all. Qed.
Lemma gtree_covers (P : InputRow -> SyntaxNode -> Prop) row0 : (forall k v cells w, nth_error row0 k = Some (Container v (mkGrid cells w)) -> forall cell n, In cell cells -> P cell n -> covers cell 0 (length cell) n) ->
  (forall row s e n, gtree P row s e n -> row = row0 -> covers row s e n) /\ (forall row s e l, gtiles P row s e l -> row = row0 -> tiles row s e l).
Proof.
  intros H. apply gtree_mutind.
  - intros. constructor. auto.
  - intros. econstructor; eauto.
  - intros row s name v cells w nodes En F ->. econstructor; [exact En|]. specialize (H s v cells w En).
    clear En. induction F as [|c n cells nodes Hc F IH]; constructor.
    + apply H; [now left|exact Hc].
    + apply IH. intros. apply H; [now right|assumption].
  - intros. constructor.
  - intros. econstructor; eauto.
Qed.
Lemma tiles_nil_inv P row s e : gtiles P row s e [] -> e = s.
Proof. intros H. now inv H. Qed.
Lemma tiles_cons_inv P row s e n l : gtiles P row s e (n :: l) -> exists m, gtree P row s m n /\ gtiles P row m e l.
Proof. intros H. inv H. eauto. Qed.
Lemma ranges_end_tiles P row s e l : gtiles P row s e l -> ranges_end s l = Ok e.
Proof.
  revert s. induction l as [|n l IH]; intros s H; [now apply tiles_nil_inv in H as ->|]. apply tiles_cons_inv in H as (m&Hn&Hl).
  cbn [ranges_end]. rewrite (gtree_range Hn). cbn [fst snd]. rewrite Nat.eqb_refl. cbn. auto.
Qed.
Lemma new_children P row s e name l : gtiles P row s e l ->
  syntax_node_new name (s, e) (Children l) = Ok (mkSyntax name (Children l) s e) /\ gtree P row s e (mkSyntax name (Children l) s e).
Proof.
  intros H. split; [|now constructor]. unfold syntax_node_new, get_combined_range. destruct l as [|n l]; [reflexivity|].
  apply tiles_cons_inv in H as (m&Hn&Hl). rewrite (gtree_range Hn). cbn [fst snd]. rewrite (ranges_end_tiles Hl). cbn [bind fst snd].
  rewrite !Nat.leb_refl. reflexivity.
Qed.
Lemma tiles_1 P row s e n : gtree P row s e n -> gtiles P row s e [n].
Proof. intros H. econstructor; [exact H|constructor]. Qed.
Lemma tiles_2 P row s m e a b : gtree P row s m a -> gtree P row m e b -> gtiles P row s e [a; b].
Proof. intros H H'. econstructor; [exact H|now apply tiles_1]. Qed.
Lemma tiles_3 P row s m k e a b c : gtree P row s m a -> gtree P row m k b -> gtree P row k e c -> gtiles P row s e [a; b; c].
Proof. intros H H' H''. econstructor; [exact H|eapply tiles_2; eauto]. Qed.
Lemma combine_ranges_adjacent s m e : s <= m -> m <= e -> combine_ranges (s, m) (m, e) = (s, e).
Proof. intros. unfold combine_ranges. cbn. f_equal; lia. Qed.

(** ** Reading symbols *)
Definition inp (row : InputRow) (pos : nat) : Input := (pos, skipn pos row).
Definition reads (row : InputRow) (pos : nat) (l : list str) : Prop := exists tail, skipn pos row = map Symbol l ++ tail.
Lemma skipn_cons_S (row : InputRow) pos n r : skipn pos row = n :: r -> skipn (S pos) row = r /\ pos < length row /\ nth_error row pos = Some n.
Proof.
  revert row. induction pos as [|pos IH]; intros [|m row] H; try discriminate.
  - cbn in H. inv H. cbn. repeat split; lia.
  - cbn [skipn] in H. apply IH in H as (?&?&?). cbn. repeat split; auto. lia.
Qed.
Lemma skipn_app_len (row : InputRow) pos a b : skipn pos row = a ++ b -> skipn (pos + length a) row = b.
Proof.
  revert pos. induction a as [|n a IH]; intros pos H.
  - now rewrite Nat.add_0_r.
  - cbn in H. apply skipn_cons_S in H as [H _]. apply IH in H. cbn [length]. now rewrite Nat.add_succ_r.
Qed.
Lemma skipn_lt (row : InputRow) pos : pos < length row -> exists n, skipn pos row = n :: skipn (S pos) row.
Proof.
  intros H. destruct (skipn pos row) as [|n r] eqn:E.
  - assert (length (skipn pos row) = 0) by now rewrite E. rewrite skipn_length in H0. lia.
  - destruct (skipn_cons_S E) as (->&_). eauto.
Qed.
Lemma at_end_inp row pos : pos <= length row -> at_end (inp row pos) = true <-> pos = length row.
Proof.
  intros H. unfold at_end, inp. cbn [snd]. split.
  - intros E. destruct (skipn pos row) eqn:E'; [|discriminate]. assert (L : length (skipn pos row) = 0) by now rewrite E'.
    rewrite skipn_length in L. lia.
  - intros ->. now rewrite skipn_all.
Qed.
Lemma reads_nil row pos : reads row pos [].
Proof. now exists (skipn pos row). Qed.
Lemma reads_app row pos a b : reads row pos a -> reads row (pos + length a) b -> reads row pos (a ++ b).
Proof.
  intros [t H] [u H']. exists u. rewrite H, map_app, <- app_assoc. f_equal.
  rewrite <- (map_length (@Symbol) a) in H'. rewrite (skipn_app_len H) in H'. now rewrite H'.
Qed.
Lemma reads_le row pos l : pos <= length row -> reads row pos l -> pos + length l <= length row.
Proof.
  intros Hp [t H]. apply f_equal with (f := @length _) in H. rewrite app_length, map_length, skipn_length in H. lia.
Qed.
Lemma reads_one row pos s : nth_error row pos = Some (Symbol s) -> reads row pos [s].
Proof.
  intros H. destruct (skipn_lt (nth_error_Some_lt H)) as [n E]. destruct (skipn_cons_S E) as (_&_&E'). rewrite E' in H. inv H.
  now exists (skipn (S pos) row).
Qed.
Lemma new_leaf {P} row pos name ty symbols l : reads row pos l -> l <> [] -> concat symbols = concat l ->
  syntax_node_new name (pos, pos + length l) (Leaf ty symbols) = Ok (mkSyntax name (Leaf ty symbols) pos (pos + length l)) /\
  gtree P row pos (pos + length l) (mkSyntax name (Leaf ty symbols) pos (pos + length l)).
Proof. intros [t H] Hl Hc. split; [reflexivity|]. econstructor; eauto. Qed.

Lemma just_symbol_inp row pos s t i : just_symbol s (inp row pos) = Some (t, i) ->
  t = s /\ i = inp row (S pos) /\ reads row pos [s].
Proof.
  unfold just_symbol, inp. cbn [fst snd]. destruct (skipn pos row) as [|[v c|u] r] eqn:E; try discriminate.
  destruct (str_eqb u s) eqn:Eu; [|discriminate]. apply str_eqb_eq in Eu. subst. intros H. inv H.
  destruct (skipn_cons_S E) as (->&_). repeat split. now exists r.
Qed.
Lemma just_symbols_inp row pos l t i : just_symbols l (inp row pos) = Some (t, i) ->
  t = concat l /\ i = inp row (pos + length l) /\ reads row pos l.
Proof.
  revert pos t i. induction l as [|s l IH]; intros pos t i H.
  - inv H. rewrite Nat.add_0_r. repeat split. apply reads_nil.
  - cbn [just_symbols] in H. destruct (just_symbol s (inp row pos)) as [[s' i']|] eqn:E; [|discriminate].
    apply just_symbol_inp in E as (->&->&R). destruct (just_symbols l (inp row (S pos))) as [[t' i'']|] eqn:E; [|discriminate].
    apply IH in E as (->&->&R'). inv H. repeat split.
    + cbn [length]. now rewrite Nat.add_succ_r.
    + apply (reads_app R). cbn [length]. now rewrite Nat.add_1_r.
Qed.
Lemma take_symbols_inp row p rest : forall pos l i, skipn pos row = rest -> take_symbols p pos rest = (l, i) ->
  i = inp row (pos + length l) /\ reads row pos l.
Proof.
  induction rest as [|[v c|s] r IH]; intros pos l i Hr H; cbn [take_symbols] in H.
  - inv H. rewrite Nat.add_0_r. unfold inp. rewrite Hr. split; [reflexivity|apply reads_nil].
  - inv H. rewrite Nat.add_0_r. unfold inp. rewrite Hr. split; [reflexivity|apply reads_nil].
  - destruct (p s).
    + destruct (take_symbols p (S pos) r) as [t i'] eqn:E. inv H. destruct (skipn_cons_S Hr) as (Hr'&_).
      destruct (IH _ _ _ Hr' E) as (->&R). cbn [length]. rewrite Nat.add_succ_r. split; [reflexivity|].
      apply (reads_app (a := [s])); [now exists r|]. cbn [length]. now rewrite Nat.add_1_r.
    + inv H. rewrite Nat.add_0_r. unfold inp. rewrite Hr. split; [reflexivity|apply reads_nil].
Qed.
Lemma repeat_symbols_inp row p pos l i : repeat_symbols p (inp row pos) = (l, i) -> i = inp row (pos + length l) /\ reads row pos l.
Proof. apply take_symbols_inp. reflexivity. Qed.
Lemma take_string_inp row k : forall rest pos l i, length rest <= k -> skipn pos row = rest -> take_string pos rest = (l, i) ->
  i = inp row (pos + length l) /\ reads row pos l.
Proof.
  assert (D : forall rest pos l i, skipn pos row = rest -> ([], (pos, rest)) = (l, i) -> i = inp row (pos + length l) /\ reads row pos l).
  { intros rest pos l i Hr H. inv H. rewrite Nat.add_0_r. split; [reflexivity|apply reads_nil]. }
  induction k as [|k IH]; intros rest pos l i Hk Hr H.
  - destruct rest; [|cbn in Hk; lia]. cbn in H. eapply D; eauto.
  - destruct rest as [|[v c|s] r]; cbn [take_string] in H; try (eapply D; eauto; fail).
    cbn [length] in Hk. destruct (skipn_cons_S Hr) as (Hr'&_).
    destruct (str_eqb s (lit "\")).
    + destruct r as [|[v c|t] r']; try (eapply D; eauto; fail).
      destruct (take_string (S (S pos)) r') as [u i'] eqn:E. injection H as <- <-. destruct (skipn_cons_S Hr') as (Hr''&_).
      cbn [length] in Hk. destruct (IH r' (S (S pos)) u i') as (->&R); auto; [lia|]. cbn [length]. rewrite !Nat.add_succ_r. split; [reflexivity|].
      apply (reads_app (a := [s; t])); [eexists; rewrite Hr; reflexivity|].
      cbn [length]. now replace (pos + 2) with (S (S pos)) by lia.
    + destruct (str_eqb s (lit """")); [eapply D; eauto|].
      destruct (take_string (S pos) r) as [u i'] eqn:E. injection H as <- <-. destruct (IH r (S pos) u i') as (->&R); auto; [lia|].
      cbn [length]. rewrite Nat.add_succ_r. split; [reflexivity|].
      apply (reads_app (a := [s])); [eexists; rewrite Hr; reflexivity|]. cbn [length]. now rewrite Nat.add_1_r.
Qed.

(** A parser of a leaf. *)
Definition leaf_ok (row : InputRow) (pos : nat) (o : option (list str * Input)) : Prop :=
  forall symbols i, o = Some (symbols, i) -> exists l, l <> [] /\ reads row pos l /\ concat symbols = concat l /\ i = inp row (pos + length l).
Lemma parse_number_ok row pos : leaf_ok row pos (parse_number (inp row pos)).
Proof.
  intros symbols i H. unfold parse_number in H. destruct (repeat_symbols is_digits (inp row pos)) as [a i1] eqn:E.
  apply repeat_symbols_inp in E as (->&R). destruct a as [|a0 a]; [discriminate|].
  assert (D : Some (a0 :: a, inp row (pos + length (a0 :: a))) = Some (symbols, i) ->
    exists l, l <> [] /\ reads row pos l /\ concat symbols = concat l /\ i = inp row (pos + length l)).
  { intros X. inv X. exists (a0 :: a). repeat split; auto. discriminate. }
  destruct (just_symbol (lit ".") (inp row (pos + length (a0 :: a)))) as [[c i2]|] eqn:Ec; [|auto].
  apply just_symbol_inp in Ec as (->&->&Rc).
  destruct (repeat_symbols is_digits _) as [d i3] eqn:Ed. apply repeat_symbols_inp in Ed as (->&Rd).
  destruct d as [|d0 d]; [auto|]. injection H as <- <-. exists ((a0 :: a) ++ lit "." :: d0 :: d). repeat split.
  - discriminate.
  - apply (reads_app R). apply (reads_app Rc). cbn [length]. now rewrite Nat.add_1_r.
  - f_equal. rewrite app_length. cbn [length]. lia.
Qed.
Lemma parse_variable_ok g row pos : leaf_ok row pos (parse_variable g (inp row pos)).
Proof.
  intros symbols i H. unfold parse_variable, select_symbol, inp in H. cbn [fst snd] in H.
  destruct (skipn pos row) as [|[v c|s] r] eqn:E; try discriminate. destruct (is_identifier_start g s); [|discriminate].
  destruct (skipn_cons_S E) as (E'&_). rewrite <- E' in H. fold (inp row (S pos)) in H.
  destruct (repeat_symbols _ (inp row (S pos))) as [l i'] eqn:El. apply repeat_symbols_inp in El as (->&R). inv H.
  exists (s :: l). repeat split.
  - discriminate.
  - apply (reads_app (a := [s])); [exists (skipn (S pos) row); now rewrite E|]. cbn [length]. now rewrite Nat.add_1_r.
  - f_equal. cbn [length]. lia.
Qed.
Lemma parse_string_ok row pos : leaf_ok row pos (parse_string (inp row pos)).
Proof.
  intros symbols i H. unfold parse_string in H. destruct (just_symbol _ (inp row pos)) as [[a i1]|] eqn:Ea; [|discriminate].
  apply just_symbol_inp in Ea as (->&->&Ra). destruct (take_string _ _) as [b i2] eqn:Eb.
  apply take_string_inp with (row := row) (k := length (skipn (S pos) row)) in Eb as (->&Rb); auto.
  destruct (just_symbol _ (inp row _)) as [[c i3]|] eqn:Ec; [|discriminate]. apply just_symbol_inp in Ec as (->&->&Rc).
  injection H as <- <-. eexists (_ :: b ++ [_]). repeat split.
  - discriminate.
  - apply (reads_app Ra). cbn [length]. rewrite Nat.add_1_r. apply (reads_app Rb). exact Rc.
  - f_equal. cbn [length]. rewrite app_length. cbn [length]. lia.
Qed.
Lemma just_symbols_ok row pos l : l <> [] -> leaf_ok row pos (option_map (fun '(s, i) => ([s], i)) (just_symbols l (inp row pos))).
Proof.
  intros Hl symbols i H. destruct (just_symbols l (inp row pos)) as [[s i']|] eqn:E; [|discriminate]. inv H.
  apply just_symbols_inp in E as (->&->&R). exists l. repeat split; auto. cbn. now rewrite app_nil_r.
Qed.

(** ** Spaces *)
Lemma parse_spaces_ok {P} row pos : pos <= length row ->
  exists o pos', parse_spaces (inp row pos) = Ok (o, inp row pos') /\ pos <= pos' <= length row /\
    match o with Some n => gtree P row pos pos' n | None => pos' = pos end.
Proof.
  intros Hp. unfold parse_spaces. destruct (repeat_symbols _ (inp row pos)) as [l i] eqn:E. apply repeat_symbols_inp in E as (->&R).
  pose proof (reads_le Hp R) as Hle. destruct l as [|s l].
  - exists None, (pos + 0). cbn in *. repeat split; lia.
  - destruct (new_leaf (P := P) whitespace_rule_name LOperator (symbols := s :: l) R) as [E C]; [discriminate|reflexivity|].
    unfold span, inp at 1 2. cbn [fst]. rewrite E. cbn [bind]. do 2 eexists. split; [reflexivity|]. split; [lia|exact C].
Qed.
Lemma whitespaces_ok {P} row s m k e before node after :
  match before with Some b => gtree P row s m b | None => m = s end ->
  gtree P row m k node ->
  match after with Some a => gtree P row k e a | None => e = k end ->
  exists n, whitespaces_node before node after (s, e) = Ok n /\ gtree P row s e n.
Proof.
  intros Hb Hn Ha. unfold whitespaces_node. destruct before as [b|], after as [a|]; subst.
  - eexists. apply new_children. eapply tiles_3; eauto.
  - eexists. apply new_children. eapply tiles_2; eauto.
  - eexists. apply new_children. eapply tiles_2; eauto.
  - eauto.
Qed.

(** ** Sizes *)
Lemma node_size_pos n : 0 < node_size n.
Proof. destruct n as [v [cells w]|s]; cbn; lia. Qed.
Lemma size_skipn row pos pos' : pos < pos' <= length row -> row_size (skipn pos' row) < row_size (skipn pos row).
Proof.
  intros H. remember (pos' - S pos) as k. assert (pos' = S pos + k) as -> by lia. clear Heqk. induction k as [|k IH].
  - rewrite Nat.add_0_r in *. destruct (skipn_lt (row := row) (pos := pos)) as [n ->]; [lia|].
    unfold row_size. cbn [map list_sum fold_right]. pose proof (node_size_pos n). unfold list_sum. lia.
  - assert (L : S pos + k < length row) by lia. specialize (IH ltac:(lia)). destruct (skipn_lt L) as [n E].
    rewrite E in IH. unfold row_size in *. cbn [map list_sum fold_right] in IH. rewrite Nat.add_succ_r. pose proof (node_size_pos n). unfold list_sum in *. cbn [Nat.add] in *. lia.
Qed.
Lemma list_sum_in l x : In x l -> x <= list_sum l.
Proof. induction l as [|y l IH]; [easy|]. unfold list_sum in *. cbn [fold_right]. intros [->|H]; [lia|]. apply IH in H. lia. Qed.
Lemma size_cell row pos v g cell : nth_error row pos = Some (Container v g) -> In cell (gvalues g) -> row_size cell < row_size (skipn pos row).
Proof.
  intros H Hc. destruct (skipn_lt (nth_error_Some_lt H)) as [n E]. destruct (skipn_cons_S E) as (_&_&E'). rewrite E' in H. inv H. rewrite E.
  destruct g as [cells w]. unfold row_size. cbn [map list_sum fold_right node_size gvalues] in *.
  assert (In (S (row_size cell)) (map (fun cell => S (list_sum (map node_size cell))) cells)) as Hin by (apply in_map_iff; exists cell; auto).
  apply list_sum_in in Hin. unfold row_size, list_sum in *. lia.
Qed.
