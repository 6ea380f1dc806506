(** Holding Backspace or Delete until nothing is left. *)
From Verif Require Import Base Str Grid Node Focus Edit Caret Autocomplete Editor Spec SpecAuto SpecEditor SpecMove SpecSafety SpecSelect SpecRemove BaseFacts
  TreeFacts OrderFacts EditFacts TreeProofs MoveFacts MoveProofs SpecTrack TrackFacts AutoFacts PopupFacts EditorFacts HistoryFacts
  OpFacts SpliceFacts TypingFacts SafetyFacts SafetyProofs RemoveFacts.
Set Implicit Arguments.
Unset Strict Implicit.

(** ** The number of positions behind the first one *)
Definition wide (row : list InputNode) : nat := length (nodes_positions 0 row).
Lemma nodes_positions_shift row : forall k k', length (nodes_positions k row) = length (nodes_positions k' row).
Proof.
  induction row as [|n row IH]; intros k k'; [reflexivity|]. cbn [nodes_positions]. rewrite !app_length. cbn [length]. rewrite (IH (S k) (S k')).
  f_equal. destruct n as [v [cells w]|s]; [|reflexivity]. rewrite !node_positions_container. generalize 0 at 1 2. induction cells as [|c cells IHc]; intros j; [reflexivity|].
  cbn [cells_positions]. rewrite !app_length, !map_length. now rewrite IHc.
Qed.
Lemma wide_app l r : wide (l ++ r) = wide l + wide r.
Proof. unfold wide. rewrite nodes_positions_app, app_length. f_equal. apply nodes_positions_shift. Qed.
Definition cells_wide (cells : list (list InputNode)) : nat := list_sum (map (fun c => S (wide c)) cells).
Lemma cells_wide_app a b : cells_wide (a ++ b) = cells_wide a + cells_wide b.
Proof. unfold cells_wide. now rewrite map_app, list_sum_app. Qed.
Lemma cells_wide_cons c b : cells_wide (c :: b) = S (wide c) + cells_wide b.
Proof. reflexivity. Qed.
Lemma wide_container v cells w : wide [Container v (mkGrid cells w)] = S (cells_wide cells).
Proof.
  unfold wide. cbn [nodes_positions]. rewrite node_positions_container, app_length. cbn [length]. rewrite Nat.add_1_r. f_equal.
  generalize 0 at 2. induction cells as [|c cells IHc]; intros j; [reflexivity|].
  cbn [cells_positions]. rewrite !app_length, map_length, IHc, cells_wide_cons. reflexivity.
Qed.
Lemma wide_symbol s : wide [Symbol s] = 1.
Proof. reflexivity. Qed.
Lemma wide_positions doc : S (wide doc) = length (positions doc).
Proof. reflexivity. Qed.

(** ** A row with nothing behind it ([HLeft]) or in front of it ([HRight]) *)
Definition blank_cells (cells : list (list InputNode)) : Prop := forall c, In c cells -> c = [].
Inductive last_row : HorizontalDirection -> RowIndices -> list InputNode -> list InputNode -> nat -> Prop :=
| last_here d row : last_row d [] row row 0
| last_below p row l v before cell after w b : last_row HLeft p row cell b -> blank_cells after ->
    last_row HLeft ((length l, length before) :: p) row (l ++ [Container v (mkGrid (before ++ cell :: after) w)]) (wide l + 1 + cells_wide before + b)
| first_below p row r v before cell after w b : last_row HRight p row cell b -> blank_cells before ->
    last_row HRight ((0, length before) :: p) row (Container v (mkGrid (before ++ cell :: after) w) :: r) (wide r + 1 + cells_wide after + b).

Lemma last_row_replaced d p row doc b row' : last_row d p row doc b -> exists doc', replaced p row row' doc doc' /\ last_row d p row' doc' b.
Proof.
  induction 1 as [d row|p row l v before cell after w b H (doc'&R&L) Hb|p row r v before cell after w b H (doc'&R&L) Hb].
  - exists row'. split; constructor.
  - exists (l ++ [Container v (mkGrid (before ++ doc' :: after) w)]). split; [now constructor|now constructor].
  - exists (Container v (mkGrid (before ++ doc' :: after) w) :: r). split; [|now constructor].
    exact (@replaced_below p row row' [] v before cell doc' after w r R).
Qed.
Lemma last_row_get d p row doc b : last_row d p row doc b -> row_get doc p = Some row.
Proof. intros H. destruct (last_row_replaced row H) as (doc'&R&_). exact (replaced_get_old R). Qed.
Lemma last_row_in d p row doc b i j cell cell' b' :
  last_row d p row doc b -> last_row d [(i, j)] cell' row b' -> cell' = cell -> last_row d (p ++ [(i, j)]) cell doc (b + b').
Proof.
  intros H H' E. subst cell'. revert H'. induction H as [d row|p row l v before cell0 after w b H IH Hb|p row r v before cell0 after w b H IH Hb]; intros H'.
  - exact H'.
  - cbn [app]. rewrite <- (Nat.add_assoc _ b b'). constructor; auto.
  - cbn [app]. rewrite <- (Nat.add_assoc _ b b'). constructor; auto.
Qed.
Lemma last_row_snoc d p i j cell doc b : last_row d (p ++ [(i, j)]) cell doc b ->
  exists row b0 b1, last_row d p row doc b0 /\ last_row d [(i, j)] cell row b1 /\ b = b0 + b1.
Proof.
  revert doc b. induction p as [|x p IH]; intros doc b H.
  - exists doc, 0, b. split; [constructor|]. split; [exact H|reflexivity].
  - cbn [app] in H. inversion H as [|p' row' l v before cell' after w b' H' Hb|p' row' r v before cell' after w b' H' Hb]; subst.
    + destruct (IH _ _ H') as (row&b0&b1&H1&H2&E). exists row. eexists _, b1. split; [constructor; eauto|]. split; [exact H2|]. lia.
    + destruct (IH _ _ H') as (row&b0&b1&H1&H2&E). exists row. eexists _, b1. split; [constructor; eauto|]. split; [exact H2|]. lia.
Qed.
Lemma last_one_left i j cell row b : last_row HLeft [(i, j)] cell row b ->
  exists l v before after w, row = l ++ [Container v (mkGrid (before ++ cell :: after) w)] /\ i = length l /\ j = length before /\ blank_cells after /\
    b = wide l + 1 + cells_wide before.
Proof. intros H. inversion H as [|p' row' l v before cell' after w b' H' Hb|]; subst. inversion H'; subst. exists l, v, before, after, w. repeat split; auto; lia. Qed.
Lemma last_one_right i j cell row b : last_row HRight [(i, j)] cell row b ->
  exists r v before after w, row = Container v (mkGrid (before ++ cell :: after) w) :: r /\ i = 0 /\ j = length before /\ blank_cells before /\
    b = wide r + 1 + cells_wide after.
Proof. intros H. inversion H as [| |p' row' r v before cell' after w b' H' Hb]; subst. inversion H'; subst. exists r, v, before, after, w. repeat split; auto; lia. Qed.
Lemma last_row_nodes d p row doc b l r vs doc' : last_row d p row doc b -> nodes_replaced doc p l r vs doc' -> last_row d p (firstn l row ++ vs ++ skipn r row) doc' b.
Proof.
  intros H (row'&_&_&R). pose proof (last_row_get H) as Hg. rewrite (replaced_get_old R) in Hg. injection Hg as ->.
  destruct (last_row_replaced (firstn l row ++ vs ++ skipn r row) H) as (doc2&R2&L). now rewrite (replaced_unique R R2).
Qed.
Lemma wide_concat cells : wide (concat cells) <= cells_wide cells.
Proof. induction cells as [|c cells IH]; [apply le_n|]. cbn [concat]. rewrite wide_app, cells_wide_cons. lia. Qed.
Lemma blank_concat cells : blank_cells cells -> concat cells = [].
Proof. induction cells as [|c cells IH]; intros H; [reflexivity|]. cbn. rewrite (H c) by now left. apply IH. intros x Hx. apply H. now right. Qed.
Lemma cell_row doc p i j v g c : node_get doc p i = Some (Container v g) -> nth_error (gvalues g) j = Some c -> row_get doc (p ++ [(i, j)]) = Some c.
Proof. unfold node_get. intros H Hj. rewrite row_get_app. destruct (row_get doc p) as [row|]; [|discriminate]. cbn. now rewrite H, Hj. Qed.
Lemma nth_between {A} (l : list A) x r : nth_error (l ++ x :: r) (length l) = Some x.
Proof. rewrite nth_error_app2 by lia. now rewrite Nat.sub_diag. Qed.
Lemma ordinary_script Q doc p i v cells w : proper Q doc -> node_get doc p i = Some (Container v (mkGrid cells w)) -> Q (PartContainer v (length cells) w).
Proof.
  intros [_ H] Hn. apply H. unfold node_get in Hn. destruct (row_get doc p) as [row|] eqn:E; [|discriminate]. eapply row_get_parts; [exact E|].
  apply in_row_parts. eexists. split; [eapply nth_error_In; exact Hn|]. rewrite node_parts_container. now left.
Qed.

Lemma dissolves_left doc p i j o p' i' k v g : dissolves doc HLeft (mkMinPos (p ++ [(i, j)]) o) p' i' k -> node_get doc p i = Some (Container v g) ->
  (v = Sub \/ v = Sup) \/ ((v = Fraction \/ v = RootV) /\ j = 1) \/ j = 0.
Proof.
  intros H Hn. remember HLeft as d eqn:Ed. remember (mkMinPos _ o) as q eqn:Eq.
  destruct H as [p1 i1 v1 g1 Hn1 Hv|p1 i1 j1 v1 g1 Hn1 Hv|p1 i1 v1 g1 c cells Hn1 Hv Hg|p1 i1 v1 g1 c cells Hn1 Hv Hg|p1 i1 v1 g1 Hn1 Ha|p1 i1 v1 g1 Hn1 Ha]; try discriminate Ed;
    injection Eq as E Eo; apply app_inj_tail in E as [-> E]; injection E as -> E; rewrite Hn in Hn1; injection Hn1 as <- <-; auto.
Qed.
Lemma dissolves_right doc p o p' i' k : dissolves doc HRight (mkMinPos p o) p' i' k ->
  (exists v g, node_get doc p o = Some (Container v g) /\ (v = Sub \/ v = Sup)) \/
  exists j v g, p = p' ++ [(i', j)] /\ node_get doc p' i' = Some (Container v g) /\
    (o = 0 -> nth_error (gvalues g) 0 <> None -> nth_error (gvalues g) j = Some []) /\ ((v = Fraction \/ v = RootV) /\ j = 0 \/ j = length (gvalues g) - 1).
Proof.
  intros H. remember HRight as d eqn:Ed. remember (mkMinPos p o) as q eqn:Eq.
  destruct H as [p1 i1 v1 g1 Hn1 Hv|p1 i1 j1 v1 g1 Hn1 Hv|p1 i1 v1 g1 c cells Hn1 Hv Hg|p1 i1 v1 g1 c cells Hn1 Hv Hg|p1 i1 v1 g1 Hn1 Ha|p1 i1 v1 g1 Hn1 Ha]; try discriminate Ed;
    injection Eq as E Eo; subst.
  - left. eauto.
  - right. exists 0, v1, g1. repeat split; auto. intros Ho _. rewrite Hg. cbn. f_equal. now destruct c.
  - right. exists (length (gvalues g1) - 1), v1, g1. repeat split; auto. intros _ H0. destruct (gvalues g1) as [|c cells] eqn:Eg; [elim H0; reflexivity|].
    destruct (nth_error (c :: cells) (length (c :: cells) - 1)) as [x|] eqn:Ex; [|apply nth_error_None in Ex; cbn in Ex; lia]. f_equal. apply Ha. eapply nth_error_In; exact Ex.
Qed.

Section Ed.
Context {SyntaxNode : Type}.
Variable env : Env SyntaxNode.
Hypothesis Hascii : Forall ascii_rule (env_rules env).
Implicit Type ed : MathEditor SyntaxNode.
Let cfg := env_cfg env.

Lemma matcher_ok ed : proper ordinary (ed_input ed) -> valid_caret (ed_input ed) (ed_caret ed) -> exists x, get_autocomplete env ed = Ok x.
Proof.
  intros Hp Hc. set (ed0 := mkEditor (ed_input ed) None (ed_caret ed) None (ed_autocomplete ed) undo_new : MathEditor SyntaxNode).
  assert (S : sound env ordinary ed0) by (split; [exact Hp|exact Hc|constructor|constructor]).
  destruct (autocomplete_ok S (fun s h => h) Hascii) as ([ed1 r]&H). unfold get_autocomplete in *. cbn [ed0 ed_input ed_caret ed_autocomplete] in H.
  apply bind_ok in H as (c&Hc'&H). rewrite Hc'. cbn [bind]. destruct (c_selection c) as [range|g]; [|eauto]. destruct (rg_is_collapsed range); [|eauto]. cbv zeta in *.
  apply bind_ok in H as (ms&Hms&H). rewrite Hms. cbn [bind]. apply bind_ok in H as ([cur res]&Hst&H). rewrite Hst. cbn. eauto.
Qed.

Record holding (d : HorizontalDirection) ed (p : RowIndices) (row : list InputNode) (b : nat) : Prop := mkHolding {
  ho_row : last_row d p row (ed_input ed) b;
  ho_caret : ed_caret ed = collapsed (mkMinPos p (match d with HLeft => length row | HRight => 0 end));
  ho_doc : proper ordinary (ed_input ed) }.
Definition smaller d mode ed (row : list InputNode) (b : nat) : Prop := exists ed' p' row' b',
  step env ed (OpRemoveAtCaret mode) = Ok (ed', OutNone _) /\ holding d ed' p' row' b' /\ b' + wide row' < b + wide row.

Lemma holding_pos d ed p row b : holding d ed p row b -> valid_pos (ed_input ed) (mkMinPos p (match d with HLeft => length row | HRight => 0 end)).
Proof. intros [H _ _]. exists row. split; [exact (last_row_get H)|]. cbn. destruct d; lia. Qed.
Lemma holding_matcher d ed p row b : holding d ed p row b -> exists x, get_autocomplete env ed = Ok x.
Proof. intros H. apply matcher_ok; [apply H|]. rewrite (ho_caret H). pose proof (holding_pos H). split; exact H0. Qed.
(** A symbol is removed. *)
Lemma hold_symbol d mode ed p row b s row0 : remove_dir mode = Some d -> holding d ed p row b ->
  row = match d with HLeft => row0 ++ [Symbol s] | HRight => Symbol s :: row0 end -> smaller d mode ed row b.
Proof.
  intros Hd H E. pose proof (last_row_get (ho_row H)) as Hg.
  set (i := match d with HLeft => length row0 | HRight => 0 end).
  assert (Hn : node_get (ed_input ed) p i = Some (Symbol s)).
  { unfold node_get. rewrite Hg, E. unfold i. destruct d; [apply nth_between|reflexivity]. }
  destruct (@symbol_remove _ env ed (mkMinPos p (match d with HLeft => length row | HRight => 0 end)) mode d i s) as (ed'&Hs&Hr&Hc); auto.
  { apply (ho_doc H). } { apply (ho_caret H). } { exact (holding_matcher H). }
  { unfold i. cbn [mp_offset]. rewrite E. destruct d; [rewrite app_length; cbn; lia|reflexivity]. }
  cbn [mp_row] in *. pose proof (last_row_nodes (ho_row H) Hr) as L.
  assert (Er : firstn i row ++ [] ++ skipn (S i) row = row0).
  { rewrite E. unfold i. destruct d; [|reflexivity]. rewrite firstn_app, firstn_all, Nat.sub_diag, skipn_all2 by (rewrite app_length; cbn; lia). cbn. now rewrite !app_nil_r. }
  rewrite Er in L. exists ed', p, row0, b. split; [exact Hs|]. split.
  - split; [exact L| |].
    + rewrite Hc. unfold i. destruct d; reflexivity.
    + exact (proper_nodes_replaced Hr (ho_doc H) (proper_nil _)).
  - rewrite E. destruct d; [|change (Symbol s :: row0) with ([Symbol s] ++ row0)]; rewrite wide_app, wide_symbol; lia.
Qed.
(** A container dissolves. *)
Lemma hold_dissolve d mode ed p row b p0 row0 b0 i k v g l r : remove_dir mode = Some d -> holding d ed p row b ->
  dissolves (ed_input ed) d (mkMinPos p (match d with HLeft => length row | HRight => 0 end)) p0 i k ->
  last_row d p0 row0 (ed_input ed) b0 -> row0 = l ++ Container v g :: r -> i = length l ->
  i + k = match d with HLeft => length (l ++ concat (gvalues g) ++ r) | HRight => 0 end -> 
  b0 + wide (l ++ concat (gvalues g) ++ r) < b + wide row -> smaller d mode ed row b.
Proof.
  intros Hd H Hdis L E Ei Ek Hw. destruct (@dissolve_step _ env ed _ mode d p0 i k (proj1 (ho_doc H)) (holding_pos H) (ho_caret H) Hd (holding_matcher H)) as (v'&g'&ed'&Hs&Hn&Hr&Hc); auto.
  { intros ->. intros Hp. destruct (pending_symbol (proj1 (ho_doc H)) (ho_caret H) Hp) as (i'&s'&E'&_). discriminate. }
  pose proof Hn as Hn'. unfold node_get in Hn'. rewrite (last_row_get L), E, Ei, nth_between in Hn'. injection Hn' as <- <-.
  pose proof (last_row_nodes L Hr) as L'.
  assert (Er : firstn i row0 ++ concat (gvalues g) ++ skipn (S i) row0 = l ++ concat (gvalues g) ++ r).
  { rewrite E, Ei, firstn_app, firstn_all, Nat.sub_diag. cbn [firstn]. rewrite app_nil_r, skipn_app, skipn_all2 by lia. replace (S (length l) - length l) with 1 by lia. reflexivity. }
  rewrite Er in L'. exists ed', p0, (l ++ concat (gvalues g) ++ r), b0. split; [exact Hs|]. split; [|exact Hw]. split; [exact L'| |].
  - rewrite Hc, Ek. reflexivity.
  - exact (proper_nodes_replaced Hr (ho_doc H) (proper_content (ho_doc H) Hn)).
Qed.
(** The caret moves into another row. *)
Lemma hold_move d mode ed p row b p' row' b' : remove_dir mode = Some d -> holding d ed p row b ->
  let q := mkMinPos p (match d with HLeft => length row | HRight => 0 end) in
  let q' := mkMinPos p' (match d with HLeft => length row' | HRight => 0 end) in
  ~ symbol_beside (ed_input ed) d q -> (forall p i k, ~ dissolves (ed_input ed) d q p i k) ->
  match d with HLeft => right_step (ed_input ed) q' q | HRight => right_step (ed_input ed) q q' end ->
  ~ (d = HLeft /\ at_cell_zero q) -> last_row d p' row' (ed_input ed) b' -> b' + wide row' < b + wide row -> smaller d mode ed row b.
Proof.
  cbv zeta. intros Hd H Hs Hdis Hst Hz L Hw.
  assert (Hf : follows (h_to_dir d) (ed_input ed) (mkMinPos p (match d with HLeft => length row | HRight => 0 end)) (mkMinPos p' (match d with HLeft => length row' | HRight => 0 end))).
  { destruct d; exact (right_step_next Hst). }
  assert (He : mkMinPos p (match d with HLeft => length row | HRight => 0 end) <> edge (h_to_dir d) (ed_input ed)).
  { intros E. rewrite E in Hf. destruct d; cbn [h_to_dir edge follows] in *.
    - exact (first_not_next (positions_NoDup (ed_input ed)) Hf).
    - destruct (positions_last (ed_input ed)) as (m&Em). pose proof (positions_NoDup (ed_input ed)) as N. rewrite Em in *. exact (last_not_next N Hf). }
  destruct (@otherwise_step _ env ed _ mode d (proj1 (ho_doc H)) (holding_pos H) (ho_caret H) Hd (holding_matcher H)) as (ed'&Ei&_&[(E&_)|(q'&Hf'&Hstep&Hc)]); auto.
  { intros ->. intros Hp. destruct (pending_symbol (proj1 (ho_doc H)) (ho_caret H) Hp) as (i'&s'&E'&_). discriminate. }
  { intros (_&E&Hu). apply Hz. split; [destruct d; [reflexivity|discriminate]|exact Hu]. }
  { elim (He E). }
  assert (Eq : q' = mkMinPos p' (match d with HLeft => length row' | HRight => 0 end)).
  { destruct d; cbn [h_to_dir follows] in *; [exact (next_in_inj (positions_NoDup _) Hf' Hf)|exact (next_in_fun (positions_NoDup _) Hf' Hf)]. }
  exists ed', p', row', b'. split; [exact Hstep|]. split; [|exact Hw]. split; [now rewrite Ei|now rewrite Hc, Eq|rewrite Ei; apply H].
Qed.

Lemma hold_left mode ed p row b : remove_dir mode = Some HLeft -> holding HLeft ed p row b -> ed_input ed = [] \/ smaller HLeft mode ed row b.
Proof.
  intros Hd H. pose proof (last_row_get (ho_row H)) as Hg. destruct (list_snoc row) as [E|(row0&[v [cells w]|s]&E)].
  - destruct (list_snoc p) as [Ep|(p0&[i j]&Ep)].
    { left. subst p row. pose proof (ho_row H) as L. inversion L; subst. reflexivity. }
    right. subst p row. destruct (last_row_snoc (ho_row H)) as (row0&b0&b1&L0&L1&Eb). destruct (last_one_left L1) as (l&v&before&after&w&Er&Ei&Ej&Hb&Eb1).
    assert (Hn : node_get (ed_input ed) p0 i = Some (Container v (mkGrid (before ++ [] :: after) w))).
    { unfold node_get. rewrite (last_row_get L0), Er, Ei. apply nth_between. }
    assert (Hblank : concat (before ++ [] :: after) = concat before).
    { rewrite concat_app. cbn [concat app]. rewrite (blank_concat Hb). apply app_nil_r. }
    assert (Hx : v = Sub \/ v = Sup \/ ~ (v = Sub \/ v = Sup)) by (destruct v; tauto || (right; right; intros [|]; discriminate)).
    destruct (list_snoc before) as [Eb0|(before0&c&Ebf)].
    + subst before. cbn [app length] in *. subst j.
      apply (@hold_dissolve HLeft mode ed (p0 ++ [(i, 0)]) [] b p0 row0 b0 i 0 v (mkGrid ([] :: after) w) l []); auto.
      * eapply empty_from_start; [exact Hn|]. cbn [gvalues]. intros c [<-|Hc]; auto.
      * cbn [gvalues concat app]. rewrite (blank_concat Hb), app_nil_r. lia.
      * cbn [gvalues concat app]. rewrite (blank_concat Hb), app_nil_r. cbn. lia.
    + assert (Hns : ~ (v = Sub \/ v = Sup)).
      { intros Hv. pose proof (ordinary_script (ho_doc H) Hn) as Ho. cbn in Ho. specialize (Ho Hv). rewrite Ebf, !app_length in Ho. cbn in Ho. lia. }
      assert (Hfr : (v = Fraction \/ v = RootV) /\ before0 = [] \/ ~ ((v = Fraction \/ v = RootV) /\ before0 = [])).
      { destruct before0; [|right; intros [_ Hx']; discriminate]. destruct v; try (left; split; auto; fail); right; intros [[Hx'|Hx'] _]; discriminate. }
      destruct Hfr as [[Hv ->]|Hfr].
      * cbn [app] in Ebf. subst before. cbn [app length] in *. subst j.
        apply (@hold_dissolve HLeft mode ed (p0 ++ [(i, 1)]) [] b p0 row0 b0 i (length c) v (mkGrid (c :: [] :: after) w) l []); auto.
        -- eapply second_cell; [exact Hn|exact Hv|reflexivity].
        -- cbn [gvalues concat app]. rewrite (blank_concat Hb), !app_nil_r, app_length. lia.
        -- cbn [gvalues concat app]. rewrite (blank_concat Hb), !app_nil_r, wide_app. rewrite Eb, Eb1. unfold cells_wide. cbn [map list_sum fold_right]. cbn. lia.
      * subst before j. rewrite app_length in *. cbn [length] in *.
        apply (@hold_move HLeft mode ed (p0 ++ [(i, length before0 + 1)]) [] b (p0 ++ [(i, length before0)]) c (b0 + (wide l + 1 + cells_wide before0))); auto.
        -- intros (i'&s&E'&_). discriminate.
        -- intros p' i' k Hdis. destruct (dissolves_left Hdis Hn) as [Hv|[[Hv Hj]|Hj]]; [tauto| |lia]. apply Hfr. split; [exact Hv|]. destruct before0; [reflexivity|cbn in Hj; lia].
        -- pose proof (@rs_cell (ed_input ed) p0 i (length before0) v (mkGrid ((before0 ++ [c]) ++ [] :: after) w) c Hn) as Hstep. cbn [gvalues] in Hstep. apply Hstep.
           ++ rewrite <- app_assoc. apply nth_between.
           ++ rewrite !app_length. cbn. lia.
        -- intros [_ [_ (p'&i'&E')]]. apply app_inj_tail in E' as [_ E']. injection E' as _ E'. lia.
        -- eapply last_row_in; [exact L0| |reflexivity]. rewrite Er, Ei. replace (wide l + 1 + cells_wide before0) with (wide l + 1 + cells_wide before0 + 0) by lia.
           rewrite <- app_assoc. cbn [app]. constructor; [constructor|]. intros c' [<-|Hc']; auto.
        -- rewrite Eb, Eb1, cells_wide_app. unfold cells_wide. cbn [map list_sum fold_right]. change (wide []) with 0. cbn. lia.
  - right. assert (Hc : cells <> []).
    { assert (Hn : node_get (ed_input ed) p (length row0) = Some (Container v (mkGrid cells w))) by (unfold node_get; rewrite Hg, E; apply nth_between).
      unfold node_get in Hn. rewrite Hg in Hn. pose proof (wf_row_nth (row_get_wf (proj1 (ho_doc H)) Hg) Hn) as Hwn. apply wf_container_inv in Hwn. apply Hwn. }
    destruct (list_snoc cells) as [Ec|(before&c&Ec)]; [contradiction|]. subst cells.
    assert (Hn : node_get (ed_input ed) p (length row0) = Some (Container v (mkGrid (before ++ [c]) w))) by (unfold node_get; rewrite Hg, E; apply nth_between).
    apply (@hold_move HLeft mode ed p row b (p ++ [(length row0, length before)]) c (b + (wide row0 + 1 + cells_wide before))); auto.
    + intros (i'&s&E'&Hn'). cbn [mp_offset mp_row] in *. rewrite E, app_length in E'. cbn in E'. assert (i' = length row0) by lia. subst i'. rewrite Hn in Hn'. discriminate.
    + intros p' i' k Hdis. rewrite E, app_length in Hdis. cbn [length] in Hdis. inversion Hdis; subst; lia.
    + rewrite E, app_length. cbn [length]. eapply (@rs_leave (ed_input ed) p (length row0) (length before) v _ c Hn); cbn [gvalues]; [apply nth_between|rewrite app_length; cbn; lia].
    + intros [_ [Hz _]]. cbn in Hz. rewrite E, app_length in Hz. cbn in Hz. lia.
    + eapply last_row_in; [exact (ho_row H)| |reflexivity]. rewrite E. replace (wide row0 + 1 + cells_wide before) with (wide row0 + 1 + cells_wide before + 0) by lia.
      constructor; [constructor|]. intros c' [].
    + rewrite E, wide_app, wide_container, cells_wide_app. unfold cells_wide. cbn [map list_sum fold_right]. cbn. lia.
  - right. exact (hold_symbol Hd H E).
Qed.

Lemma hold_right mode ed p row b : remove_dir mode = Some HRight -> holding HRight ed p row b -> ed_input ed = [] \/ smaller HRight mode ed row b.
Proof.
  intros Hd H. pose proof (last_row_get (ho_row H)) as Hg. destruct row as [|[v [cells w]|s] row0].
  - destruct (list_snoc p) as [Ep|(p0&[i j]&Ep)].
    { left. subst p. pose proof (ho_row H) as L. inversion L; subst. reflexivity. }
    right. subst p. destruct (last_row_snoc (ho_row H)) as (row0&b0&b1&L0&L1&Eb). destruct (last_one_right L1) as (r&v&before&after&w&Er&Ei&Ej&Hb&Eb1).
    assert (Hn : node_get (ed_input ed) p0 i = Some (Container v (mkGrid (before ++ [] :: after) w))).
    { unfold node_get. rewrite (last_row_get L0), Er, Ei. reflexivity. }
    destruct after as [|c after].
    + apply (@hold_dissolve HRight mode ed (p0 ++ [(i, j)]) [] b p0 row0 b0 i 0 v (mkGrid (before ++ [[]]) w) [] r); auto.
      * replace j with (length (gvalues (mkGrid (before ++ [[]]) w)) - 1) by (cbn [gvalues]; rewrite app_length; cbn; lia).
        eapply empty_from_end; [exact Hn|]. cbn [gvalues]. intros c Hc. apply in_app_or in Hc as [Hc|[<-|[]]]; auto.
      * lia.
      * cbn [gvalues app]. rewrite concat_app, (blank_concat Hb). cbn [concat app]. rewrite Eb, Eb1. change (wide []) with 0. lia.
    + assert (Hfr : (v = Fraction \/ v = RootV) /\ before = [] \/ ~ ((v = Fraction \/ v = RootV) /\ before = [])).
      { destruct before; [|right; intros [_ Hx']; discriminate]. destruct v; try (left; split; auto; fail); right; intros [[Hx'|Hx'] _]; discriminate. }
      destruct Hfr as [[Hv ->]|Hfr].
      * cbn [app length] in *. subst j.
        apply (@hold_dissolve HRight mode ed (p0 ++ [(i, 0)]) [] b p0 row0 b0 i 0 v (mkGrid ([] :: c :: after) w) [] r); auto.
        -- change 0 with (length (@nil InputNode)) at 2 3. eapply first_cell; [exact Hn|exact Hv|reflexivity].
        -- lia.
        -- cbn [gvalues]. cbn [concat app]. rewrite !wide_app. pose proof (wide_concat after). rewrite Eb, Eb1, cells_wide_cons. change (wide []) with 0. lia.
      * apply (@hold_move HRight mode ed (p0 ++ [(i, j)]) [] b (p0 ++ [(i, j + 1)]) c (b0 + (wide r + 1 + cells_wide after))); auto.
        -- intros (i'&s&_&Hn'). unfold node_get in Hn'. cbn [mp_row] in Hn'. match type of Hn' with context [row_get ?a ?b] => replace (row_get a b) with (Some (@nil InputNode)) in Hn' by (symmetry; exact Hg) end. destruct i'; discriminate.
        -- intros p' i' k Hdis. destruct (dissolves_right Hdis) as [(v'&g'&Hn'&_)|(j'&v'&g'&Ep&Hn'&_&Hj)].
           ++ unfold node_get in Hn'. match type of Hn' with context [row_get ?a ?b] => replace (row_get a b) with (Some (@nil InputNode)) in Hn' by (symmetry; exact Hg) end. discriminate.
           ++ apply app_inj_tail in Ep as [<- Ep]. injection Ep as <- <-. rewrite Hn in Hn'. injection Hn' as <- <-. destruct Hj as [[Hv Hj]|Hj].
              ** apply Hfr. split; [exact Hv|]. destruct before; [reflexivity|cbn in Ej; lia].
              ** cbn [gvalues] in Hj. rewrite app_length in Hj. cbn in Hj. lia.
        -- subst j. pose proof (@rs_cell (ed_input ed) p0 i (length before) v (mkGrid (before ++ [] :: c :: after) w) [] Hn) as Hstep. cbn [gvalues] in Hstep. apply Hstep.
           ++ apply nth_between.
           ++ rewrite app_length. cbn. lia.
        -- intros [Hx _]. discriminate.
        -- eapply last_row_in; [exact L0| |reflexivity]. rewrite Er, Ei, Ej. replace (wide r + 1 + cells_wide after) with (wide r + 1 + cells_wide after + 0) by lia.
           replace (length before + 1) with (length (before ++ [[]])) by (rewrite app_length; reflexivity).
           replace (before ++ [] :: c :: after) with ((before ++ [[]]) ++ c :: after) by (now rewrite <- app_assoc).
           constructor; [constructor|]. intros c' Hc'. apply in_app_or in Hc' as [Hc'|[<-|[]]]; auto.
        -- rewrite Eb, Eb1, cells_wide_cons. change (wide []) with 0. lia.
  - right. assert (Hn : node_get (ed_input ed) p 0 = Some (Container v (mkGrid cells w))) by (unfold node_get; rewrite Hg; reflexivity).
    assert (Hc : cells <> []).
    { unfold node_get in Hn. rewrite Hg in Hn. pose proof (wf_row_nth (row_get_wf (proj1 (ho_doc H)) Hg) Hn) as Hwn. apply wf_container_inv in Hwn. apply Hwn. }
    destruct cells as [|c cells]; [contradiction|].
    change (Container v (mkGrid (c :: cells) w) :: row0) with ([Container v (mkGrid (c :: cells) w)] ++ row0) in *.
    assert (Hx : (v = Sub \/ v = Sup) \/ ~ (v = Sub \/ v = Sup)) by (destruct v; auto; right; intros [|]; discriminate).
    destruct Hx as [Hv|Hv].
    + apply (@hold_dissolve HRight mode ed p ([Container v (mkGrid (c :: cells) w)] ++ row0) b p ([Container v (mkGrid (c :: cells) w)] ++ row0) b 0 0 v (mkGrid (c :: cells) w) [] row0); auto.
      * eapply script_behind; [exact Hn|exact Hv].
      * apply H.
      * cbn [gvalues]. rewrite !wide_app, wide_container. pose proof (wide_concat (c :: cells)). change (wide []) with 0. lia.
    + apply (@hold_move HRight mode ed p ([Container v (mkGrid (c :: cells) w)] ++ row0) b (p ++ [(0, 0)]) c (b + (wide row0 + 1 + cells_wide cells))); auto.
      * intros (i'&s&E'&Hn'). cbn [mp_offset mp_row] in *. subst i'. rewrite Hn in Hn'. discriminate.
      * intros p' i' k Hdis. destruct (dissolves_right Hdis) as [(v'&g'&Hn'&Hv')|(j'&v'&g'&Ep&Hn'&Hcell&_)].
        -- rewrite Hn in Hn'. injection Hn' as <- <-. contradiction.
        -- assert (Hcell' : nth_error (gvalues g') j' = Some []).
           { apply Hcell; [reflexivity|]. unfold node_get in Hn'. destruct (row_get (ed_input ed) p') as [row'|] eqn:Er'; [|discriminate].
             pose proof (wf_row_nth (row_get_wf (proj1 (ho_doc H)) Er') Hn') as Hwn. apply wf_container_inv in Hwn as (_&Hne&_). destruct (gvalues g'); [contradiction|discriminate]. }
           pose proof (cell_row Hn' Hcell') as Hr. rewrite <- Ep, Hg in Hr. discriminate.
      * eapply rs_enter; [exact Hn|cbn; lia].
      * intros [Hx _]. discriminate.
      * eapply last_row_in; [apply H| |reflexivity]. replace (wide row0 + 1 + cells_wide cells) with (wide row0 + 1 + cells_wide cells + 0) by lia.
        exact (@first_below [] c row0 v [] c cells w 0 (last_here HRight c) (fun c' Hc' => match Hc' with end)).
      * rewrite wide_app, wide_container, cells_wide_cons. lia.
  - right. eapply hold_symbol; [exact Hd|exact H|reflexivity].
Qed.

Lemma hold_all mode d : remove_dir mode = Some d -> forall n ed p row b, b + wide row <= n -> holding d ed p row b ->
  exists k ed', k <= n /\ run env ed (repeat (OpRemoveAtCaret mode) k) = Ok ed' /\ ed_input ed' = [] /\ ed_caret ed' = collapsed (here 0).
Proof.
  intros Hd n. induction n as [n IH] using lt_wf_ind. intros ed p row b Hn H.
  assert (Hs : ed_input ed = [] \/ smaller d mode ed row b) by (destruct d; [exact (hold_left Hd H)|exact (hold_right Hd H)]).
  destruct Hs as [E|(ed'&p'&row'&b'&Hs&H'&Hw)].
  - exists 0, ed. split; [lia|]. split; [reflexivity|]. split; [exact E|]. rewrite (ho_caret H). pose proof (ho_row H) as L. rewrite E in L.
    inversion L; subst; try (destruct l; discriminate). destruct d; reflexivity.
  - destruct (IH (b' + wide row')) with (ed := ed') (p := p') (row := row') (b := b') as (k&ed2&Hk&Hr&He); [lia|lia|exact H'|].
    exists (S k), ed2. split; [lia|]. split; [|exact He]. cbn [repeat run]. rewrite Hs. exact Hr.
Qed.
Lemma hold_empties ed mode d : remove_dir mode = Some d -> proper ordinary (ed_input ed) ->
  ed_caret ed = collapsed (here (match d with HLeft => length (ed_input ed) | HRight => 0 end)) ->
  exists k ed', k < length (positions (ed_input ed)) /\ run env ed (repeat (OpRemoveAtCaret mode) k) = Ok ed' /\ ed_input ed' = [] /\ ed_caret ed' = collapsed (here 0).
Proof.
  intros Hd Hp Hc. assert (H : holding d ed [] (ed_input ed) 0) by (split; [constructor|exact Hc|exact Hp]).
  destruct (@hold_all mode d Hd (wide (ed_input ed)) ed [] (ed_input ed) 0 (le_n _) H) as (k&ed'&Hk&Hr&He). exists k, ed'. split; [|auto]. rewrite <- wide_positions. lia.
Qed.
End Ed.
