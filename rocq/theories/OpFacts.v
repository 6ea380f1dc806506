(** What the editing operations do to the document. *)
From Verif Require Import Base Str Grid Node Focus Edit Caret Autocomplete Editor Spec SpecEditor SpecMove BaseFacts
  TreeFacts OrderFacts EditFacts TreeProofs MoveFacts MoveProofs SpecTrack TrackFacts EditorFacts HistoryFacts
  AutoFacts PopupFacts.
Set Implicit Arguments.
Unset Strict Implicit.

(** ** Symbols *)
Lemma row_symbols_app a b : row_symbols (a ++ b) = row_symbols a ++ row_symbols b.
Proof. unfold row_symbols. now rewrite map_app, concat_app. Qed.
Lemma row_symbols_cons n r : row_symbols (n :: r) = node_symbols n ++ row_symbols r.
Proof. reflexivity. Qed.
Lemma node_symbols_container v cells w : node_symbols (Container v (mkGrid cells w)) = row_symbols (concat cells).
Proof.
  cbn. unfold row_symbols. induction cells as [|c cells IH]; auto. cbn [map concat]. rewrite map_app, concat_app. now f_equal.
Qed.
Lemma replaced_symbols p r r' doc doc' : replaced p r r' doc doc' -> row_symbols r = row_symbols r' -> row_symbols doc = row_symbols doc'.
Proof.
  induction 1; auto. intros E. rewrite !row_symbols_app, !row_symbols_cons. f_equal. f_equal.
  rewrite !node_symbols_container, !concat_app, !row_symbols_app. f_equal. cbn [concat]. rewrite !row_symbols_app. f_equal. auto.
Qed.
Lemma split_nth (A : Type) (l : list A) i x : nth_error l i = Some x -> l = firstn i l ++ x :: skipn (S i) l.
Proof.
  revert l. induction i as [|i IH]; intros [|y l] H; try discriminate; cbn in *; [congruence|]. f_equal. auto.
Qed.
Lemma unwrapped_symbols doc p q i content doc' : unwrapped doc p q i content doc' -> row_symbols doc' = row_symbols doc.
Proof.
  intros (v&g&Hn&->&_&row&_&_&Hr). symmetry. eapply replaced_symbols; [exact Hr|].
  unfold node_get in Hn. rewrite (replaced_get_old Hr) in Hn. rewrite (split_nth Hn) at 1.
  rewrite !row_symbols_app. f_equal. rewrite row_symbols_cons. f_equal. destruct g. now rewrite node_symbols_container.
Qed.

(** ** Removing at a position *)
Lemma good_pos_replaced doc q : good_pos doc q -> row_get doc (mp_row (pos_to_minimal q)) = Some (fr_row (pos_focus q)).
Proof. intros [Hc _]. exact (canonical_row Hc). Qed.

Lemma replace_range_replaces cfg doc r vs es p : good_range doc r -> replace_range r vs = Ok (es, p) ->
  exists doc', chain cfg doc es doc' /\ nodes_replaced doc (rg_indices r) (rg_left r) (rg_right r) vs doc' /\
    replaced (rg_indices r) (fr_row (rg_focus r))
      (firstn (rg_left r) (fr_row (rg_focus r)) ++ vs ++ skipn (rg_right r) (fr_row (rg_focus r))) doc doc' /\
    p = mkMinRange (rg_indices r) (rg_left r) (rg_left r + length vs).
Proof.
  intros G H. rewrite (replace_range_eq vs G) in H. inv H. destruct (replace_range_chain cfg vs G) as (d&Hc&Hr).
  exists d. split; auto. split; [|auto]. exists (fr_row (rg_focus r)). split; [apply rg_left_le_right|].
  split; [now apply good_range_right with (doc := doc)|auto].
Qed.
Lemma remove_range_replaces cfg doc r es p : good_range doc r -> remove_range r = Ok (es, p) ->
  exists doc', chain cfg doc es doc' /\ nodes_replaced doc (rg_indices r) (rg_left r) (rg_right r) [] doc' /\
    p = mkMinPos (rg_indices r) (rg_left r) /\ es <> [].
Proof.
  intros G H. rewrite (remove_range_eq G) in H. inv H. destruct (remove_range_chain cfg G) as (d&Hc&Hr).
  exists d. split; auto. split; [|split; [auto|discriminate]]. exists (fr_row (rg_focus r)). split; [apply rg_left_le_right|].
  split; [now apply good_range_right with (doc := doc)|auto].
Qed.
Lemma nodes_replaced_valid doc p l r vs doc' o : nodes_replaced doc p l r vs doc' -> o <= l + length vs ->
  valid_pos doc' (mkMinPos p o).
Proof.
  intros (row&H1&H2&Hr) Ho. eexists. split; [exact (replaced_get_new Hr)|]. cbn.
  rewrite !app_length, firstn_length. lia.
Qed.

Inductive removal (cfg : Cfg) (doc : InputRow) (q : InputRowPosition) (d : HorizontalDirection) :
  list BasicEdit -> MinPos -> InputRow -> Prop :=
| removal_symbol es m doc' : chain cfg doc es doc' -> es <> [] -> symbol_removed doc (pos_to_minimal q) d doc' ->
    m = mkMinPos (pos_indices q) (match d with HLeft => pos_offset q - 1 | HRight => pos_offset q end) -> removal cfg doc q d es m doc'
| removal_unwrap es m doc' p i k content : chain cfg doc es doc' -> es <> [] -> unwrapped doc (pos_to_minimal q) p i content doc' ->
    k <= length content -> m = mkMinPos p (i + k) -> removal cfg doc q d es m doc'
| removal_move m q' : move_caret_range cfg (range_of_pos q) (h_to_dir d) MChar = Ok (Some q') -> m = pos_to_minimal q' ->
    removal cfg doc q d [] m doc.

Lemma focus_child_inv f i n : focus_child_at f i = Some n -> fn_parent n = f /\ fn_index n = i /\ nth_error (fr_row f) i = Some (fn_node n).
Proof. unfold focus_child_at. destruct (nth_error (fr_row f) i) eqn:E; cbn; intros H; now inv H. Qed.

Lemma flatten_removal cfg doc q d n k es m : canonical doc (fn_parent n) ->
  nth_error (fr_row (fn_parent n)) (fn_index n) = Some (fn_node n) ->
  (fr_indices (fn_parent n) = pos_indices q /\ fn_index n = pos_offset q \/
   exists j, pos_indices q = fr_indices (fn_parent n) ++ [(fn_index n, j)]) ->
  (forall v g, fn_node n = Container v g -> k <= length (concat (gvalues g))) ->
  flatten_node n k = Ok (Some (es, m)) -> exists doc', removal cfg doc q d es m doc'.
Proof.
  intros Hc Hn Hw Hk H. destruct (flatten_node_inv Hc H) as (v&g&r&En&Hr&G&Hrep&->).
  destruct (replace_range_replaces cfg G Hrep) as (doc'&C&Hrep2&_&_). exists doc'.
  pose proof (range_new_inv Hr) as (Er&_&_).
  assert (El : rg_left r = fn_index n) by (rewrite Er, rg_left_min; cbn; lia).
  assert (Erg : rg_right r = S (fn_index n)) by (rewrite Er, rg_right_max; cbn; lia).
  assert (Ei : rg_indices r = fr_indices (fn_parent n)) by (rewrite Er; reflexivity). rewrite El, Erg, Ei in Hrep2.
  eapply removal_unwrap; [exact C| | |exact (Hk _ _ En)|reflexivity].
  - rewrite (replace_range_eq _ G) in Hrep. inv Hrep. discriminate.
  - exists v, g. unfold node_get. rewrite (canonical_row Hc), Hn, En. split; auto.
Qed.
Lemma move_removal cfg doc q d es m : remove_move_caret cfg q d = Ok (Some (es, m)) -> exists doc', removal cfg doc q d es m doc'.
Proof.
  unfold remove_move_caret. intros H. apply bind_ok in H as (x&Hx&H). destruct x as [q'|]; [|discriminate]. inv H. exists doc.
  eapply removal_move; eauto.
Qed.

Lemma cell_in_concat (A : Type) (cells : list (list A)) c : In c cells -> length c <= length (concat cells).
Proof. induction cells as [|x cells IH]; intros []; cbn; rewrite app_length; [subst; lia|]. specialize (IH H). lia. Qed.

Lemma remove_position_removal cfg doc q d es p : good_pos doc q ->
  remove_at_caret_position cfg q d = Ok (Some (es, p)) -> exists doc', removal cfg doc q d es p doc'.
Proof.
  intros [Hc Ho] H. unfold remove_at_caret_position in H. cbv zeta in H.
  destruct (match focus_offset_to_index (pos_focus q) (pos_offset q) d with
            | Some index => match focus_node_at (pos_focus q) index with Some n => Some (index, n) | None => None end
            | None => None end) as [[i nd]|] eqn:En.
  - assert (Hi : match d with HLeft => pos_offset q = S i | HRight => pos_offset q = i end /\
                 nth_error (fr_row (pos_focus q)) i = Some nd).
    { destruct (focus_offset_to_index (pos_focus q) (pos_offset q) d) as [i'|] eqn:Eo; [|discriminate].
      unfold focus_node_at in En. destruct (nth_error (fr_row (pos_focus q)) i') eqn:E; [|discriminate]. inv En. split; auto.
      unfold focus_offset_to_index, row_offset_to_index in Eo. destruct d; repeat match type of Eo with context [if ?b then _ else _] => destruct b eqn:? end;
        try discriminate; inv Eo; lia. }
    destruct Hi as [Hi Hnd]. destruct nd as [v g|s].
    + assert (Hmv : remove_move_caret cfg q d = Ok (Some (es, p)) -> exists doc', removal cfg doc q d es p doc') by apply move_removal.
      assert (Hfl : d = HRight -> (n <- unwrap (focus_child_at (pos_focus q) i) ;; flatten_node n 0) = Ok (Some (es, p)) ->
                exists doc', removal cfg doc q d es p doc').
      { intros -> Hf. apply bind_ok in Hf as (n&Hn&Hf). apply unwrap_ok in Hn. apply focus_child_inv in Hn as (E1&E2&E3).
        eapply flatten_removal; [| | | |exact Hf]; rewrite ?E1, ?E2; auto. intros; lia. }
      destruct v, d; auto.
    + apply bind_ok in H as (r&Hr&H). apply bind_ok in H as ([es' p']&Hrm&H). inv H.
      pose proof (range_new_inv Hr) as (Er&H1&H2).
      assert (G : good_range doc r) by (rewrite Er; split; auto).
      destruct (remove_range_replaces cfg G Hrm) as (doc'&C&Hrep&->&Hne).
      assert (El : rg_left r = i) by (rewrite Er, rg_left_min; cbn; lia).
      assert (Erg : rg_right r = S i) by (rewrite Er, rg_right_max; cbn; lia).
      assert (Ei : rg_indices r = pos_indices q) by (rewrite Er; reflexivity). rewrite El, Erg, Ei in Hrep. exists doc'.
      eapply removal_symbol; [exact C|exact Hne| |].
      * exists i, s. split; [exact Hi|]. split; [unfold node_get; rewrite good_pos_replaced by (split; auto); auto|exact Hrep].
      * rewrite El, Ei. f_equal. destruct d; lia.
  - apply bind_ok in H as (iip&Hi&H). destruct (focus_parent (pos_focus q)) as [n|] eqn:Ep; [|discriminate].
    apply bind_ok in H as (j&Hj&H). pose proof (canonical_parent_inv Hc Ep) as (p'&j'&Hidx&Hcp&Hp'&Hnth&_). subst p'.
    assert (Hmv : remove_move_caret cfg q d = Ok (Some (es, p)) -> exists doc', removal cfg doc q d es p doc') by apply move_removal.
    assert (Hfl : forall k, (forall v g, fn_node n = Container v g -> k <= length (concat (gvalues g))) ->
                flatten_node n k = Ok (Some (es, p)) -> exists doc', removal cfg doc q d es p doc').
    { intros k Hk Hf. eapply flatten_removal; [exact Hcp|exact Hnth| |exact Hk|exact Hf]. right. exists j'. exact Hidx. }
    assert (Hfl0 : flatten_node n 0 = Ok (Some (es, p)) -> exists doc', removal cfg doc q d es p doc').
    { apply Hfl. intros; lia. }
    assert (Hgen : forall k0 : Res bool, forall e, (at_edge <- k0 ;;
                  (if at_edge && e then flatten_node n 0 else remove_move_caret cfg q d)) = Ok (Some (es, p)) ->
                  exists doc', removal cfg doc q d es p doc').
    { intros k0 e Hg. apply bind_ok in Hg as (b&_&Hg). destruct (b && _); eauto. }
    assert (Hfirst : forall v g, fn_node n = Container v g -> (xy <- from_index 0 g ;; first <- gget g xy ;; first <- unwrap first ;;
                flatten_node n (length first)) = Ok (Some (es, p)) -> exists doc', removal cfg doc q d es p doc').
    { intros v g Hng Hf. apply bind_ok in Hf as (xy&Hxy&Hf). apply bind_ok in Hf as (fi&Hfi&Hf). apply bind_ok in Hf as (fi'&Hfi'&Hf).
      apply unwrap_ok in Hfi'. subst fi. pose proof (gget_inv Hxy Hfi) as Hin. apply nth_error_In in Hin.
      apply (Hfl (length fi')); auto. intros v' g' E. rewrite Hng in E. inv E. now apply cell_in_concat. }
    destruct (fn_node n) as [[] g|s]; cbn [node_grid] in *; try discriminate H; try (eapply Hgen; exact H).
    + destruct (_ || _); [|eapply Hgen; exact H]. eapply Hfirst; [reflexivity|exact H].
    + destruct (_ || _); [|eapply Hgen; exact H]. eapply Hfirst; [reflexivity|exact H].
    + destruct d; [eauto|eapply Hgen; exact H].
    + destruct d; [eauto|eapply Hgen; exact H].
Qed.

Section Ed.
Context {SyntaxNode : Type}.
Variable env : Env SyntaxNode.
Implicit Type ed : MathEditor SyntaxNode.
Let cfg := env_cfg env.

Lemma get_caret_row ed m : get_caret ed = Ok (MSelRow m) -> exists c r,
  caret_from_minimal (ed_input ed) (ed_caret ed) = Ok c /\ c_selection c = SelRow r /\ good_range (ed_input ed) r /\ rg_to_minimal r = m.
Proof.
  unfold get_caret. intros H. apply bind_ok in H as (c&Hc&H). destruct (c_selection c) as [r|] eqn:Es; cbn in H; [|discriminate].
  inv H. exists c, r. split; auto. split; auto. split; auto. eapply caret_row_good; eauto.
Qed.

Lemma insert_nodes_result ed m vs : get_caret ed = Ok (MSelRow m) ->
  exists ed1 ce, insert_nodes_at_caret env ed vs = Ok (ed1, Some ce) /\
    nodes_replaced (ed_input ed) (mr_row m) (lo m) (hi m) vs (ed_input ed1) /\
    ed_caret ed1 = collapsed (mkMinPos (mr_row m) (lo m + length vs)) /\ ed_autocomplete ed1 = ed_autocomplete ed /\
    advanced env ed [ce] ed1 /\ ed_caret ed1 = ce_after ce /\ ce_before ce = ed_caret ed /\
    exists old, length old = hi m - lo m /\
      ce_edits ce = [ERow (mkRowEdit Delete (mkMinPos (mr_row m) (lo m)) old); ERow (mkRowEdit Insert (mkMinPos (mr_row m) (lo m)) vs)].
Proof.
  intros H. destruct (get_caret_row H) as (c&r&Hc&Hs&G&Hm). unfold insert_nodes_at_caret. rewrite Hc. cbn [bind]. rewrite Hs.
  destruct (replace_range r vs) as [[es rg]|] eqn:Hr; [|rewrite (replace_range_eq vs G) in Hr; discriminate].
  unfold insert_at_range. rewrite Hr. cbn [bind].
  destruct (replace_range_replaces cfg G Hr) as (doc'&C&Hrep&_&->). cbn [mr_start mr_end mr_row].
  pose proof (chain_apply C) as Ha. rewrite (replace_range_eq vs G) in Hr. inv Hr.
  unfold builder_finish. fold cfg. rewrite Ha. cbn [bind]. do 2 eexists. split; [reflexivity|].
  cbn [ed_input ed_caret ed_autocomplete ce_after ce_before]. unfold lo, hi. cbn [rg_to_minimal mr_row mr_start mr_end].
  rewrite <- rg_left_min, <- rg_right_max. split; [exact Hrep|]. split.
  { unfold collapsed. destruct (rg_left r <? rg_left r + length vs) eqn:E; auto. replace (length vs) with 0 by lia. rewrite Nat.add_0_r. reflexivity. }
  split; auto. split; [|split; [auto|split; [auto|exists (rg_nodes r); split; [exact (rg_nodes_length G)|reflexivity]]]].
  split; cbn [ed_input ed_undo ed_parsed undo_push undo_stack redo_stack rev app ce_edits]; auto.
  econstructor; [exact C|constructor].
Qed.

Lemma popup_selected ed ed1 r : get_autocomplete env ed = Ok (ed1, Some r) -> exists m, nth_error (ar_matches r) (ar_selected r) = Some m.
Proof.
  intros H. apply get_autocomplete_inv in H as (ms&p&c&Hst&_). apply popup_shown in Hst as (_&_&_&_&m&Hm&_). eauto.
Qed.
Lemma start_autocorrect_ok ed ed1 r : get_autocomplete env ed = Ok (ed1, r) ->
  exists a, start_autocorrect env ed = Ok (ed1, a) /\ (~ autocorrect_pending env ed -> a = None).
Proof.
  intros H. unfold start_autocorrect. rewrite H. cbn [bind]. destruct r as [r|]; [|eauto].
  destruct (results_start_autocorrect r) as [a|] eqn:Ea; cbn [bind].
  - exists a. split; auto. intros Hp. destruct a as [a|]; auto. elim Hp. apply (@start_pending _ env ed ed1 a).
    unfold start_autocorrect. rewrite H. cbn. now rewrite Ea.
  - exfalso. unfold results_start_autocorrect, get_selected in Ea. apply popup_selected in H as (m&Hm). rewrite Hm in Ea.
    cbn in Ea. destruct (negb _); discriminate.
Qed.

Lemma not_collapsed_autocomplete ed m : get_caret ed = Ok (MSelRow m) -> mr_start m <> mr_end m ->
  get_autocomplete env ed = Ok (ed, None).
Proof.
  intros H Hm. destruct (get_caret_row H) as (c&r&Hc&Hs&G&<-). unfold get_autocomplete. rewrite Hc. cbn [bind]. rewrite Hs.
  unfold rg_is_collapsed. cbn in Hm. apply Nat.eqb_neq in Hm. now rewrite Hm.
Qed.
Lemma not_collapsed_not_pending ed m : get_caret ed = Ok (MSelRow m) -> mr_start m <> mr_end m -> ~ autocorrect_pending env ed.
Proof. intros H Hm (ed'&r&x&Hg&_). rewrite (not_collapsed_autocomplete H Hm) in Hg. discriminate. Qed.

Lemma finish_autocorrect_none ed ce : finish_autocorrect env ed None ce = Ok ed.
Proof. reflexivity. Qed.

(** ** Typing *)
Lemma typing ed m vs : get_caret ed = Ok (MSelRow m) -> (exists x, get_autocomplete env ed = Ok x) -> ~ autocorrect_pending env ed ->
  exists ed', step env ed (OpInsertAtCaret vs) = Ok (ed', OutNone _) /\
    nodes_replaced (ed_input ed) (mr_row m) (lo m) (hi m) (map Symbol vs) (ed_input ed') /\
    ed_caret ed' = collapsed (mkMinPos (mr_row m) (lo m + length vs)).
Proof.
  intros H [[ed1 r] Hg] Hp. destruct (start_autocorrect_ok Hg) as (a&Ha&Hn). rewrite (Hn Hp) in Ha.
  apply get_autocomplete_only in Hg as (x&->). cbn [step]. unfold insert_at_caret. rewrite Ha. cbn [bind].
  destruct (@insert_nodes_result (set_autocomplete ed x) m (map Symbol vs) H) as (ed2&ce&Hi&Hrep&Hc&_). rewrite Hi. cbn [bind].
  rewrite finish_autocorrect_none. cbn [bind]. exists ed2. split; auto. split; [exact Hrep|]. now rewrite map_length in Hc.
Qed.

Lemma splice_result ed range vs ed' : splice_at_range env ed range vs = Ok ed' ->
  nodes_replaced (ed_input ed) (mr_row range) (lo range) (hi range) vs (ed_input ed') /\ ed_caret ed' = ed_caret ed /\
  ed_selection_mode ed' = ed_selection_mode ed /\ ed_autocomplete ed' = ed_autocomplete ed.
Proof.
  unfold splice_at_range. intros H. cbv zeta in H. apply bind_ok in H as (r&Hr&H).
  apply rg_from_minimal_inv in Hr as [G <-].
  apply bind_ok in H as ([es mr]&Hrep&H). apply bind_ok in H as (s&_&H). apply bind_ok in H as (e&_&H).
  apply bind_ok in H as ([ed1 ce]&Hb&H). inv H.
  destruct (replace_range_replaces cfg G Hrep) as (doc'&C&Hn&_&_). rewrite (replace_range_eq vs G) in Hrep. inv Hrep.
  apply builder_finish_inv in Hb as (->&_&[[? ?]|(_&input&Hi&->)]); [discriminate|]. pose proof (chain_apply C) as Hc.
  unfold cfg in Hc. rewrite Hc in Hi. inv Hi. cbn [set_caret ed_input ed_caret ed_selection_mode ed_autocomplete].
  unfold lo, hi. cbn [rg_to_minimal mr_row mr_start mr_end]. rewrite <- rg_left_min, <- rg_right_max. auto.
Qed.

(** A move of the caret and an autocorrection of a rule of the rule set. *)
Lemma pending_rule ed ed1 a : start_autocorrect env ed = Ok (ed1, Some a) -> In (ac_rule a) (env_rules env).
Proof.
  unfold start_autocorrect. intros H. apply bind_ok in H as ([ed2 r]&H1&H). destruct r as [r|]; [|discriminate].
  apply bind_ok in H as (a'&Ha&H). inv H. unfold results_start_autocorrect in Ha. apply bind_ok in Ha as (m&Hm&Ha).
  unfold get_selected in Hm. apply unwrap_ok in Hm. destruct (is_complete_match m); cbn in Ha; [|discriminate]. inv Ha.
  apply get_autocomplete_inv in H1 as (ms&p&c&Hst&_&_&_&range&_&_&_&Hms). apply popup_shown in Hst as (Hperm&_&_&_&_).
  assert (Hin : In m ms) by (eapply Permutation.Permutation_in; [exact Hperm|eapply nth_error_In; eauto]).
  apply (rules_matches_inv Hms) in Hin as (rule&ms'&Hr&Hm'&Hin). cbn. apply match_sound with (m := m) in Hm' as (?&?&_&_&_&E&_); auto. congruence.
Qed.

Lemma finish_autocorrect_result ed ed0 a ed1 ce ed' : start_autocorrect env ed = Ok (ed0, a) -> finish_autocorrect env ed1 a ce = Ok ed' ->
  ed_caret ed' = ed_caret ed1 /\
  (ed' = ed1 \/ (autocorrect_pending env ed /\ autocorrected_to env (ed_input ed1) (ed_input ed'))).
Proof.
  intros Ha H. unfold finish_autocorrect in H. apply bind_ok in H as (a'&Ha'&H).
  destruct a as [a|]; cbn in Ha'; [|inv Ha'; inv H; auto].
  apply bind_ok in Ha' as (r&Hr&Ha'). inv Ha'. cbn [apply_autocorrect ac_rule ac_range] in H.
  apply bind_ok in H as (c&_&H). destruct (c_selection c); [|inv H; auto].
  cbv zeta in H. apply bind_ok in H as (ar&Har&H). destruct (rg_contains _ _); [inv H; auto|].
  apply bind_ok in H as (v&_&H). apply bind_ok in H as (ms&_&H). destruct (negb _); [inv H; auto|].
  apply splice_result in H as (Hrep&Hc&_). split; auto. right. split; [eapply start_pending; eauto|].
  exists (rg_to_minimal ar), (ac_rule a). split; auto. eapply pending_rule; eauto.
Qed.

Lemma typing_any ed m vs ed' out : get_caret ed = Ok (MSelRow m) -> step env ed (OpInsertAtCaret vs) = Ok (ed', out) ->
  ed_caret ed' = collapsed (mkMinPos (mr_row m) (lo m + length vs)) /\
  exists doc1, nodes_replaced (ed_input ed) (mr_row m) (lo m) (hi m) (map Symbol vs) doc1 /\
    (ed_input ed' = doc1 \/ autocorrect_pending env ed /\ autocorrected_to env doc1 (ed_input ed')).
Proof.
  intros H Hs. cbn [step] in Hs. apply bind_ok in Hs as (ed0&Hm&Hs). inv Hs. unfold insert_at_caret in Hm.
  apply bind_ok in Hm as ([ed1 a]&Ha&Hm). pose proof (start_autocorrect_only Ha) as (x&->).
  destruct (@insert_nodes_result (set_autocomplete ed x) m (map Symbol vs) H) as (ed2&ce&Hi&Hrep&Hc&_). rewrite Hi in Hm. cbn [bind] in Hm.
  rewrite map_length in Hc. destruct (finish_autocorrect_result Ha Hm) as [Hcar Hr]. split; [congruence|].
  exists (ed_input ed2). split; [exact Hrep|]. destruct Hr as [->|Hr]; auto.
Qed.

(** ** Removing *)
Lemma remove_selection ed m mode : get_caret ed = Ok (MSelRow m) -> mr_start m <> mr_end m ->
  exists ed', step env ed (OpRemoveAtCaret mode) = Ok (ed', OutNone _) /\
    nodes_replaced (ed_input ed) (mr_row m) (lo m) (hi m) [] (ed_input ed') /\
    ed_caret ed' = collapsed (mkMinPos (mr_row m) (lo m)).
Proof.
  intros H Hm. pose proof (not_collapsed_autocomplete H Hm) as Hg. destruct (get_caret_row H) as (c&r&Hc&Hs&G&<-).
  cbn [step]. unfold editor_remove_at_caret, start_autocorrect. rewrite Hg. cbn [bind]. rewrite Hc. cbn [bind]. rewrite Hs.
  unfold remove_at_caret, rg_is_collapsed. cbn in Hm. apply Nat.eqb_neq in Hm. rewrite Hm. cbn [negb].
  destruct (remove_range r) as [[es p]|] eqn:Hr; [|rewrite (remove_range_eq G) in Hr; discriminate]. cbn [bind].
  destruct (remove_range_replaces cfg G Hr) as (doc'&C&Hrep&->&Hne). unfold builder_finish.
  destruct es as [|e es]; [congruence|]. pose proof (chain_apply C) as Ha. unfold cfg in Ha. rewrite Ha. cbn [bind].
  rewrite finish_autocorrect_none. cbn [bind]. eexists. split; [reflexivity|]. cbn [ed_input ed_caret].
  unfold lo, hi. cbn [rg_to_minimal mr_row mr_start mr_end]. rewrite <- rg_left_min, <- rg_right_max. auto.
Qed.

Lemma remove_collapsed ed m mode d ed' out : get_caret ed = Ok (MSelRow m) -> mr_start m = mr_end m -> remove_dir mode = Some d ->
  step env ed (OpRemoveAtCaret mode) = Ok (ed', out) ->
  exists q ed0 a, good_pos (ed_input ed) q /\ pos_to_minimal q = range_left m /\ start_autocorrect env ed = Ok (ed0, a) /\
   ((remove_at_caret_position cfg q d = Ok None /\ ed' = ed0 /\ out = OutNo _) \/
    exists es p doc1, remove_at_caret_position cfg q d = Ok (Some (es, p)) /\ removal cfg (ed_input ed) q d es p doc1 /\
      out = OutNone _ /\ ed_caret ed' = collapsed p /\
      ((ed_input ed' = doc1 /\ (es = [] -> ed_undo ed' = ed_undo ed)) \/ autocorrect_pending env ed /\ autocorrected_to env doc1 (ed_input ed'))).
Proof.
  intros H Hm Hd Hs. destruct (get_caret_row H) as (c&r&Hc&Hsel&G&<-). cbn in Hm.
  cbn [step] in Hs. apply bind_ok in Hs as ([ed1 b]&Hr&Hs). inv Hs. unfold editor_remove_at_caret in Hr.
  apply bind_ok in Hr as ([ed0 a]&Ha&Hr). pose proof (start_autocorrect_only Ha) as (x&->).
  cbn [set_autocomplete ed_input ed_caret] in Hr. rewrite Hc in Hr. cbn [bind] in Hr. rewrite Hsel in Hr.
  apply bind_ok in Hr as (y&Hy&Hr). unfold remove_at_caret, rg_is_collapsed in Hy. apply Nat.eqb_eq in Hm. rewrite Hm in Hy. apply Nat.eqb_eq in Hm.
  cbn [negb] in Hy.
  exists (rg_start_position r), (set_autocomplete ed x), a. split; [now apply good_start|]. split.
  { unfold range_left, pos_to_minimal, rg_start_position. cbn. rewrite Hm, Nat.min_id. reflexivity. }
  split; auto.
  assert (Hy' : remove_at_caret_position cfg (rg_start_position r) d = Ok y) by (destruct mode; inv Hd; exact Hy).
  destruct y as [[es p]|]; [|inv Hr; left; auto]. right.
  apply bind_ok in Hr as ([ed2 ce]&Hb&Hr). apply bind_ok in Hr as (ed3&Hf&Hr). inv Hr.
  destruct (remove_position_removal (good_start G) Hy') as (doc1&Hrm). exists es, p, doc1. split; auto. split; auto. split; auto.
  destruct (finish_autocorrect_result Ha Hf) as [Hcar Hr]. pose proof (builder_finish_inv Hb) as (_&Hca&Hcase).
  split; [rewrite Hcar; exact Hca|].
  assert (E : ed_input ed2 = doc1).
  { assert (C : chain cfg (ed_input ed) es doc1) by (destruct Hrm; auto; constructor). apply chain_apply in C.
    destruct Hcase as [[-> ->]|(_&input&Hi&->)]; cbn in *; [congruence|]. unfold cfg in C. rewrite C in Hi. congruence. }
  destruct Hr as [->|Hr]; [|rewrite E in Hr; auto]. left. split; auto. intros ->. destruct Hcase as [[_ ->]|[H' _]]; [reflexivity|congruence].
Qed.

Lemma removal_effect q d es p doc doc1 : removal cfg doc q d es p doc1 ->
  symbol_removed doc (pos_to_minimal q) d doc1 \/
  (row_symbols doc1 = row_symbols doc /\
   (doc1 = doc \/ exists path i content, unwrapped doc (pos_to_minimal q) path i content doc1)).
Proof.
  destruct 1 as [es m doc' _ _ Hs _|es m doc' p i k content _ _ Hu _ _|m q' _ _]; auto.
  right. split; [eapply unwrapped_symbols; eauto|right; eauto].
Qed.

Lemma remove_effect ed m mode d ed' out : get_caret ed = Ok (MSelRow m) -> mr_start m = mr_end m -> remove_dir mode = Some d ->
  ~ autocorrect_pending env ed -> step env ed (OpRemoveAtCaret mode) = Ok (ed', out) ->
  symbol_removed (ed_input ed) (range_left m) d (ed_input ed') \/
  (row_symbols (ed_input ed') = row_symbols (ed_input ed) /\
   (ed_input ed' = ed_input ed \/ exists path i content, unwrapped (ed_input ed) (range_left m) path i content (ed_input ed'))).
Proof.
  intros H Hm Hd Hp Hs. destruct (remove_collapsed H Hm Hd Hs) as (q&ed0&a&Gq&Eq&Ha&[(_&->&_)|(es&p&doc1&_&Hr&_&_&Hdoc)]).
  - pose proof (start_autocorrect_only Ha) as (x&->). right. auto.
  - destruct Hdoc as [[-> _]|[Hq _]]; [|tauto]. apply removal_effect in Hr. rewrite Eq in Hr. exact Hr.
Qed.

(** ** At the edges of the document *)
Lemma edge_remove ed mode d : 
  ed_caret ed = collapsed (here (match d with HLeft => 0 | HRight => length (ed_input ed) end)) -> remove_dir mode = Some d ->
  (exists x, get_autocomplete env ed = Ok x) ->
  if overflow_checks cfg then step env ed (OpRemoveAtCaret mode) = Panic POverflow
  else exists a, step env ed (OpRemoveAtCaret mode) = Ok (set_autocomplete ed a, OutNo _).
Proof.
  intros Hc Hd [[ed1 r] Hg]. destruct (start_autocorrect_ok Hg) as (a&Ha&_). apply get_autocomplete_only in Hg as (x&->).
  set (o := match d with HLeft => 0 | HRight => length (ed_input ed) end) in *.
  assert (Ho : o <= length (ed_input ed)) by (unfold o; destruct d; lia).
  assert (Ecar : caret_from_minimal (ed_input ed) (ed_caret ed) =
     Ok (mkCaret (mkPos (from_root (ed_input ed)) o) (mkPos (from_root (ed_input ed)) o)
           (SelRow (mkRange (from_root (ed_input ed)) o o)))).
  { rewrite Hc. unfold caret_from_minimal, collapsed, here. cbn [mc_start mc_end]. unfold pos_from_minimal. cbn [mp_row mp_offset walk_down_indices bind].
    rewrite pos_new_ok by exact Ho. cbn [bind]. unfold caret_new, selection_from_positions, range_from_positions.
    cbn [pos_indices pos_focus fr_indices from_root get_shared nth_error length walk_down_indices bind pos_offset].
    unfold range_new. cbn [fr_row from_root]. replace (o <=? length (ed_input ed)) with true by (symmetry; apply Nat.leb_le; auto).
    cbn [assert_ bind andb]. set (r' := mkRange _ o o). replace (rg_len r') with 0; [reflexivity|].
    unfold rg_len. rewrite rg_right_max, rg_left_min. cbn. lia. }
  cbn [step]. unfold editor_remove_at_caret. rewrite Ha. cbn [bind]. cbn [set_autocomplete ed_input ed_caret]. rewrite Ecar. cbn [bind c_selection].
  unfold remove_at_caret, rg_is_collapsed. cbn [rg_start rg_end]. rewrite Nat.eqb_refl. cbn [negb].
  assert (Hrm : remove_at_caret_position cfg (mkPos (from_root (ed_input ed)) o) d = if overflow_checks cfg then Panic POverflow else Ok None).
  { assert (En : focus_offset_to_index (from_root (ed_input ed)) o d = None).
    { unfold focus_offset_to_index, row_offset_to_index, o. cbn [fr_row from_root]. destruct d; [reflexivity|now rewrite Nat.leb_refl]. }
    unfold remove_at_caret_position. cbn [pos_focus pos_offset]. rewrite En. unfold index_in_parent. cbn. unfold usub. cbn.
    destruct (overflow_checks cfg); reflexivity. }
  destruct mode; inv Hd; fold cfg; cbn [rg_start_position rg_focus rg_start]; unfold rg_start_position; cbn [rg_focus rg_start];
    rewrite Hrm; destruct (overflow_checks cfg); cbn; eauto.
Qed.
End Ed.
