(** The editor keeps its caret and does not panic, outside of the known bugs. *)
From Coq Require Import Permutation.
From Verif Require Import Base Str Grid Node Focus Edit Caret Autocomplete Editor Spec SpecAuto SpecEditor SpecMove SpecSafety BaseFacts
  TreeFacts OrderFacts EditFacts TreeProofs MoveFacts MoveProofs SpecTrack TrackFacts AutoFacts PopupFacts EditorFacts HistoryFacts
  OpFacts SpliceFacts TypingFacts SafetyFacts.
Set Implicit Arguments.
Unset Strict Implicit.
Implicit Type Q : Part -> Prop.

(** ** Moves *)
Lemma cell_zero_panics cfg doc p : good_pos doc p -> overflow_checks cfg = true -> at_cell_zero (pos_to_minimal p) ->
  move_caret_internal cfg p DLeft = Panic POverflow.
Proof.
  destruct p as [f o]. intros [Hc Ho] Hd [Hz (pp&i&Hm)].
  unfold pos_to_minimal, pos_indices in *. cbn [pos_focus pos_offset mp_row mp_offset] in *.
  subst o. unfold move_caret_internal, move_horizontal_into, focus_offset_to_index, row_offset_to_index; cbn [pos_focus pos_offset is_left].
  change (0 =? 0) with true. cbn [bind]. unfold move_horizontal_beyond_edge; cbn [pos_focus pos_offset is_left].
  destruct (focus_parent f) as [n|] eqn:Ep.
  - rewrite (index_in_parent_eq cfg Hc Hm). cbn [bind]. unfold usub. simpl. rewrite Hd. reflexivity.
  - exfalso. apply (canonical_parent_none Hc) in Ep. rewrite Ep in Hm. destruct pp; discriminate.
Qed.
Lemma at_cell_zero_dec m : at_cell_zero m \/ ~ at_cell_zero m.
Proof.
  destruct m as [p o]. unfold at_cell_zero. cbn. destruct o as [|o]; [|right; intros [H _]; discriminate].
  destruct (list_snoc p) as [->|(q&[i j]&->)].
  - right. intros (_&pp&i&H). destruct pp; discriminate.
  - destruct j as [|j]; [left; eauto|]. right. intros (_&pp&i'&H). apply app_inj_tail in H as [_ H]. discriminate.
Qed.
Lemma move_good cfg doc r d mode q : wf_row doc -> good_range doc r -> move_caret_range cfg r d mode = Ok (Some q) -> good_pos doc q.
Proof.
  intros Hwf G H. destruct mode; try discriminate H.
  assert (Hz : (overflow_checks cfg = true -> d = DLeft -> ~ at_cell_zero (pos_to_minimal (rg_left_position r)))).
  { intros Ho -> Hz. unfold move_caret_range in H. rewrite (cell_zero_panics (good_left G) Ho Hz) in H. discriminate. }
  destruct (move_range_ok Hwf G Hz) as (q'&E&Hq). rewrite H in E. inv E. exact Hq.
Qed.
Lemma nav_good cfg doc m c d mode c' : wf_row doc -> caret_from_minimal doc m = Ok c -> nav_move_caret cfg doc c d mode = Ok c' ->
  valid_caret doc (caret_to_minimal c').
Proof.
  intros Hwf Hc H. pose proof (caret_from_minimal_inv Hc) as (Gs&Ge&_).
  assert (Hold : valid_caret doc (caret_to_minimal c)) by (split; now apply good_pos_valid).
  unfold nav_move_caret in H. destruct (c_selection c) as [r|g] eqn:Es; [|now inv H].
  apply bind_ok in H as ([p|]&Hp&H); [|now inv H]. pose proof (caret_row_good Hc Es) as G. pose proof (move_good Hwf G Hp) as Gp.
  replace (caret_set_selection doc c (range_of_pos p)) with (caret_new doc p p) in H by (destruct p; reflexivity).
  rewrite caret_new_collapsed in H by auto. inv H. split; now apply good_pos_valid.
Qed.

(** ** Removing next to the caret *)
Lemma removal_valid cfg Q doc q d es m doc' : wf_row doc -> good_pos doc q -> removal cfg doc q d es m doc' -> proper Q doc ->
  chain cfg doc es doc' /\ proper Q doc' /\ valid_pos doc' m.
Proof.
  intros Hwf G H Hp. destruct H as [es m doc' C _ (i&s&Hi&Hn&Hrep) ->|es m doc' p i k content C _ (v&g&Hn&->&_&Hrep) Hk ->|m q' Hm ->].
  - split; auto. split; [exact (proper_nodes_replaced Hrep Hp (proper_nil Q))|]. apply (nodes_replaced_valid Hrep). cbn in Hi.
    destruct d; lia.
  - split; auto. split; [exact (proper_nodes_replaced Hrep Hp (proper_content Hp Hn))|]. apply (nodes_replaced_valid Hrep). lia.
  - split; [constructor|]. split; auto. apply good_pos_valid. eapply move_good; [exact Hwf| |exact Hm].
    destruct q as [f o], G as [Gc Go]. split; [exact Gc|]. cbn in *. lia.
Qed.

Lemma range_of_pos_good doc q : good_pos doc q -> good_range doc (range_of_pos q).
Proof. destruct q as [f o]. intros [Gc Go]. split; [exact Gc|]. cbn in *. lia. Qed.
Lemma remove_move_ok cfg doc q d : wf_row doc -> good_pos doc q ->
  (overflow_checks cfg = true -> d = HLeft -> ~ at_cell_zero (pos_to_minimal q)) -> exists r, remove_move_caret cfg q d = Ok r.
Proof.
  intros Hwf G Hz. unfold remove_move_caret. destruct (@move_range_ok cfg doc (range_of_pos q) (h_to_dir d) Hwf (range_of_pos_good G)) as (x&Hx&_).
  { intros Ho Hd. replace (rg_left_position (range_of_pos q)) with q.
    - apply Hz; auto. destruct d; [reflexivity|discriminate].
    - unfold rg_left_position, rg_left, rg_is_forwards. cbn. rewrite Nat.leb_refl. destruct q; reflexivity. }
  rewrite Hx. cbn. eauto.
Qed.
Lemma flatten_ok doc n k v g : canonical doc (fn_parent n) -> nth_error (fr_row (fn_parent n)) (fn_index n) = Some (fn_node n) ->
  fn_node n = Container v g -> exists r, flatten_node n k = Ok r.
Proof.
  intros Hc Hn E. unfold flatten_node. rewrite E. cbn [node_grid unwrap bind]. cbv zeta.
  pose proof (nth_error_Some_lt Hn) as Hl. rewrite range_new_ok by lia. cbn [bind].
  set (rg := mkRange _ _ _).
  assert (G : good_range doc rg) by (split; [exact Hc|]; cbn; lia).
  rewrite (remove_range_eq G). cbn [bind]. destruct (insert_at_position _ _). eauto.
Qed.
Lemma remove_position_ok cfg doc q d : wf_row doc -> good_pos doc q ->
  (overflow_checks cfg = true -> match d with
     | HLeft => pos_to_minimal q <> here 0 /\ ~ backspace_leaves doc (pos_to_minimal q)
     | HRight => pos_to_minimal q <> here (length doc) end) ->
  exists r, remove_at_caret_position cfg q d = Ok r.
Proof.
  intros Hwf G Hz. pose proof G as [Hc Ho]. unfold remove_at_caret_position. cbv zeta.
  destruct (match focus_offset_to_index (pos_focus q) (pos_offset q) d with
            | Some index => match focus_node_at (pos_focus q) index with Some n => Some (index, n) | None => None end
            | None => None end) as [[i nd]|] eqn:En.
  - assert (Hi : match d with HLeft => pos_offset q = S i | HRight => pos_offset q = i end /\
                 nth_error (fr_row (pos_focus q)) i = Some nd).
    { destruct (focus_offset_to_index (pos_focus q) (pos_offset q) d) as [i'|] eqn:Eo; [|discriminate].
      unfold focus_node_at in En. destruct (nth_error (fr_row (pos_focus q)) i') eqn:E; [|discriminate]. inv En. split; auto.
      unfold focus_offset_to_index, row_offset_to_index in Eo. destruct d; repeat match type of Eo with context [if ?b then _ else _] => destruct b eqn:? end;
        try discriminate; inv Eo; lia. }
    destruct Hi as [Hi Hnd]. pose proof (nth_error_Some_lt Hnd) as Hl. destruct nd as [v g|s].
    + assert (Hmv : exists r, remove_move_caret cfg q d = Ok r).
      { apply (remove_move_ok Hwf G). intros _ -> [H0 _]. cbn in H0. lia. }
      assert (Hfl : exists r, (n <- unwrap (focus_child_at (pos_focus q) i) ;; flatten_node n 0) = Ok r).
      { unfold focus_child_at. rewrite Hnd. cbn [option_map unwrap bind]. eapply flatten_ok; cbn; eauto. }
      destruct v, d; auto.
    + rewrite range_new_ok by lia. cbn [bind]. set (rg := mkRange _ _ _).
      assert (Gr : good_range doc rg) by (split; [exact Hc|]; cbn; lia). rewrite (remove_range_eq Gr). cbn. eauto.
  - assert (Hedge : match d with HLeft => pos_offset q = 0 | HRight => pos_offset q = length (fr_row (pos_focus q)) end).
    { destruct (focus_offset_to_index (pos_focus q) (pos_offset q) d) as [i|] eqn:Eo.
      - unfold focus_node_at in En. destruct (nth_error (fr_row (pos_focus q)) i) eqn:E; [discriminate|].
        apply nth_error_None in E. unfold focus_offset_to_index, row_offset_to_index in Eo.
        destruct d; repeat match type of Eo with context [if ?b then _ else _] => destruct b eqn:? end; try discriminate; inv Eo; lia.
      - unfold focus_offset_to_index, row_offset_to_index in Eo.
        destruct d; repeat match type of Eo with context [if ?b then _ else _] => destruct b eqn:? end; try discriminate; lia. }
    destruct (focus_parent (pos_focus q)) as [n|] eqn:Ep.
    2:{ apply (canonical_parent_none Hc) in Ep. unfold index_in_parent, usub. rewrite Ep. cbn.
        destruct (overflow_checks cfg) eqn:Ef; cbn; [|eauto]. exfalso. specialize (Hz eq_refl). pose proof (canonical_row Hc) as Hrow.
        rewrite Ep in Hrow. cbn in Hrow. inv Hrow. unfold pos_to_minimal, pos_indices, here in Hz. rewrite Ep in Hz. destruct d.
        - destruct Hz as [Hz _]. apply Hz. now rewrite Hedge.
        - apply Hz. congruence. }
    pose proof (canonical_parent_inv Hc Ep) as (p'&j&Hidx&Hcp&Hp'&Hnth&Hrow). subst p'. rewrite (index_in_parent_eq cfg Hc Hidx). cbn [bind unwrap].
    pose proof (focus_row_at_inv Hrow) as (v&g&c&Hn'&Hcell&Hf).
    assert (Eng : fn_node n = Container v g) by congruence.
    pose proof (focus_wf_node Hwf Hcp Hn') as Hwn. destruct (wf_grid_size Hwn) as (Hsz&Hmul&Hlen).
    assert (Hfl : forall k, exists r, flatten_node n k = Ok r) by (intros; eapply flatten_ok; eauto).
    assert (Hmv : ~ (overflow_checks cfg = true /\ d = HLeft /\ j = 0) -> exists r, remove_move_caret cfg q d = Ok r).
    { intros Hb. apply (remove_move_ok Hwf G). intros H1 -> [_ (pp&ii&H2)]. apply Hb. split; auto. split; auto.
      unfold pos_to_minimal, pos_indices in H2. cbn in H2. rewrite Hidx in H2. apply app_inj_tail in H2 as [_ H2]. congruence. }
    assert (Hgen : v <> Sub /\ v <> Sup \/ d = HRight -> exists r, (at_edge <- match d with
              | HLeft => Ok (j =? 0)
              | HRight => ' (w, h) <- gsize g ;; last <- usub cfg (w * h) 1 ;; Ok (match last with Some last => last <=? j | None => false end)
              end ;; if at_edge && forallb (fun v => match v with [] => true | _ => false end) (gvalues g)
                     then flatten_node n 0 else remove_move_caret cfg q d) = Ok r).
    { intros Hv. destruct d.
      - cbn [bind]. destruct (j =? 0) eqn:Ej; cbn [andb]; [|apply Hmv; lia].
        destruct (forallb _ (gvalues g)) eqn:Ea; [apply Hfl|]. apply Hmv. intros (H1&_&_). specialize (Hz H1). destruct Hz as [_ Hz].
        apply Hz. destruct Hv as [Hv|]; [|discriminate]. apply not_true_iff_false in Ea.
        assert (Hex : exists cell, In cell (gvalues g) /\ cell <> []).
        { destruct (existsb (fun v : InputRow => match v with [] => false | _ => true end) (gvalues g)) eqn:Ex.
          - apply existsb_exists in Ex as (cell&Hin&Hb). exists cell. split; auto. destruct cell; [discriminate|discriminate].
          - elim Ea. apply forallb_forall. intros cell Hin. destruct cell as [|n0 cell]; auto.
            exfalso. apply not_true_iff_false in Ex. apply Ex. apply existsb_exists. eauto. }
        destruct Hex as (cell&Hin&Hne). exists (fr_indices (fn_parent n)), (fn_index n), v, g, cell.
        assert (j = 0) by lia. subst j. unfold pos_to_minimal, pos_indices. cbn [mp_row mp_offset]. repeat split; auto; try tauto.
        unfold node_get. rewrite (canonical_row Hcp), Hnth, Eng. reflexivity.
      - rewrite Hsz. cbn [bind]. unfold usub. replace (1 <=? gwidth g * (length (gvalues g) / gwidth g)) with true by lia. cbn [bind].
        destruct (_ && _); [apply Hfl|apply Hmv]. intros (_&H&_). discriminate. }
    assert (Hfirst : exists r, (xy <- from_index 0 g ;; first <- gget g xy ;; first <- unwrap first ;; flatten_node n (length first)) = Ok r).
    { apply wf_container_inv in Hwn as (Hw&Hne&Hmod&_). rewrite from_index_eq by auto. cbn [bind]. rewrite gget_from_index by auto. cbn [bind].
      destruct (nth_error (gvalues g) 0) eqn:E0; [cbn [unwrap bind]; apply Hfl|]. apply nth_error_None in E0. lia. }
    rewrite Eng in *. cbn [node_grid]. 
    assert (Hif : forall b : bool, v <> Sub /\ v <> Sup -> exists r, (if b then xy <- from_index 0 g ;; first <- gget g xy ;; first <- unwrap first ;; flatten_node n (length first)
       else at_edge <- match d with
              | HLeft => Ok (j =? 0)
              | HRight => ' (w, h) <- gsize g ;; last <- usub cfg (w * h) 1 ;; Ok (match last with Some last => last <=? j | None => false end)
              end ;; if at_edge && forallb (fun v => match v with [] => true | _ => false end) (gvalues g)
                     then flatten_node n 0 else remove_move_caret cfg q d) = Ok r).
    { intros b Hv. destruct b; auto. }
    destruct v; try (apply Hgen; left; split; discriminate); try (apply Hif; split; discriminate); (destruct d; [apply Hfl|apply Hgen; auto]).
Qed.

Section Ed.
Context {SyntaxNode : Type}.
Variable env : Env SyntaxNode.
Variable Q : Part -> Prop.
Implicit Type ed : MathEditor SyntaxNode.
Let cfg := env_cfg env.

(** ** Moving away from a token *)
Lemma token_due_mode ed m : token_due env (set_selection_mode ed m) -> token_due env ed.
Proof.
  intros (ed'&r&x&q&H&Hx). unfold get_autocomplete in H. cbn in H. unfold token_due, get_autocomplete.
  destruct (caret_from_minimal (ed_input ed) (ed_caret ed)) as [c|]; [|discriminate]. cbn in *.
  destruct (c_selection c) as [range|]; [|discriminate]. destruct (rg_is_collapsed range); [|discriminate].
  destruct (rules_matches _ _ _ _); [|discriminate]. cbn in *. destruct (state_get_autocomplete _ _ _) as [[cu re]|]; [|discriminate].
  cbn in *. inv H. do 4 eexists. split; [reflexivity|exact Hx].
Qed.
Lemma token_settles ed ed0 a ed1 ce : wf_row (ed_input ed) -> start_autocorrect env ed = Ok (ed0, a) -> ed_input ed1 = ed_input ed ->
  ~ token_due env ed -> ce_edits ce = [] ->
  (forall ed', finish_autocorrect env ed1 a ce = Ok ed' -> ed' = ed1) /\
  (valid_caret (ed_input ed) (ed_caret ed1) -> Forall ascii_rule (env_rules env) ->
   (forall s, In s (row_symbols (ed_input ed)) -> s <> []) -> finish_autocorrect env ed1 a ce = Ok ed1).
Proof.
  intros Hwf Ha Ei Hnd Hce. unfold finish_autocorrect. rewrite Hce.
  destruct a as [act|]; [|split; [intros ed' H; now inv H|reflexivity]].
  cbn [autocorrect_finish]. unfold range_apply_edits. cbn [apply_edits bind].
  unfold start_autocorrect in Ha. apply bind_ok in Ha as ([ed2 r]&Hg&Ha). destruct r as [r|]; [|discriminate].
  apply bind_ok in Ha as (a'&Hst&Ha). inv Ha. unfold results_start_autocorrect in Hst. apply bind_ok in Hst as (m&Hm&Hst).
  unfold get_selected in Hm. apply unwrap_ok in Hm. destruct (is_complete_match m) eqn:Hcm; cbn [negb] in Hst; [|discriminate]. inv Hst.
  cbn [ac_range ac_rule].
  destruct (popup_match Hwf Hg (nth_error_In _ _ Hm)) as (q&before&syms&last&rest&[Gc Go]&Hcar&Hp&Hf&Hin&Hpa&Hlne&Em&_).
  set (n := m_input_match_length m).
  assert (Hlen : length before + (length syms + 1) = pos_offset q).
  { apply (f_equal (@length _)) in Hf. rewrite firstn_length, app_length, map_length, app_length in Hf. cbn in Hf. lia. }
  assert (En : n = length syms + 1) by (unfold n; rewrite Em; reflexivity).
  assert (Hsmall : pos_offset q - n < n).
  { destruct (Nat.lt_ge_cases (pos_offset q - n) n) as [|Hge]; auto. elim Hnd. exists ed0, r, m, (pos_to_minimal q).
    split; auto. split; auto. split; [now apply Nat.eqb_eq|]. split; auto. fold n. cbn. lia. }
  assert (Hrest : rest = [] /\ byte_len last = 1).
  { unfold is_complete_match in Hcm. rewrite Em in Hcm. cbn [m_rule_match_length m_rule] in Hcm. apply Nat.eqb_eq in Hcm.
    rewrite Hpa, !byte_len_app in Hcm. pose proof (byte_len_pos Hlne). split; [apply byte_len_0; lia|lia]. }
  destruct Hrest as [-> Hb1]. rewrite app_nil_r in Hpa.
  assert (Erg : get_caret_range r m = token (pos_to_minimal q) n).
  { unfold get_caret_range, token. rewrite Hp. reflexivity. }
  assert (Hvr : valid_range (ed_input ed) (token (pos_to_minimal q) n)).
  { exists (fr_row (pos_focus q)). split; [exact (canonical_row Gc)|]. cbn. lia. }
  destruct (rg_from_minimal_ok Hwf Hvr) as (rg&Hrg). pose proof (rg_from_minimal_inv Hrg) as [Grg Emin].
  assert (Eidx : rg_indices rg = pos_indices q) by (apply (f_equal mr_row) in Emin; exact Emin).
  assert (Efoc : rg_focus rg = pos_focus q).
  { apply (@canonical_unique (ed_input ed)); auto; apply Grg. }
  assert (El : rg_left rg = pos_offset q - n).
  { rewrite rg_left_min. pose proof (f_equal mr_start Emin) as E1. pose proof (f_equal mr_end Emin) as E2. cbn in E1, E2. lia. }
  assert (Er : rg_right rg = pos_offset q).
  { rewrite rg_right_max. pose proof (f_equal mr_start Emin) as E1. pose proof (f_equal mr_end Emin) as E2. cbn in E1, E2. lia. }
  assert (Hvals : rg_values rg = Ok (map Symbol (syms ++ [last]))).
  { rewrite (rg_values_eq Grg), Efoc, El, Er. f_equal.
    rewrite <- (firstn_skipn (pos_offset q) (fr_row (pos_focus q))), Hf.
    rewrite <- app_assoc, skipn_app_ge by (cbn; lia). 
    replace (pos_offset q - n - length before) with 0 by lia. cbn [skipn].
    rewrite firstn_app_le by (rewrite map_length, app_length; cbn; lia).
    apply firstn_all2. rewrite map_length, app_length. cbn. lia. }
  assert (Happ : forall c, caret_from_minimal (ed_input ed1) (ed_caret ed1) = Ok c ->
    apply_autocorrect env ed1 (Some (mkAutocorrect (m_rule m) (get_caret_range r m))) =
    match c_selection c with
    | SelGrid _ => Ok ed1
    | SelRow range =>
      if rg_contains rg (rg_start_position range) then Ok ed1 else
       ms <- rule_matches (m_rule m) (map Symbol (syms ++ [last])) (pos_offset q - n) 1 ;;
       if negb (existsb is_complete_match ms) then Ok ed1 else splice_at_range env ed1 (token (pos_to_minimal q) n) (rule_result (m_rule m))
    end).
  { intros c Hc. unfold apply_autocorrect. cbn [ac_range ac_rule]. rewrite Hc. cbn [bind]. destruct (c_selection c) as [range|g]; auto.
    rewrite Erg, Ei, Hrg. cbn [bind]. destruct (rg_contains _ _); auto. rewrite Hvals. cbn [bind]. rewrite El, Emin. reflexivity. }
  assert (Hlt2 : pos_offset q - n < length syms + 1) by lia. split.
  - intros ed' H.
    assert (exists c, caret_from_minimal (ed_input ed1) (ed_caret ed1) = Ok c) as (c&Hc).
    { unfold apply_autocorrect in H. apply bind_ok in H as (c&Hc&_). eauto. }
    rewrite (Happ _ Hc) in H. destruct (c_selection c) as [range|g]; [|now inv H]. destruct (rg_contains _ _); [now inv H|].
    apply bind_ok in H as (ms&Hms&H). rewrite (no_early_complete Hpa Hlne Hlt2 Hms) in H. cbn in H. now inv H.
  - intros [V1 V2] Hasc Hne. destruct (caret_from_minimal_ok Hwf V1 V2) as (c&Hc&_). rewrite <- Ei in Hc. rewrite (Happ _ Hc).
    destruct (c_selection c) as [range|g]; auto. destruct (rg_contains _ _); auto.
    destruct (@ascii_rule_matches (m_rule m) (map Symbol (syms ++ [last])) (pos_offset q - n) 1) as (ms&Hms).
    + eapply Forall_forall in Hasc; eauto.
    + rewrite map_length, app_length. cbn. lia.
    + intros b Hb.
      assert (Hin0 : In (@nil N) (row_symbols (fr_row (pos_focus q)))).
      { apply in_row_symbols. exists (Symbol []). split; [|left; reflexivity].
        assert (H1 : In (Symbol []) (map Symbol (syms ++ [last]))).
        { rewrite <- (firstn_skipn (pos_offset q - n) (map Symbol (syms ++ [last]))), Hb. rewrite !in_app_iff. left. right. left. reflexivity. }
        rewrite <- (firstn_skipn (pos_offset q) (fr_row (pos_focus q))), Hf, !in_app_iff. auto. }
      eapply Hne; [|reflexivity]. eapply row_get_symbols; [exact (canonical_row Gc)|exact Hin0].
    + rewrite Hms. cbn [bind]. rewrite (no_early_complete Hpa Hlne Hlt2 Hms). reflexivity.
Qed.

Lemma autocomplete_ok ed : sound env Q ed -> (forall s, Q (PartSymbol s) -> s <> []) -> Forall ascii_rule (env_rules env) ->
  exists x, get_autocomplete env ed = Ok x.
Proof.
  intros S Hq Hasc. destruct (sound_caret S) as (c&Hc). unfold get_autocomplete. rewrite Hc. cbn [bind].
  destruct (c_selection c) as [r|g] eqn:Es; [|eauto]. destruct (rg_is_collapsed r); [|eauto]. cbv zeta.
  pose proof (good_start (caret_row_good Hc Es)) as [Gc Go].
  destruct (@ascii_rules_total (env_rules env) (fr_row (pos_focus (rg_start_position r))) (pos_offset (rg_start_position r)) 2 Hasc Go) as (ms&Hms).
  { intros b Hb. assert (Hn : Q (PartSymbol [])); [|exact (Hq _ Hn eq_refl)].
    apply (proj2 (so_doc S)). eapply row_get_parts; [exact (canonical_row Gc)|]. apply in_row_parts. exists (Symbol []). split; [|left; reflexivity].
    rewrite <- (firstn_skipn (pos_offset (rg_start_position r)) (fr_row (pos_focus (rg_start_position r)))), Hb, !in_app_iff. left. right. left. reflexivity. }
  rewrite Hms. cbn [bind]. destruct (popup_total (ed_autocomplete ed) ms (pos_to_minimal (rg_start_position r))) as (cur&res&Hst&_).
  rewrite Hst. cbn. eauto.
Qed.

(** ** Removing nothing *)
Lemma remove_nothing ed a x q ed' ce : wf_row (ed_input ed) -> start_autocorrect env ed = Ok (set_autocomplete ed x, a) ->
  good_pos (ed_input ed) q -> ed_caret ed = collapsed (pos_to_minimal q) ->
  ce_edits ce = [ERow (mkRowEdit Delete (pos_to_minimal q) [])] -> ed_caret ed' = collapsed (pos_to_minimal q) -> ed_input ed' = ed_input ed ->
  finish_autocorrect env ed' a ce = Ok ed'.
Proof.
  intros Hwf Ha [Gc Go] Hc Hce Hc' Hi'. destruct a as [act|]; [|reflexivity].
  destruct (pending_token Hwf Ha) as (q'&n&s&Gq&Hcq&Hn1&Hn2&Hr&_).
  assert (Eq : pos_to_minimal q' = pos_to_minimal q) by (rewrite Hc in Hcq; apply (f_equal mc_start) in Hcq; symmetry; exact Hcq).
  assert (Er : pos_indices q' = pos_indices q /\ pos_offset q' = pos_offset q) by (split; [exact (f_equal mp_row Eq)|exact (f_equal mp_offset Eq)]). destruct Er as [Er1 Er2].
  rewrite Er1, Er2 in *. destruct act as [rule range]. cbn [ac_range] in Hr. subst range.
  unfold finish_autocorrect, autocorrect_finish. rewrite Hce. cbn [ac_range ac_rule]. unfold range_apply_edits. cbn [apply_edits].
  rewrite map_same_row by reflexivity. cbn [mr_start mr_end mr_row]. replace (pos_offset q <=? pos_offset q - n) with false by lia. cbn [bind].
  unfold right_map, left_map, del_pos. cbn [re_type re_pos re_values mp_offset pos_to_minimal]. rewrite Nat.ltb_irrefl.
  replace (pos_offset q <? pos_offset q - n) with false by lia. fold (pos_to_minimal q).
  apply apply_within with (t := pos_offset q); try lia; try (rewrite Hi'; auto).
  - exists (fr_row (pos_focus q)). cbn. split; [exact (canonical_row Gc)|]. lia.
  - exact Hc'.
Qed.

Lemma replaced_refl p r doc doc' : replaced p r r doc doc' -> doc' = doc.
Proof. intros H. remember r as r' eqn:E in H at 2. revert E. induction H; intros E; subst; auto. now rewrite IHreplaced. Qed.

(** ** Backspace and Delete *)
Lemma builder_ok ed ed0 es ca doc' : sound env Q ed -> ed_input ed0 = ed_input ed -> ed_undo ed0 = ed_undo ed -> ed_caret ed0 = ed_caret ed ->
  chain cfg (ed_input ed) es doc' -> proper Q doc' -> valid_caret doc' ca ->
  exists ed1, builder_finish env ed0 (ed_caret ed0) es ca = Ok (ed1, mkCaretEdit (ed_caret ed0) ca es) /\ sound env Q ed1 /\
    ed_input ed1 = doc' /\ ed_caret ed1 = ca.
Proof.
  intros S Ei Eu Ec C Hp Hv.
  assert (H : exists ed1, builder_finish env ed0 (ed_caret ed0) es ca = Ok (ed1, mkCaretEdit (ed_caret ed0) ca es) /\ ed_input ed1 = doc' /\ ed_caret ed1 = ca).
  { pose proof (chain_apply C) as Ha. unfold builder_finish. destruct es as [|e es].
    - inversion C; subst. eexists. split; [reflexivity|]. auto.
    - rewrite Ei. unfold cfg in Ha. rewrite Ha. cbn [bind]. eexists. split; [reflexivity|]. auto. }
  destruct H as (ed1&Hb&H1&H2). exists ed1. split; auto. split; auto. eapply sound_built; [exact S|..]; eauto.
Qed.

Lemma remove_core ed mode x a c r y : sound env Q ed -> start_autocorrect env ed = Ok (set_autocomplete ed x, a) ->
  caret_from_minimal (ed_input ed) (ed_caret ed) = Ok c -> c_selection c = SelRow r -> keeps_caret env ed (OpRemoveAtCaret mode) ->
  remove_at_caret cfg r mode = Ok y ->
  exists ed' b, editor_remove_at_caret env ed mode = Ok (ed', b) /\ sound env Q ed'.
Proof.
  intros S Ha Hc Hsel Hk Hy. pose proof (sound_wf S) as Hwf. pose proof (caret_row_good Hc Hsel) as G.
  assert (Hrm : editor_remove_at_caret env ed mode = match y with
     | None => Ok (set_autocomplete ed x, false)
     | Some (es, m) => ' (ed2, action) <- builder_finish env (set_autocomplete ed x) (ed_caret ed) es (mkMinCaret m m) ;;
                       ed3 <- finish_autocorrect env ed2 a action ;; Ok (ed3, true) end).
  { unfold editor_remove_at_caret. rewrite Ha. cbn [bind set_autocomplete ed_input ed_caret]. rewrite Hc. cbn [bind]. rewrite Hsel.
    fold cfg. rewrite Hy. cbn [bind]. destruct y as [[es m]|]; reflexivity. }
  assert (Ss : sound env Q (set_autocomplete ed x)) by (apply (sound_moved S); auto; apply S).
  destruct y as [[es m]|]; [|exists (set_autocomplete ed x), false; auto].
  assert (Hbuild : forall doc', chain cfg (ed_input ed) es doc' -> proper Q doc' -> valid_pos doc' m ->
     (forall ed2 ce, ed_input ed2 = doc' -> ed_caret ed2 = collapsed m -> ce_edits ce = es -> finish_autocorrect env ed2 a ce = Ok ed2) ->
     exists ed' b, editor_remove_at_caret env ed mode = Ok (ed', b) /\ sound env Q ed').
  { intros doc' C Hp Hv Hfin. destruct (@builder_ok ed (set_autocomplete ed x) es (mkMinCaret m m) doc' S) as (ed1&Hb&S1&H1&H2); auto.
    { split; auto. }
    rewrite Hrm. cbn [set_autocomplete ed_caret] in Hb. rewrite Hb. cbn [bind]. rewrite Hfin by auto. cbn [bind]. eauto. }
  unfold remove_at_caret in Hy. destruct (rg_is_collapsed r) eqn:Ecol; cbn [negb] in Hy.
  - destruct (collapsed_selection Hwf Hc Hsel Ecol) as [Hcar Gq]. set (q := rg_start_position r) in *.
    assert (Hpos : forall d, remove_dir mode = Some d -> remove_at_caret_position cfg q d = Ok (Some (es, m)) ->
       exists ed' b, editor_remove_at_caret env ed mode = Ok (ed', b) /\ sound env Q ed').
    { intros d Hd Hr.
      assert (Hnp : a = None -> exists ed' b, editor_remove_at_caret env ed mode = Ok (ed', b) /\ sound env Q ed').
      { intros ->. destruct (remove_position_removal Gq Hr) as (doc'&Hrem). destruct (removal_valid Hwf Gq Hrem (so_doc S)) as (C&P&V).
        apply (Hbuild doc'); auto. }
      destruct a as [act|]; [|now apply Hnp].
      assert (Hsym : forall i s, match d with HLeft => pos_offset q = Datatypes.S i | HRight => pos_offset q = i end ->
         node_get (ed_input ed) (pos_indices q) i = Some (Symbol s) -> exists ed' b, editor_remove_at_caret env ed mode = Ok (ed', b) /\ sound env Q ed').
      { intros i s Hi Hn. destruct (@symbol_remove_advanced _ env ed (pos_to_minimal q) mode d i s Hwf Hcar) as (ed2&ce&Hs&Hrep&Hc2&Hadv&Hb&Haf); auto.
        { unfold start_autocorrect in Ha. apply bind_ok in Ha as (z&Hz&_). eauto. }
        cbn [step] in Hs. apply bind_ok in Hs as ([ed3 b]&Hs&Heq). inv Heq. exists ed2, b. split; auto.
        assert (Hv2 : valid_caret (ed_input ed2) (ed_caret ed2)).
        { rewrite Hc2. cbn [pos_to_minimal mp_row] in *. split; cbn [collapsed mc_start mc_end]; apply (nodes_replaced_valid Hrep); cbn; lia. }
        apply (sound_advanced S Hadv Hb); auto.
        - exact (proper_nodes_replaced Hrep (so_doc S) (proper_nil Q)).
        - now rewrite Haf. }
      destruct d.
      - destruct (pending_token Hwf Ha) as (q'&n&s&[Gc' Go']&Hcq&Hn1&Hn2&_&Hnth).
        rewrite Hcar in Hcq. apply (f_equal mc_start) in Hcq. cbn [collapsed mc_start] in Hcq.
        apply (Hsym (pos_offset q' - 1) s).
        + pose proof (f_equal mp_offset Hcq) as E. cbn in E. unfold q in *. cbn in *. lia.
        + pose proof (f_equal mp_row Hcq) as E. cbn [pos_to_minimal mp_row] in E. rewrite E. unfold node_get.
          pose proof (canonical_row Gc') as Hr'. unfold pos_indices. rewrite Hr'. exact Hnth.
      - destruct mode; try discriminate Hd. cbn [keeps_caret] in Hk. destruct Hk as [Hk|(q'&s&Hcq&Hn)].
        + pose proof (not_pending Hk Ha). discriminate.
        + rewrite Hcar in Hcq. apply (f_equal mc_start) in Hcq. cbn [collapsed mc_start] in Hcq. subst q'.
          apply (Hsym (pos_offset q) s); auto. }
    destruct mode; [apply (Hpos HLeft); auto|apply (Hpos HRight); auto|].
    apply bind_ok in Hy as ([es' m']&Hrr&Hy). inv Hy.
    destruct (remove_range_replaces cfg G Hrr) as (doc'&C&Hrep&Em&_).
    assert (El : rg_left r = pos_offset q /\ rg_right r = pos_offset q).
    { unfold rg_is_collapsed in Ecol. apply Nat.eqb_eq in Ecol. rewrite rg_left_min, rg_right_max. unfold q. cbn. lia. }
    destruct El as [El Er].
    assert (Ed : doc' = ed_input ed).
    { destruct Hrep as (row&_&_&Hrep). rewrite El, Er in Hrep. cbn [app] in Hrep. rewrite firstn_skipn in Hrep. exact (replaced_refl Hrep). }
    subst doc'. assert (Em2 : m = pos_to_minimal q) by (rewrite Em, El; reflexivity).
    apply (Hbuild (ed_input ed)); auto; [apply S|rewrite Em2; now apply good_pos_valid|].
    intros ed2 ce H1 H2 H3. eapply (remove_nothing (ed := ed) (q := q)); eauto; [|congruence].
    rewrite H3. rewrite (remove_range_eq G) in Hrr. inv Hrr. unfold rg_nodes. rewrite El, Er, Nat.sub_diag. reflexivity.
  - apply bind_ok in Hy as ([es' m']&Hrr&Hy). inv Hy.
    destruct (remove_range_replaces cfg G Hrr) as (doc'&C&Hrep&->&_).
    assert (a = None) as ->.
    { eapply not_pending; [|exact Ha]. apply (@not_collapsed_not_pending _ env ed (rg_to_minimal r)).
      - unfold get_caret. rewrite Hc. cbn [bind]. rewrite Hsel. reflexivity.
      - unfold rg_is_collapsed in Ecol. apply Nat.eqb_neq in Ecol. exact Ecol. }
    apply (Hbuild doc'); auto.
    + exact (proper_nodes_replaced Hrep (so_doc S) (proper_nil Q)).
    + apply (nodes_replaced_valid Hrep). lia.
Qed.

(** ** One operation *)
Lemma sound_start ed ed0 a : sound env Q ed -> start_autocorrect env ed = Ok (ed0, a) ->
  sound env Q ed0 /\ ed_input ed0 = ed_input ed /\ ed_caret ed0 = ed_caret ed /\ ed_undo ed0 = ed_undo ed.
Proof.
  intros S Ha. destruct (start_autocorrect_only Ha) as (x&->). split; [|auto]. apply (sound_moved S); auto. apply S.
Qed.
Lemma insert_sound ed x a m vs ed2 ce : sound env Q ed -> proper Q vs -> get_caret ed = Ok (MSelRow m) ->
  start_autocorrect env ed = Ok (set_autocomplete ed x, a) ->
  insert_nodes_at_caret env (set_autocomplete ed x) vs = Ok (ed2, ce) -> sound env Q ed2 /\
  match ce with Some ce => finish_autocorrect env ed2 a ce = Ok ed2 | None => False end.
Proof.
  intros S Hvs Hg Ha Hi. destruct (insert_settles (sound_wf S) (proj1 Hvs) Hg Ha) as (ed3&ce'&Hi'&Hfin&Hrep&Hc&Hadv&Haf&Hbe).
  rewrite Hi in Hi'. inv Hi'. split; auto.
  assert (V : valid_caret (ed_input ed3) (ed_caret ed3)).
  { rewrite Hc. split; cbn [collapsed mc_start mc_end]; apply (nodes_replaced_valid Hrep); lia. }
  apply (sound_advanced S Hadv Hbe); auto; [exact (proper_nodes_replaced Hrep (so_doc S) Hvs)|now rewrite Haf].
Qed.
Lemma row_caret ed c r : caret_from_minimal (ed_input ed) (ed_caret ed) = Ok c -> c_selection c = SelRow r -> get_caret ed = Ok (MSelRow (rg_to_minimal r)).
Proof. intros Hc Hs. unfold get_caret. rewrite Hc. cbn [bind]. rewrite Hs. reflexivity. Qed.

Hypothesis Hrules : forall rule, In rule (env_rules env) -> proper Q (rule_result rule).

Lemma step_sound ed op ed' out : sound env Q ed -> proper_args Q env ed op -> keeps_caret env ed op -> step env ed op = Ok (ed', out) -> sound env Q ed'.
Proof.
  intros S Hargs Hk H. pose proof (sound_wf S) as Hwf.
  destruct op as [d mode|d mode|mode|vs| | | |p mode|p| | |data json| |accept|d| | |range vs]; cbn [step] in H; cbn [proper_args keeps_caret] in *.
  - apply bind_ok in H as (ed1&H&E). inv E. unfold move_caret in H. apply bind_ok in H as ([ed0 a]&Ha&H).
    destruct (sound_start S Ha) as (S0&Ei&Ec&Eu). rewrite Ei, Ec in H. apply bind_ok in H as (c&Hc&H). apply bind_ok in H as (c'&Hc'&H).
    cbn [builder_finish bind] in H. apply (token_settles (ed1 := set_caret ed0 (caret_to_minimal c')) (ce := mkCaretEdit (ed_caret ed) (caret_to_minimal c') []) Hwf Ha) in H; auto. subst ed'.
    apply (sound_moved S); auto. exact (nav_good Hwf Hc Hc').
  - apply bind_ok in H as ([ed1 b]&H&E). inv E. unfold select_with_caret in H. apply bind_ok in H as ([ed0 a]&Ha&H).
    destruct (sound_start S Ha) as (S0&Ei&Ec&Eu). rewrite Ei, Ec in H. apply bind_ok in H as (c&Hc&H).
    destruct (c_selection c) as [r|g] eqn:Es; [|discriminate]. apply bind_ok in H as (ne&Hne&H). destruct ne as [ne|]; [|inv H; exact S0].
    cbn [builder_finish bind] in H. apply bind_ok in H as (ed2&H&E). inv E.
    set (ca := mkMinCaret _ _) in *.
    apply (token_settles (ed1 := set_caret ed0 ca) (ce := mkCaretEdit (ed_caret ed) ca []) Hwf Ha) in H; auto. subst ed'.
    apply (sound_moved S); auto. split; [apply S|]. cbn. apply good_pos_valid. eapply move_good; [exact Hwf| |exact Hne].
    apply range_of_pos_good. destruct (caret_row_good Hc Es) as (G1&G2&G3). split; auto.
  - apply bind_ok in H as ([ed1 b]&H&E). inv E. pose proof H as H0. unfold editor_remove_at_caret in H. apply bind_ok in H as ([ed0 a]&Ha&H).
    destruct (start_autocorrect_only Ha) as (x&->). cbn [set_autocomplete ed_input ed_caret] in H. apply bind_ok in H as (c&Hc&H).
    destruct (c_selection c) as [r|g] eqn:Es; [|discriminate]. apply bind_ok in H as (y&Hy&_).
    destruct (remove_core S Ha Hc Es Hk Hy) as (ed2&b2&Hr&S2). rewrite H0 in Hr. inv Hr. exact S2.
  - apply bind_ok in H as (ed1&H&E). inv E. unfold insert_at_caret in H. apply bind_ok in H as ([ed0 a]&Ha&H).
    destruct (start_autocorrect_only Ha) as (x&->). apply bind_ok in H as ([ed2 ce]&Hi&H).
    assert (exists m, get_caret ed = Ok (MSelRow m)) as (m&Hg).
    { unfold insert_nodes_at_caret in Hi. cbn [set_autocomplete ed_input ed_caret] in Hi. apply bind_ok in Hi as (c&Hc&Hi).
      destruct (c_selection c) as [r|g] eqn:Es; [|discriminate]. eauto using row_caret. }
    destruct (insert_sound S (proper_symbols Hargs) Hg Ha Hi) as [S2 Hf]. destruct ce as [ce|]; [|tauto]. rewrite Hf in H. inv H. exact S2.
  - inv H. apply (sound_moved S); auto. split; cbn; (eexists; split; [reflexivity|cbn; lia]).
  - apply bind_ok in H as ([ed1 b]&H&E). inv E. eapply undo_sound; eauto.
  - apply bind_ok in H as ([ed1 b]&H&E). inv E. eapply redo_sound; eauto.
  - apply bind_ok in H as (ed1&H&E). inv E. unfold start_selection in H. apply bind_ok in H as ([ed0 a]&Ha&H).
    set (eds := set_selection_mode ed (Some mode)) in *.
    assert (Ss : sound env Q eds) by (apply (sound_moved S); auto; apply S).
    destruct (sound_start Ss Ha) as (S0&Ei&Ec&Eu). cbn [builder_finish bind] in H.
    apply (token_settles (ed1 := set_caret ed0 (mkMinCaret p p)) (ce := mkCaretEdit (ed_caret ed0) (mkMinCaret p p) []) (sound_wf Ss) Ha) in H; auto.
    2:{ intros Ht. apply Hk. eapply token_due_mode; exact Ht. }
    subst ed'. apply (sound_moved Ss); auto. split; exact Hargs.
  - apply bind_ok in H as (ed1&H&E). inv E. unfold extend_selection in H. apply bind_ok in H as ([ed0 a]&Ha&H).
    destruct (sound_start S Ha) as (S0&Ei&Ec&Eu). cbn [builder_finish bind] in H. set (ca := mkMinCaret _ _) in *.
    apply (token_settles (ed1 := set_caret ed0 ca) (ce := mkCaretEdit (ed_caret ed0) ca []) Hwf Ha) in H; auto. subst ed'.
    apply (sound_moved S); auto. unfold ca. rewrite Ec. split; [apply S|exact Hargs].
  - inv H. apply (sound_moved S); auto. apply S.
  - apply bind_ok in H as (s&H&E). inv E. exact S.
  - apply bind_ok in H as ([ed1 b]&H&E). inv E. unfold paste in H. apply bind_ok in H as ([ed0 a]&Ha&H).
    destruct json; [|discriminate]. cbn [negb] in H. destruct (env_deserialize env data) as [nodes|] eqn:Ed.
    2:{ inv H. eapply sound_start; eauto. }
    destruct (start_autocorrect_only Ha) as (x&->). apply bind_ok in H as ([ed2 ce]&Hi&H).
    assert (exists m, get_caret ed = Ok (MSelRow m)) as (m&Hg).
    { unfold insert_nodes_at_caret in Hi. cbn [set_autocomplete ed_input ed_caret] in Hi. apply bind_ok in Hi as (c&Hc&Hi).
      destruct (c_selection c) as [r|g] eqn:Es; [|discriminate]. eauto using row_caret. }
    destruct (insert_sound S (Hargs _ eq_refl) Hg Ha Hi) as [S2 Hf]. destruct ce as [ce|]; [|tauto]. rewrite Hf in H. cbn in H. inv H. exact S2.
  - apply bind_ok in H as ([ed1 b]&H&E). inv E. unfold open_autocomplete in H. apply bind_ok in H as ([ed2 r]&H&E). inv E.
    destruct (get_autocomplete_only H) as (x&->). apply (sound_moved S); auto. apply S.
  - apply bind_ok in H as ([ed1 b]&H&E). inv E. unfold finish_autocomplete in H. destruct accept; cbn [negb] in H; [|inv H; exact S].
    apply bind_ok in H as ([ed2 r]&Hg&H). destruct (get_autocomplete_only Hg) as (x&->).
    assert (Ss : sound env Q (set_autocomplete ed x)) by (apply (sound_moved S); auto; apply S).
    destruct r as [r|]; [|inv H; exact Ss]. apply bind_ok in H as (m&Hm&H). cbv zeta in H. apply bind_ok in H as (ed3&Hs&H). inv H.
    unfold get_selected in Hm. apply unwrap_ok in Hm.
    destruct (popup_match Hwf Hg (nth_error_In _ _ Hm)) as (q&before&syms&last&rest&_&Hcar&Hp&_&Hin&_).
    specialize (Hk _ _ _ _ Hg Hm Hcar).
    assert (Er : get_caret_range r m = token (pos_to_minimal q) (m_input_match_length m)) by (unfold get_caret_range, token; rewrite Hp; reflexivity).
    rewrite Er in Hs. apply (splice_sound Ss Hs); cbn [set_autocomplete ed_input ed_caret]; rewrite ?Hcar; auto.
  - apply bind_ok in H as ([ed1 b]&H&E). inv E. unfold move_in_autocomplete in H. apply bind_ok in H as ([ed2 r]&Hg&H).
    destruct (get_autocomplete_only Hg) as (x&->). destruct r as [r|]; [|inv H; apply (sound_moved S); auto; apply S].
    apply bind_ok in H as (m&Hm&H). inv H. apply (sound_moved S); auto. apply S.
  - apply bind_ok in H as (c&H&E). inv E. exact S.
  - apply bind_ok in H as ([ed1 t]&H&E). inv E. destruct (parse_step H) as (p&->). apply (sound_moved S); auto. apply S.
  - apply bind_ok in H as (ed1&H&E). inv E. destruct Hargs as [_ Hvs]. destruct Hk as [K1 K2]. exact (splice_sound S H Hvs K1 K2).
Qed.

Hypothesis Hascii : Forall ascii_rule (env_rules env).
Hypothesis Hnonempty : forall s, Q (PartSymbol s) -> s <> [].

Lemma step_total ed op : sound env Q ed -> proper_args Q env ed op -> keeps_caret env ed op -> avoids_panic env ed op ->
  exists x, step env ed op = Ok x.
Proof.
  intros S Hargs Hk Hav. pose proof (sound_wf S) as Hwf.
  destruct (autocomplete_ok S Hnonempty Hascii) as ([ed0 res]&Hauto). destruct (start_autocorrect_ok Hauto) as (a&Ha&_).
  destruct (sound_start S Ha) as (S0&Ei&Ec&Eu). destruct (start_autocorrect_only Ha) as (x&Ex).
  assert (Hsym : forall s, In s (row_symbols (ed_input ed)) -> s <> []).
  { intros s Hs. apply Hnonempty, (proj2 (so_doc S)). now apply symbols_parts. }
  assert (Hrow : row_selected ed -> exists c r, caret_from_minimal (ed_input ed) (ed_caret ed) = Ok c /\ c_selection c = SelRow r /\
     good_range (ed_input ed) r /\ get_caret ed = Ok (MSelRow (rg_to_minimal r))).
  { intros (m&Hm). destruct (get_caret_row Hm) as (c&r&Hc&Hs&G&E). exists c, r. rewrite E. auto. }
  destruct op as [d mode|d mode|mode|vs| | | |p mode|p| | |data json| |accept|d| | |range vs]; cbn [step]; cbn [proper_args keeps_caret avoids_panic] in *.
  - destruct Hav as [-> Hz]. unfold move_caret. rewrite Ha. cbn [bind]. rewrite Ei, Ec.
    destruct (sound_caret S) as (c&Hc). rewrite Hc. cbn [bind].
    assert (exists c', nav_move_caret cfg (ed_input ed) c d MChar = Ok c') as (c'&Hc').
    { unfold nav_move_caret. destruct (c_selection c) as [r|g] eqn:Es; [|eauto]. pose proof (caret_row_good Hc Es) as G.
      destruct (@move_range_ok cfg (ed_input ed) r d Hwf G) as (p&Hp&Gp).
      { intros H1 H2. rewrite rg_left_position_minimal. apply Hz; auto. eapply row_caret; eauto. }
      rewrite Hp. cbn [bind]. destruct p as [p|]; [|eauto].
      replace (caret_set_selection (ed_input ed) c (range_of_pos p)) with (caret_new (ed_input ed) p p) by (destruct p; reflexivity).
      rewrite caret_new_collapsed by auto. eauto. }
    pose proof Hc' as Hn. unfold cfg in Hn. rewrite Hn. cbn [bind builder_finish].
    rewrite (proj2 (token_settles (ed1 := set_caret ed0 (caret_to_minimal c')) (ce := mkCaretEdit (ed_caret ed) (caret_to_minimal c') []) Hwf Ha Ei Hk eq_refl)); auto.
    + cbn. eauto.
    + exact (nav_good Hwf Hc Hc').
  - destruct Hav as (->&Hr&Hz). destruct (Hrow Hr) as (c&r&Hc&Hs&G&Hg). unfold select_with_caret. rewrite Ha. cbn [bind]. rewrite Ei, Ec, Hc. cbn [bind].
    rewrite Hs. assert (Ge : good_pos (ed_input ed) (rg_end_position r)) by (destruct G as (G1&G2&G3); split; auto).
    assert (Hl : rg_left_position (range_of_pos (rg_end_position r)) = rg_end_position r).
    { unfold rg_left_position, rg_left, rg_is_forwards. cbn. rewrite Nat.leb_refl. reflexivity. }
    destruct (@move_range_ok cfg (ed_input ed) (range_of_pos (rg_end_position r)) d Hwf (range_of_pos_good Ge)) as (p&Hp&Gp).
    { intros H1 H2. rewrite Hl. apply (Hz H1 H2 _ Hg). }
    unfold cfg in Hp. rewrite Hp. cbn [bind]. destruct p as [p|]; [|cbn; eauto]. cbn [builder_finish bind].
    set (ca := mkMinCaret _ _).
    rewrite (proj2 (token_settles (ed1 := set_caret ed0 ca) (ce := mkCaretEdit (ed_caret ed) ca []) Hwf Ha Ei Hk eq_refl)); auto.
    + cbn. eauto.
    + unfold ca. split; [apply S|now apply good_pos_valid].
  - destruct Hav as [Hr Hz]. destruct (Hrow Hr) as (c&r&Hc&Hs&G&Hg). subst ed0.
    assert (exists y, remove_at_caret cfg r mode = Ok y) as (y&Hy).
    { unfold remove_at_caret. destruct (rg_is_collapsed r) eqn:Ecol; cbn [negb]; [|rewrite (remove_range_eq G); cbn; eauto].
      destruct (collapsed_selection Hwf Hc Hs Ecol) as [Hcar Gq].
      destruct mode; [| |rewrite (remove_range_eq G); cbn; eauto]; apply (remove_position_ok Hwf Gq); intros Ho; specialize (Hz Ho _ Hcar); exact Hz. }
    destruct (remove_core S Ha Hc Hs Hk Hy) as (ed2&b&Hrm&_). rewrite Hrm. cbn. eauto.
  - destruct (Hrow Hav) as (c&r&Hc&Hs&G&Hg). unfold insert_at_caret. rewrite Ha. subst ed0. cbn [bind].
    destruct (insert_settles Hwf (wf_symbols (vs := vs)) Hg Ha) as (ed2&ce&Hi&Hfin&_). rewrite Hi. cbn [bind]. rewrite Hfin. cbn. eauto.
  - eauto.
  - destruct (undo_ok S) as ([ed1 b]&H). rewrite H. cbn. eauto.
  - destruct (redo_ok S) as ([ed1 b]&H). rewrite H. cbn. eauto.
  - unfold start_selection. set (eds := set_selection_mode ed (Some mode)).
    assert (Ss : sound env Q eds) by (apply (sound_moved S); auto; apply S).
    destruct (autocomplete_ok Ss Hnonempty Hascii) as ([ed1 res1]&Hauto1). destruct (start_autocorrect_ok Hauto1) as (a1&Ha1&_). rewrite Ha1. cbn [bind builder_finish].
    destruct (sound_start Ss Ha1) as (_&Ei1&_).
    rewrite (proj2 (token_settles (ed1 := set_caret ed1 (mkMinCaret p p)) (ce := mkCaretEdit (ed_caret ed1) (mkMinCaret p p) []) (sound_wf Ss) Ha1 Ei1 (fun Ht => Hk (token_due_mode Ht)) eq_refl)); auto.
    + cbn. eauto.
    + split; exact Hargs.
  - unfold extend_selection. rewrite Ha. cbn [bind builder_finish]. set (ca := mkMinCaret _ _).
    rewrite (proj2 (token_settles (ed1 := set_caret ed0 ca) (ce := mkCaretEdit (ed_caret ed0) ca []) Hwf Ha Ei Hk eq_refl)); auto.
    + cbn. eauto.
    + unfold ca. cbn [set_caret ed_caret]. rewrite Ec. split; [apply S|exact Hargs].
  - eauto.
  - destruct (Hrow Hav) as (c&r&Hc&Hs&G&Hg). unfold copy. rewrite Hc. cbn [bind]. rewrite Hs, (rg_values_eq G). cbn. eauto.
  - destruct Hav as [-> Hav]. destruct (Hrow Hav) as (c&r&Hc&Hs&G&Hg). unfold paste. rewrite Ha. cbn [bind negb].
    destruct (env_deserialize env data) as [nodes|]; [|cbn; eauto]. subst ed0. destruct (Hargs _ eq_refl) as [Hwn _].
    destruct (insert_settles Hwf Hwn Hg Ha) as (ed2&ce&Hi&Hfin&_). rewrite Hi. cbn [bind]. rewrite Hfin. cbn. eauto.
  - unfold open_autocomplete. rewrite Hauto. cbn. eauto.
  - unfold finish_autocomplete. destruct accept; cbn [negb]; [|cbn; eauto]. rewrite Hauto. cbn [bind]. destruct res as [r|]; [|cbn; eauto].
    destruct (popup_selected Hauto) as (m&Hm). unfold get_selected. rewrite Hm. cbn [unwrap bind]. cbv zeta.
    destruct (popup_match Hwf Hauto (nth_error_In _ _ Hm)) as (q&before&syms&last&rest&[Gc Go]&Hcar&Hp&Hf&Hin&_&_&Em&_).
    specialize (Hk _ _ _ _ Hauto Hm Hcar).
    assert (Er : get_caret_range r m = token (pos_to_minimal q) (m_input_match_length m)) by (unfold get_caret_range, token; rewrite Hp; reflexivity).
    rewrite Er. destruct (@splice_total _ env Q ed0 (token (pos_to_minimal q) (m_input_match_length m)) (rule_result (m_rule m)) S0) as (ed2&Hs).
    + rewrite Ei. exists (fr_row (pos_focus q)). split; [exact (canonical_row Gc)|]. cbn. lia.
    + rewrite Ei, Ec, Hcar. exact Hk.
    + rewrite Ei, Ec, Hcar. exact Hk.
    + rewrite Hs. cbn. eauto.
  - unfold move_in_autocomplete. rewrite Hauto. cbn [bind]. destruct res as [r|]; [|cbn; eauto].
    assert (exists m, get_selected (move_selection r d) = Ok m) as (m&Hm).
    { destruct (popup_selected Hauto) as (m&Hm).
      assert (Hl : ar_selected r < length (ar_matches r)) by (apply nth_error_Some; congruence).
      destruct (move_selection_spec d Hl) as (E1&_&E2&_). unfold get_selected. rewrite E1.
      destruct (nth_error (ar_matches r) (ar_selected (move_selection r d))) as [m'|] eqn:E; [cbn; eauto|]. apply nth_error_None in E. lia. }
    rewrite Hm. cbn. eauto.
  - destruct (sound_get_caret S) as (sel&Hs). rewrite Hs. cbn. eauto.
  - destruct Hav as (t&Ht). unfold get_syntax_tree. destruct (ed_parsed ed); [cbn; eauto|]. rewrite Ht. cbn. eauto.
  - destruct Hargs as [Hv Hp]. destruct Hk as [K1 K2]. destruct (splice_total S Hv K1 K2) as (ed2&Hs). rewrite Hs. cbn. eauto.
Qed.

(** ** Whole runs *)
Lemma run_sound ops : forall ed ed', sound env Q ed -> all_along env (fun ed op => proper_args Q env ed op /\ keeps_caret env ed op) ed ops ->
  run env ed ops = Ok ed' -> sound env Q ed'.
Proof.
  induction ops as [|op ops IH]; cbn [run all_along]; intros ed ed' S H Hr; [now inv Hr|]. destruct H as [[H1 H2] H].
  apply bind_ok in Hr as ([ed1 out]&Hs&Hr). eapply IH; [|eapply H; eauto|exact Hr]. eapply step_sound; eauto.
Qed.
Lemma run_total ops : forall ed, sound env Q ed ->
  all_along env (fun ed op => proper_args Q env ed op /\ keeps_caret env ed op /\ avoids_panic env ed op) ed ops ->
  exists ed', run env ed ops = Ok ed' /\ sound env Q ed'.
Proof.
  induction ops as [|op ops IH]; cbn [run all_along]; intros ed S H; [eauto|]. destruct H as [(H1&H2&H3) H].
  destruct (step_total S H1 H2 H3) as ([ed1 out]&Hs). rewrite Hs. cbn [bind]. apply IH; [|eapply H; eauto]. eapply step_sound; eauto.
Qed.
End Ed.

(** The caret stays valid. *)
Lemma caret_stays (SyntaxNode : Type) (env : Env SyntaxNode) ops ed :
  (forall rule, In rule (env_rules env) -> wf_row (rule_result rule)) ->
  all_along env (fun ed op => proper_args any_part env ed op /\ keeps_caret env ed op) (@editor_new SyntaxNode) ops ->
  run env (@editor_new SyntaxNode) ops = Ok ed ->
  wf_row (ed_input ed) /\ valid_caret (ed_input ed) (ed_caret ed) /\ exists sel, get_caret ed = Ok sel.
Proof.
  intros Hr H Hrun.
  assert (S : sound env any_part ed).
  { eapply run_sound; [|apply sound_new|exact H|exact Hrun]. intros rule Hin. split; auto. intros; exact I. }
  split; [apply S|]. split; [apply S|]. exact (sound_get_caret S).
Qed.
(** No panics. *)
Lemma editor_total (SyntaxNode : Type) (env : Env SyntaxNode) ops :
  Forall ascii_rule (env_rules env) -> (forall rule, In rule (env_rules env) -> proper nonempty (rule_result rule)) ->
  all_along env (fun ed op => proper_args nonempty env ed op /\ keeps_caret env ed op /\ avoids_panic env ed op) (@editor_new SyntaxNode) ops ->
  exists ed, run env (@editor_new SyntaxNode) ops = Ok ed /\ valid_caret (ed_input ed) (ed_caret ed).
Proof.
  intros Ha Hr H. destruct (@run_total _ env nonempty Hr Ha (fun s h => h) ops _ (sound_new env nonempty) H) as (ed&Hrun&S).
  exists ed. split; auto. apply S.
Qed.

Lemma all_along_impl (SyntaxNode : Type) (env : Env SyntaxNode) (P P' : MathEditor SyntaxNode -> Op -> Prop) ops :
  (forall ed op, P ed op -> P' ed op) -> forall ed, all_along env P ed ops -> all_along env P' ed ops.
Proof.
  intros HP. induction ops as [|op ops IH]; cbn [all_along]; intros ed H; auto. destruct H as [H1 H2]. split; [auto|].
  intros ed' out Hs. apply IH. eauto.
Qed.
Lemma proper_args_any Q (SyntaxNode : Type) (env : Env SyntaxNode) ed op : proper_args Q env ed op -> proper_args any_part env ed op.
Proof.
  assert (Hp : forall vs, proper Q vs -> proper any_part vs) by (intros vs [H _]; split; [exact H|intros; exact I]).
  destruct op; cbn [proper_args]; auto.
  - intros _ s _. exact I.
  - intros [H1 H2]. auto.
Qed.
