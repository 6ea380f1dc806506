(** Extending a selection with Shift and an arrow key. *)
From Coq Require Import Sorting.Sorted.
From Verif Require Import Base Str Grid Node Focus Edit Caret Autocomplete Editor Spec SpecAuto SpecEditor SpecMove SpecSafety SpecSelect BaseFacts
  TreeFacts OrderFacts EditFacts TreeProofs MoveFacts MoveProofs SpecTrack TrackFacts AutoFacts PopupFacts EditorFacts HistoryFacts
  OpFacts SpliceFacts TypingFacts SafetyFacts SafetyProofs.
Set Implicit Arguments.
Unset Strict Implicit.

(** ** Spans *)
Lemma rowindex_dec (x y : RowIndex) : x = y \/ x <> y.
Proof. destruct (rowindex_cmp x y) eqn:E; [left; now apply rowindex_cmp_eq|right|right]; intros ->; rewrite rowindex_cmp_refl in E; discriminate. Qed.
Lemma span_row a b : prefix (mr_row (span a b)) (mp_row a) /\ prefix (mr_row (span a b)) (mp_row b).
Proof.
  revert b; induction a as [o|x a IH] using pos_ind; intros b; destruct (pos_cases b) as [E|(y&b'&E)]; rewrite E; clear E.
  - rewrite span_here_here. split; eexists; reflexivity.
  - rewrite span_here_below. split; eexists; reflexivity.
  - rewrite span_below_here. split; eexists; reflexivity.
  - destruct (rowindex_dec x y) as [<-|Hne].
    + rewrite span_below. destruct (IH b') as [[s H1] [t H2]]. split; [exists s|exists t]; unfold below; cbn [mp_row mr_row app]; f_equal; assumption.
    + rewrite span_diff by auto. destruct (rowindex_cmp x y); split; eexists; reflexivity.
Qed.
(** The start of the span is the anchor itself, or next to the container with it. *)
Lemma span_start a b : mp_row a = mr_row (span a b) /\ mp_offset a = mr_start (span a b) \/
  exists x r, mp_row a = mr_row (span a b) ++ x :: r /\
    (mr_start (span a b) < mr_end (span a b) -> mr_start (span a b) = fst x) /\
    (mr_end (span a b) < mr_start (span a b) -> mr_start (span a b) = fst x + 1).
Proof.
  revert b; induction a as [o|x a IH] using pos_ind; intros b; destruct (pos_cases b) as [E|(y&b'&E)]; rewrite E; clear E.
  - rewrite span_here_here. now left.
  - rewrite span_here_below. now left.
  - rewrite span_below_here. right. exists x, (mp_row a). split; [reflexivity|]. cbn. destruct (_ <=? _) eqn:?; split; lia.
  - destruct (rowindex_dec x y) as [<-|Hne].
    + rewrite span_below. unfold below; cbn [mp_row mp_offset mr_row mr_start mr_end app]. destruct (IH b') as [(H1&H2)|(z&r&H1&H2&H3)].
      * left. split; [now f_equal|exact H2].
      * right. exists z, r. split; [now f_equal|auto].
    + rewrite span_diff by auto. right. exists x, (mp_row a). 
      destruct (rowindex_cmp x y) eqn:Ec; cbn; (split; [reflexivity|]).
      * apply rowindex_cmp_eq in Ec. congruence.
      * apply rowindex_cmp_lt in Ec. split; lia.
      * apply rowindex_cmp_gt in Ec. split; lia.
Qed.
Lemma span_to_row a p o : mp_row a = p -> span a (mkMinPos p o) = mkMinRange p (mp_offset a) o.
Proof.
  revert a; induction p as [|x p IH]; intros a H; destruct (pos_cases a) as [E|(y&a'&E)]; rewrite E in *; try discriminate.
  - reflexivity.
  - cbn in H. injection H as -> H. specialize (IH _ H). change (mkMinPos (x :: p) o) with (below x (mkMinPos p o)).
    rewrite span_below, IH. reflexivity.
Qed.
Lemma span_to_row_below a p x r o : mp_row a = p ++ x :: r ->
  span a (mkMinPos p o) = mkMinRange p (if o <=? fst x then fst x + 1 else fst x) o.
Proof.
  revert a; induction p as [|z p IH]; intros a H; destruct (pos_cases a) as [E|(y&a'&E)]; rewrite E in *; try discriminate.
  - cbn in H. injection H as -> H. apply span_below_here.
  - cbn in H. injection H as -> H. specialize (IH _ H). change (mkMinPos (z :: p) o) with (below z (mkMinPos p o)).
    rewrite span_below, IH. reflexivity.
Qed.
Lemma valid_container doc a p x r : valid_pos doc a -> mp_row a = p ++ x :: r ->
  exists v g, node_get doc p (fst x) = Some (Container v g).
Proof.
  intros (row&Hr&_) H. rewrite H, row_get_app in Hr. unfold node_get. destruct (row_get doc p) as [q|]; [|discriminate].
  cbn in Hr. destruct x as [i j]. cbn. destruct (nth_error q i) as [[v g|s]|]; try discriminate. eauto.
Qed.

(** ** The next position *)
Lemma follows_lt doc a b : next_in (positions doc) a b -> pos_lt a b.
Proof. intros (l1&l2&H). apply (@sorted_before (positions doc)); [apply sorted_positions|]. exists l1, [], l2. exact H. Qed.
Lemma follows_valid doc a b : next_in (positions doc) a b -> valid_pos doc a /\ valid_pos doc b.
Proof. intros (l1&l2&H). split; apply in_positions_valid; rewrite H; apply in_or_app; right; cbn; auto. Qed.

(** ** One key press *)
Section WithSyntaxNode.
Variable SyntaxNode : Type.
Variable env : Env SyntaxNode.
Implicit Type ed : MathEditor SyntaxNode.
Let cfg := env_cfg env.

Lemma caret_span ed m : wf_row (ed_input ed) -> get_caret ed = Ok (MSelRow m) ->
  valid_caret (ed_input ed) (ed_caret ed) /\ m = span (mc_start (ed_caret ed)) (mc_end (ed_caret ed)).
Proof.
  intros Hwf H. destruct (get_caret_row H) as (c&r&Hc&Hs&G&<-). pose proof (caret_from_minimal_inv Hc) as (Gs&Ge&Hm).
  assert (V : valid_caret (ed_input ed) (ed_caret ed)) by (rewrite <- Hm; split; now apply good_pos_valid).
  split; auto. destruct V as [V1 V2]. destruct (caret_from_minimal_ok Hwf V1 V2) as (c'&Hc'&_&_&_&Hsel).
  rewrite Hc in Hc'. inv Hc'. rewrite Hs in Hsel. apply Hsel.
Qed.
(** The caret can be read when its ends are valid. *)
Lemma caret_row ed : wf_row (ed_input ed) -> valid_caret (ed_input ed) (ed_caret ed) ->
  (forall p i g j j', ~ in_table_cells (ed_input ed) (mc_start (ed_caret ed)) (mc_end (ed_caret ed)) p i g j j') ->
  get_caret ed = Ok (MSelRow (span (mc_start (ed_caret ed)) (mc_end (ed_caret ed)))).
Proof.
  intros Hwf [V1 V2] Ht. destruct (caret_from_minimal_ok Hwf V1 V2) as (c&Hc&_&_&_&Hsel). unfold get_caret. rewrite Hc. cbn [bind].
  destruct (c_selection c) as [r|r]; cbn [bind]; destruct Hsel as (A&B).
  - destruct B as [_ <-]. reflexivity.
  - destruct B as (i&g&j&j'&B&_). elim (Ht _ _ _ _ _ B).
Qed.

Lemma select_step ed d m : wf_row (ed_input ed) -> get_caret ed = Ok (MSelRow m) ->
  (exists x, get_autocomplete env ed = Ok x) -> ~ autocorrect_pending env ed ->
  d = DLeft \/ d = DRight -> ~ underflows cfg d (range_end m) ->
  exists ed', ed_input ed' = ed_input ed /\
    (step env ed (OpSelectWithCaret d MChar) = Ok (ed', OutNo _) /\ ed_caret ed' = ed_caret ed /\ range_end m = edge d (ed_input ed) \/
     exists q, step env ed (OpSelectWithCaret d MChar) = Ok (ed', OutNone _) /\
      ed_caret ed' = mkMinCaret (mc_start (ed_caret ed)) q /\ follows d (ed_input ed) (range_end m) q).
Proof.
  intros Hwf Hg ([ed0 r0]&Ha) Hp Hd Hu. destruct (start_autocorrect_ok Ha) as (a&Hs&Hn). specialize (Hn Hp). subst a.
  destruct (start_autocorrect_only Hs) as (x&Ex). destruct (get_caret_row Hg) as (c&r&Hc&Hr&G&Em).
  cbn [step]. unfold select_with_caret. rewrite Hs. cbn [bind]. rewrite Ex. cbn [set_autocomplete ed_input ed_caret]. rewrite Hc. cbn [bind].
  rewrite Hr. assert (Ge : good_pos (ed_input ed) (rg_end_position r)) by (destruct G as (G1&G2&G3); split; auto).
  assert (Hend : pos_to_minimal (rg_end_position r) = range_end m) by (rewrite <- Em; reflexivity).
  assert (Hrp : range_of_pos (rg_end_position r) = mkRange (rg_focus r) (rg_end r) (rg_end r)) by reflexivity.
  assert (Hmove : exists q, move_caret_range cfg (range_of_pos (rg_end_position r)) d MChar = Ok q /\
    match q with Some q => follows d (ed_input ed) (range_end m) (pos_to_minimal q) | None => range_end m = edge d (ed_input ed) end).
  { rewrite <- Hend. assert (El : rg_left_position (range_of_pos (rg_end_position r)) = rg_end_position r /\
      rg_right_position (range_of_pos (rg_end_position r)) = rg_end_position r).
    { unfold rg_left_position, rg_right_position, rg_left, rg_right, rg_is_forwards. cbn. rewrite Nat.leb_refl. split; reflexivity. }
    destruct El as [El Er]. assert (Ec : rg_is_collapsed (range_of_pos (rg_end_position r)) = true) by apply Nat.eqb_refl.
    unfold move_caret_range. destruct Hd as [->| ->]; [rewrite El|rewrite Er]; cbn [is_left].
    - destruct (@move_left cfg (ed_input ed) _ Hwf Ge) as (q&Hq&HQ).
      { intros Ho Hz. apply Hu. split; auto. split; auto. now rewrite Hend in Hz. }
      rewrite Hq. cbn [bind]. destruct q as [q|].
      + exists (Some q). split; [reflexivity|]. cbn [follows]. apply right_step_next, HQ.
      + rewrite Ec. exists None. split; [reflexivity|exact HQ].
    - destruct (move_right cfg Hwf Ge) as (q&Hq&HQ). rewrite Hq. cbn [bind]. destruct q as [q|].
      + exists (Some q). split; [reflexivity|]. cbn [follows]. apply right_step_next, HQ.
      + rewrite Ec. exists None. split; [reflexivity|exact HQ]. }
  destruct Hmove as (q&Hq&HQ). unfold cfg in Hq. rewrite Hq. cbn [bind]. destruct q as [q|].
  - cbn [builder_finish bind set_caret ed_caret ed_input set_autocomplete finish_autocorrect]. eexists. split; [|right; exists (pos_to_minimal q); split; [reflexivity|split; [reflexivity|exact HQ]]].
    reflexivity.
  - cbn [bind]. eexists. split; [|left; split; [reflexivity|split; [reflexivity|exact HQ]]]. reflexivity.
Qed.

(** ** Growing *)
Lemma grown ed ed' d m q : wf_row (ed_input ed) -> get_caret ed = Ok (MSelRow m) -> grows d m ->
  ed_input ed' = ed_input ed -> ed_caret ed' = mkMinCaret (mc_start (ed_caret ed)) q -> follows d (ed_input ed) (range_end m) q ->
  ~ pos_in_range q m /\ get_caret ed' <> get_caret ed.
Proof.
  intros Hwf Hg Hd Ei Ec Hf. assert (Hq : ~ pos_in_range q m).
  { unfold pos_in_range, range_left, range_right. destruct d; try contradiction; cbn in Hd, Hf; apply follows_lt in Hf; unfold range_end in Hf.
    - rewrite Nat.min_r by lia. intros [[H|H] _]; [|rewrite <- H in Hf; now apply cmp_lt_irrefl in Hf].
      apply (@cmp_lt_irrefl q). eapply cmp_lt_trans; eauto.
    - rewrite Nat.max_r by lia. intros [_ [H|H]]; [|rewrite <- H in Hf; now apply cmp_lt_irrefl in Hf].
      apply (@cmp_lt_irrefl q). eapply cmp_lt_trans; eauto. }
  split; auto. rewrite Hg. intros H. apply caret_span in H as [_ H]; [|now rewrite Ei]. rewrite Ec in H. cbn in H.
  apply Hq. rewrite H. apply span_contains.
Qed.

(** ** Shrinking *)
Lemma prefix_no_table doc a b p i g j j' : prefix (mp_row b) (mp_row a) -> ~ in_table_cells doc a b p i g j j'.
Proof.
  intros [s Hs] (_&Hne&[u Hu]&[v Hv]). rewrite Hv, Hu, <- !app_assoc in Hs. apply app_inv_head in Hs. cbn in Hs. inv Hs. congruence.
Qed.
Lemma select_shrinks ed d m s : wf_row (ed_input ed) -> get_caret ed = Ok (MSelRow m) -> d = DLeft \/ d = DRight -> ~ grows d m ->
  node_get (ed_input ed) (mr_row m) (crossed d m) = Some (Symbol s) ->
  exists ed', step env ed (OpSelectWithCaret d MChar) = Ok (ed', OutNone _) /\ ed_input ed' = ed_input ed /\
    mc_start (ed_caret ed') = mc_start (ed_caret ed) /\
    get_caret ed' = Ok (MSelRow (mkMinRange (mr_row m) (mr_start m) (match d with DRight => mr_end m + 1 | _ => mr_end m - 1 end))).
Proof.
  intros Hwf Hg Hd Hgr Hsym. assert (Hne : mr_start m <> mr_end m) by (destruct Hd as [->| ->]; cbn in Hgr; lia).
  destruct (caret_span Hwf Hg) as [[V1 V2] Em]. set (o := match d with DRight => mr_end m + 1 | _ => mr_end m - 1 end).
  assert (Hz : ~ underflows cfg d (range_end m)). { intros (_&->&Hz&_). cbn in Hz, Hgr. lia. }
  destruct (@select_step ed d m) as (ed'&Ei&H); auto.
  { rewrite (not_collapsed_autocomplete env Hg Hne). eauto. } { exact (not_collapsed_not_pending Hg Hne). }
  exists ed'. assert (Hq : exists q, step env ed (OpSelectWithCaret d MChar) = Ok (ed', OutNone _) /\
      ed_caret ed' = mkMinCaret (mc_start (ed_caret ed)) q /\ q = mkMinPos (mr_row m) o).
  { destruct H as [(_&_&He)|(q&H1&H2&Hf)].
    - exfalso. unfold range_end in He. destruct Hd as [->| ->]; cbn in He, Hgr; injection He as He1 He2; [lia|].
      cbn in Hsym. unfold node_get in Hsym. rewrite He1, He2 in Hsym. cbn in Hsym.
      apply nth_error_Some_lt in Hsym. lia.
    - exists q. split; auto. split; auto. unfold range_end in Hf. destruct Hd as [->| ->]; cbn in Hf, Hgr, Hsym; unfold o.
      + apply rs_symbol, right_step_next in Hsym. replace (mr_end m - 1 + 1) with (mr_end m) in Hsym by lia.
        exact (next_in_inj (@positions_NoDup _) Hf Hsym).
      + apply rs_symbol, right_step_next in Hsym. exact (next_in_fun (@positions_NoDup _) Hf Hsym). }
  destruct Hq as (q&Hq&Ec&->). split; auto. split; auto. split; [now rewrite Ec|].
  pose proof (proj1 (span_row (mc_start (ed_caret ed)) (mc_end (ed_caret ed)))) as Hpre. rewrite <- Em in Hpre.
  rewrite caret_row.
  - rewrite Ec. cbn [mc_start mc_end]. do 2 f_equal.
    destruct (span_start (mc_start (ed_caret ed)) (mc_end (ed_caret ed))) as [(H1&H2)|(x&r&H1&H2&H3)]; rewrite <- Em in *.
    + rewrite (span_to_row _ H1), H2. reflexivity.
    + rewrite (span_to_row_below _ H1). f_equal. destruct (valid_container V1 H1) as (v&g&Hc).
      assert (fst x <> crossed d m) by (intros E; rewrite E in Hc; congruence).
      unfold o. destruct Hd as [->| ->]; cbn in *; destruct (_ <=? _) eqn:?; lia.
  - now rewrite Ei.
  - rewrite Ec, Ei. split; cbn [mc_start mc_end]; auto. unfold node_get in Hsym. destruct (row_get (ed_input ed) (mr_row m)) as [row|] eqn:Er; [|discriminate].
    apply nth_error_Some_lt in Hsym. exists row. split; auto. unfold o. cbn [mp_offset]. destruct Hd as [->| ->]; cbn in *; lia.
  - intros p i g j j'. rewrite Ec. apply prefix_no_table. exact Hpre.
Qed.

(** ** Shrinking over a container *)
Lemma span_into a p x q r : mp_row a = p ++ r -> hd_error r <> Some x -> let b := mkMinPos (p ++ x :: mp_row q) (mp_offset q) in
  mr_row (span a b) = p /\
  match r with
  | [] => mr_start (span a b) = mp_offset a /\ mr_end (span a b) = (if mp_offset a <=? fst x then fst x + 1 else fst x)
  | y :: _ => match rowindex_cmp y x with Gt => mr_start (span a b) = fst y + 1 /\ mr_end (span a b) = fst x
              | _ => mr_start (span a b) = fst y /\ mr_end (span a b) = fst x + 1 end
  end.
Proof.
  revert a; induction p as [|z p IH]; intros a H Hne; cbv zeta; destruct (pos_cases a) as [E|(y&a'&E)]; rewrite E in *; cbn [app] in *.
  - cbn in H. subst r. change (mkMinPos (x :: mp_row q) (mp_offset q)) with (below x q). rewrite span_here_below. cbn. auto.
  - cbn in H. subst r. change (mkMinPos (x :: mp_row q) (mp_offset q)) with (below x q). cbn in Hne. rewrite span_diff by congruence.
    destruct (rowindex_cmp y x); cbn; auto.
  - discriminate.
  - cbn in H. injection H as -> H. change (mkMinPos (z :: p ++ x :: mp_row q) (mp_offset q)) with (below z (mkMinPos (p ++ x :: mp_row q) (mp_offset q))).
    rewrite span_below. cbn [mr_row mr_start mr_end]. destruct (IH _ H Hne) as [H1 H2]. split; [now f_equal|]. exact H2.
Qed.
Lemma grid_select ed r d : get_caret ed = Ok (MSelGrid r) -> exists e, step env ed (OpSelectWithCaret d MChar) = Panic e.
Proof.
  intros H. unfold get_caret in H. apply bind_ok in H as (c&Hc&H). destruct (c_selection c) as [x|x] eqn:Es; [discriminate|].
  cbn [step]. unfold select_with_caret. destruct (start_autocorrect env ed) as [[ed1 a]|e] eqn:Ea; [|eexists; reflexivity].
  cbn [bind]. apply start_autocorrect_only in Ea as (y&->). cbn [set_autocomplete ed_input ed_caret]. rewrite Hc. cbn [bind]. rewrite Es. eexists. reflexivity.
Qed.

Lemma shrink_container ed d m v g : wf_row (ed_input ed) -> get_caret ed = Ok (MSelRow m) -> d = DLeft \/ d = DRight -> ~ grows d m ->
  node_get (ed_input ed) (mr_row m) (crossed d m) = Some (Container v g) ->
  exists cell, nth_error (gvalues g) (met_cell d g) = Some cell /\ let inner := mr_row m ++ [(crossed d m, met_cell d g)] in
  exists ed', step env ed (OpSelectWithCaret d MChar) = Ok (ed', OutNone _) /\ ed_input ed' = ed_input ed /\
    ed_caret ed' = mkMinCaret (mc_start (ed_caret ed)) (mkMinPos inner (met_edge d cell)).
Proof.
  intros Hwf Hg Hd Hgr Hc. assert (Hne : mr_start m <> mr_end m) by (destruct Hd as [->| ->]; cbn in Hgr; lia).
  destruct (caret_span Hwf Hg) as [[V1 V2] Em].
  assert (Hlen : 0 < length (gvalues g)).
  { unfold node_get in Hc. destruct (row_get (ed_input ed) (mr_row m)) as [row|] eqn:Er; [|discriminate].
    pose proof (row_get_wf Hwf Er) as W. specialize (W _ (nth_error_In _ _ Hc)). inv W. cbn. destruct cells; [congruence|cbn; lia]. }
  destruct (nth_error (gvalues g) (met_cell d g)) as [cell|] eqn:En.
  2:{ apply nth_error_None in En. destruct Hd as [->| ->]; cbn in En; lia. }
  exists cell. split; auto. cbv zeta.
  assert (Hz : ~ underflows cfg d (range_end m)). { intros (_&->&Hz&_). cbn in Hz, Hgr. lia. }
  destruct (@select_step ed d m) as (ed'&Ei&H); auto.
  { rewrite (not_collapsed_autocomplete env Hg Hne). eauto. } { exact (not_collapsed_not_pending Hg Hne). }
  exists ed'. destruct H as [(_&_&He)|(q&H1&H2&Hf)].
  - exfalso. unfold range_end in He. destruct Hd as [->| ->]; cbn in He, Hgr; injection He as He1 He2; [lia|].
    cbn in Hc. unfold node_get in Hc. rewrite He1, He2 in Hc. cbn in Hc. apply nth_error_Some_lt in Hc. lia.
  - split; auto. split; auto. rewrite H2. f_equal. unfold range_end in Hf. destruct Hd as [->| ->]; cbn in Hf, Hgr, Hc, En |- *.
    + pose proof (@rs_leave _ _ _ _ _ _ _ Hc En ltac:(lia)) as Hs. apply right_step_next in Hs. replace (mr_end m - 1 + 1) with (mr_end m) in Hs by lia.
      exact (next_in_inj (@positions_NoDup _) Hf Hs).
    + pose proof (rs_enter Hc Hlen) as Hs. apply right_step_next in Hs. exact (next_in_fun (@positions_NoDup _) Hf Hs).
Qed.
Lemma met_valid doc p i v g d cell : node_get doc p i = Some (Container v g) -> nth_error (gvalues g) (met_cell d g) = Some cell ->
  valid_pos doc (mkMinPos (p ++ [(i, met_cell d g)]) (met_edge d cell)).
Proof.
  intros Hc Hn. exists cell. cbn [mp_row mp_offset]. split; [|destruct d; cbn; lia]. rewrite row_get_snoc. unfold node_get in Hc.
  destruct (row_get doc p); [|discriminate]. now rewrite Hc.
Qed.
Lemma shrink_stuck ed d m v g : wf_row (ed_input ed) -> get_caret ed = Ok (MSelRow m) -> d = DLeft \/ d = DRight -> ~ grows d m ->
  node_get (ed_input ed) (mr_row m) (crossed d m) = Some (Container v g) ->
  ~ prefix (mr_row m ++ [(crossed d m, met_cell d g)]) (mp_row (mc_start (ed_caret ed))) ->
  (v = Table -> forall j, ~ prefix (mr_row m ++ [(crossed d m, j)]) (mp_row (mc_start (ed_caret ed)))) ->
  exists ed', step env ed (OpSelectWithCaret d MChar) = Ok (ed', OutNone _) /\ ed_input ed' = ed_input ed /\
    mc_start (ed_caret ed') = mc_start (ed_caret ed) /\ get_caret ed' = Ok (MSelRow m).
Proof.
  intros Hwf Hg Hd Hgr Hc Hin Htab. destruct (shrink_container Hwf Hg Hd Hgr Hc) as (cell&Hn&ed'&Hst&Ei&Ec). exists ed'.
  split; auto. split; auto. split; [now rewrite Ec|]. destruct (caret_span Hwf Hg) as [[V1 V2] Em].
  pose proof (met_valid (d := d) Hc Hn) as Vq. set (a := mc_start (ed_caret ed)) in *.
  pose proof (proj1 (span_row a (mc_end (ed_caret ed)))) as [r Hr]. rewrite <- Em in Hr.
  assert (Hhd : hd_error r <> Some (crossed d m, met_cell d g)).
  { intros E. apply Hin. destruct r as [|y r]; [discriminate|]. cbn in E. injection E as ->. exists r. rewrite Hr, <- app_assoc. reflexivity. }
  rewrite caret_row; rewrite ?Ei, ?Ec; cbn [mc_start mc_end]; auto; [|now split|].
  - fold a. do 2 f_equal. pose proof (@span_into a (mr_row m) (crossed d m, met_cell d g) (here (met_edge d cell)) r Hr Hhd) as Hs. cbv zeta in Hs. cbn [mp_row mp_offset here] in Hs.
    set (b := mkMinPos (mr_row m ++ [(crossed d m, met_cell d g)]) (met_edge d cell)) in *.
    repeat match type of Hs with context [span a (mkMinPos ?x ?y)] => change (mkMinPos x y) with b in Hs end. destruct Hs as [Hs1 Hs2].
    assert (Hx : mr_start (span a b) = mr_start m /\ mr_end (span a b) = mr_end m).
    { destruct (span_start a (mc_end (ed_caret ed))) as [(H1&H2)|(x&r'&H1&H2&H3)]; rewrite <- Em in *.
      - assert (r = []) as ->. { rewrite H1 in Hr. rewrite <- (app_nil_r (mr_row m)) in Hr at 1. apply app_inv_head in Hr. now symmetry. }
        destruct Hs2 as [Hs2 Hs3]. rewrite Hs2, Hs3, H2. split; auto. clear Hs2 Hs3. destruct Hd as [->| ->]; cbn in Hgr |- *; destruct (_ <=? _) eqn:?; lia.
      - assert (r = x :: r') as ->. { rewrite H1 in Hr. apply app_inv_head in Hr. now symmetry. }
        cbn [fst] in Hs2. destruct x as [xi xj]. cbn [fst hd_error] in *.
        assert (Hxj : xi = crossed d m -> xj < length (gvalues g)).
        { intros ->. destruct V1 as (row&Hv&_). rewrite H1, row_get_app in Hv. unfold node_get in Hc.
          destruct (row_get (ed_input ed) (mr_row m)) as [rr|]; [|discriminate]. cbn in Hv. rewrite Hc in Hv.
          destruct (nth_error (gvalues g) xj) eqn:E; [|discriminate]. now apply nth_error_Some_lt in E. }
        destruct Hd as [->| ->]; cbn [crossed met_cell grows] in *.
        + specialize (H2 ltac:(lia)). destruct (rowindex_cmp (xi, xj) (mr_end m - 1, length (gvalues g) - 1)) eqn:E.
          * apply rowindex_cmp_eq in E. elim Hhd. exact (f_equal Some E).
          * destruct Hs2 as [-> ->]. lia.
          * apply rowindex_cmp_gt in E. cbn in E. exfalso. lia.
        + specialize (H3 ltac:(lia)). destruct (rowindex_cmp (xi, xj) (mr_end m, 0)) eqn:E.
          * apply rowindex_cmp_eq in E. elim Hhd. exact (f_equal Some E).
          * apply rowindex_cmp_lt in E. cbn in E. exfalso. lia.
          * destruct Hs2 as [-> ->]. lia. }
    destruct Hx as [X1 X2]. destruct (span a b) as [r1 s1 e1], m as [r2 s2 e2]. cbn in *. now subst.
  - fold a. intros p i g' j j' (T1&T2&[u T3]&[w T4]). cbn [mp_row] in T4.
    assert (Hsplit : exists z, mr_row m = p ++ z).
    { clear - T4. revert p T4. induction (mr_row m) as [|y l IH]; intros p T4; destruct p as [|z p]; cbn in T4; [eexists; reflexivity| |eexists; reflexivity|].
      - injection T4 as _ T4. destruct p; discriminate.
      - injection T4 as -> T4. destruct (IH _ T4) as [k ->]. exists k. reflexivity. }
    destruct Hsplit as [z Hz]. destruct z as [|y z].
    + rewrite app_nil_r in Hz. rewrite Hz in *. rewrite <- app_assoc in T4. apply app_inv_head in T4. cbn in T4. injection T4 as E1 E2 _.
      rewrite <- E1 in *. rewrite T1 in Hc. inv Hc. apply (Htab eq_refl j). exists u. exact T3.
    + rewrite Hz in Hr, T4. rewrite Hr, <- !app_assoc in T3. rewrite <- !app_assoc in T4. apply app_inv_head in T3, T4. cbn in T3, T4. injection T3 as E1 _. injection T4 as E2 _. congruence.
Qed.
Lemma shrink_forever d m n : forall ed v g, wf_row (ed_input ed) -> get_caret ed = Ok (MSelRow m) -> d = DLeft \/ d = DRight -> ~ grows d m ->
  node_get (ed_input ed) (mr_row m) (crossed d m) = Some (Container v g) ->
  ~ prefix (mr_row m ++ [(crossed d m, met_cell d g)]) (mp_row (mc_start (ed_caret ed))) ->
  (v = Table -> forall j, ~ prefix (mr_row m ++ [(crossed d m, j)]) (mp_row (mc_start (ed_caret ed)))) ->
  exists ed', run env ed (repeat (OpSelectWithCaret d MChar) n) = Ok ed' /\ ed_input ed' = ed_input ed /\ get_caret ed' = Ok (MSelRow m).
Proof.
  induction n as [|n IH]; intros ed v g Hwf Hg Hd Hgr Hc Hin Htab; [exists ed; auto|].
  destruct (shrink_stuck Hwf Hg Hd Hgr Hc Hin Htab) as (ed1&Hst&E1&E2&E3).
  destruct (IH ed1 v g) as (ed2&R&F1&F2); rewrite ?E1, ?E2; auto. exists ed2. split; [cbn [repeat run]; rewrite Hst; exact R|]. split; congruence.
Qed.
Lemma shrink_into ed d m v g cell : wf_row (ed_input ed) -> get_caret ed = Ok (MSelRow m) -> d = DLeft \/ d = DRight -> ~ grows d m ->
  node_get (ed_input ed) (mr_row m) (crossed d m) = Some (Container v g) -> nth_error (gvalues g) (met_cell d g) = Some cell ->
  let inner := mr_row m ++ [(crossed d m, met_cell d g)] in prefix inner (mp_row (mc_start (ed_caret ed))) ->
  exists ed' s, step env ed (OpSelectWithCaret d MChar) = Ok (ed', OutNone _) /\ ed_input ed' = ed_input ed /\
    mc_start (ed_caret ed') = mc_start (ed_caret ed) /\ get_caret ed' = Ok (MSelRow (mkMinRange inner s (met_edge d cell))).
Proof.
  intros Hwf Hg Hd Hgr Hc Hn inner [r Hr]. destruct (shrink_container Hwf Hg Hd Hgr Hc) as (cell'&Hn'&ed'&Hst&Ei&Ec).
  rewrite Hn in Hn'. injection Hn' as <-. fold inner in Ec. exists ed'. destruct (caret_span Hwf Hg) as [[V1 V2] Em].
  pose proof (met_valid (d := d) Hc Hn) as Vq. fold inner in Vq. set (a := mc_start (ed_caret ed)) in *.
  assert (Hs : exists s, span a (mkMinPos inner (met_edge d cell)) = mkMinRange inner s (met_edge d cell)).
  { destruct r as [|x r]; [rewrite app_nil_r in Hr; rewrite (span_to_row _ Hr); eauto|]. rewrite (span_to_row_below _ Hr). eauto. }
  destruct Hs as [s Hs]. exists s. split; auto. split; auto. split; [now rewrite Ec|].
  rewrite caret_row; rewrite ?Ei, ?Ec; cbn [mc_start mc_end]; auto; [fold a; now rewrite Hs|now split|].
  intros p i g' j j'. fold a. apply prefix_no_table. cbn [mp_row]. exists r. exact Hr.
Qed.
Lemma shrink_table ed d m g j : wf_row (ed_input ed) -> get_caret ed = Ok (MSelRow m) -> d = DLeft \/ d = DRight -> ~ grows d m ->
  node_get (ed_input ed) (mr_row m) (crossed d m) = Some (Container Table g) ->
  j <> met_cell d g -> prefix (mr_row m ++ [(crossed d m, j)]) (mp_row (mc_start (ed_caret ed))) ->
  exists ed' r, step env ed (OpSelectWithCaret d MChar) = Ok (ed', OutNone _) /\ ed_input ed' = ed_input ed /\ get_caret ed' = Ok (MSelGrid r) /\
    forall d', exists e, step env ed' (OpSelectWithCaret d' MChar) = Panic e.
Proof.
  intros Hwf Hg Hd Hgr Hc Hj Hp. destruct (shrink_container Hwf Hg Hd Hgr Hc) as (cell&Hn&ed'&Hst&Ei&Ec).
  destruct (caret_span Hwf Hg) as [[V1 V2] Em]. pose proof (met_valid (d := d) Hc Hn) as Vq.
  assert (Hr : exists r, get_caret ed' = Ok (MSelGrid r)).
  { unfold get_caret. rewrite Ei, Ec.
    destruct (@caret_from_minimal_ok (ed_input ed) (mkMinCaret (mc_start (ed_caret ed)) (mkMinPos (mr_row m ++ [(crossed d m, met_cell d g)]) (met_edge d cell)))) as (c&Hcc&_&_&_&Hsel); auto.
    rewrite Hcc. cbn [bind mc_start mc_end] in *. destruct (c_selection c) as [r|r]; [|eexists; reflexivity].
    destruct Hsel as [Hno _]. exfalso. apply (Hno (mr_row m) (crossed d m) g j (met_cell d g)). split; auto. split; auto. split; auto. exists []. cbn. now rewrite app_nil_r. }
  destruct Hr as [r Hr]. exists ed', r. split; auto. split; auto. split; auto. intros d'. exact (grid_select d' Hr).
Qed.

(** ** Repeating *)
Definition beyond (d : Direction) (p x : MinPos) : bool :=
  match d with DRight => match minpos_cmp p x with Lt => true | _ => false end | _ => match minpos_cmp x p with Lt => true | _ => false end end.
Definition left_over d doc p := length (filter (beyond d p) (positions doc)).
Lemma filter_less A (f g : A -> bool) l x : (forall y, f y = true -> g y = true) -> In x l -> f x = false -> g x = true ->
  length (filter f l) < length (filter g l).
Proof.
  intros Hi Hx Hf Hg. assert (Hle : forall l, length (filter f l) <= length (filter g l)).
  { clear x l Hx Hf Hg. induction l as [|y l IH]; cbn; auto. destruct (f y) eqn:Ef; [rewrite (Hi _ Ef); cbn; lia|]. destruct (g y); cbn; lia. }
  apply in_split in Hx as (l1&l2&->). rewrite !filter_app, !app_length. cbn. rewrite Hf, Hg. cbn.
  specialize (Hle l1) as H1. specialize (Hle l2) as H2. lia.
Qed.
Lemma left_over_less d doc p q : valid_pos doc q -> beyond d p q = true -> left_over d doc q < left_over d doc p.
Proof.
  intros Hv Hb. apply filter_less with (x := q); auto.
  - intros y. unfold beyond in *. destruct d.
    all: match type of Hb with (match ?c with _ => _ end) = _ => destruct c eqn:E1; try discriminate Hb end.
    all: match goal with |- (match ?c with _ => _ end) = _ -> _ => destruct c eqn:E2; try discriminate end.
    all: intros _; first [now rewrite (cmp_lt_trans E1 E2) | now rewrite (cmp_lt_trans E2 E1)].
  - now apply in_positions_valid.
  - unfold beyond. destruct d; now rewrite cmp_refl.
Qed.

Lemma grown_end ed d m q : wf_row (ed_input ed) -> get_caret ed = Ok (MSelRow m) -> grows d m ->
  follows d (ed_input ed) (range_end m) q -> let m' := span (mc_start (ed_caret ed)) q in
  valid_pos (ed_input ed) q /\ grows d m' /\ mr_start m' <> mr_end m' /\ valid_pos (ed_input ed) (range_end m') /\ beyond d (range_end m) (range_end m') = true.
Proof.
  intros Hwf Hg Hd Hf m'. destruct (caret_span Hwf Hg) as [[V1 V2] Em].
  assert (Vq : valid_pos (ed_input ed) q) by (destruct d; try contradiction; apply follows_valid in Hf; tauto).
  pose proof (span_valid V1 Vq) as (row&Hr&Hs&He). fold m' in Hr, Hs, He.
  assert (Ve : valid_pos (ed_input ed) (range_end m')) by (exists row; split; auto).
  pose proof (span_contains (mc_start (ed_caret ed)) (mc_end (ed_caret ed))) as [[Ha Hb] _]. rewrite <- Em in Ha, Hb.
  pose proof (span_contains (mc_start (ed_caret ed)) q) as [[Hs1 Hs2] [Hc Hc']]. fold m' in Hc, Hc', Hs1, Hs2.
  assert (Hne : mc_start (ed_caret ed) <> q -> mr_start m' <> mr_end m').
  { intros Hne E. apply Hne. unfold range_left, range_right in *. rewrite E, Nat.min_id in *. rewrite Nat.max_id in *.
    rewrite <- (pos_le_antisym Hs1 Hs2). exact (pos_le_antisym Hc Hc'). }
  destruct d; try contradiction; cbn in Hd, Hf; apply follows_lt in Hf; unfold range_left, range_right in *.
  - rewrite Nat.min_r in Ha by lia. fold (range_end m) in Ha.
    assert (Hlt : minpos_cmp q (mc_start (ed_caret ed)) = Lt) by (destruct Ha as [Ha|<-]; [exact (cmp_lt_trans Hf Ha)|exact Hf]).
    pose proof (span_direction (or_introl Hlt)) as Hdir. rewrite span_swap in Hdir. fold m' in Hdir. cbn [mr_start mr_end] in Hdir.
    rewrite Nat.min_r in Hc by lia. fold (range_end m') in Hc. split; auto. split; [exact Hdir|].
    assert (Hbe : minpos_cmp (range_end m') (range_end m) = Lt) by (destruct Hc as [Hc| ->]; [exact (cmp_lt_trans Hc Hf)|exact Hf]).
    split; [|split; auto; cbn [beyond]; now rewrite Hbe].
    apply Hne. intros <-. now apply cmp_lt_irrefl in Hlt.
  - rewrite Nat.max_r in Hb by lia. fold (range_end m) in Hb.
    assert (Hlt : minpos_cmp (mc_start (ed_caret ed)) q = Lt) by (destruct Hb as [Hb| ->]; [exact (cmp_lt_trans Hb Hf)|exact Hf]).
    pose proof (span_direction (or_introl Hlt)) as Hdir. fold m' in Hdir.
    rewrite Nat.max_r in Hc' by lia. fold (range_end m') in Hc'. split; auto. split; [exact Hdir|].
    assert (Hbe : minpos_cmp (range_end m) (range_end m') = Lt) by (destruct Hc' as [Hc'|<-]; [exact (cmp_lt_trans Hf Hc')|exact Hf]).
    split; [|split; auto; cbn [beyond]; now rewrite Hbe].
    apply Hne. intros E. rewrite <- E in Hlt. now apply cmp_lt_irrefl in Hlt.
Qed.

Lemma select_repeat d ed m : wf_row (ed_input ed) -> get_caret ed = Ok (MSelRow m) ->
  (exists x, get_autocomplete env ed = Ok x) -> ~ autocorrect_pending env ed -> grows d m ->
  (forall p i g j, node_get (ed_input ed) p i = Some (Container Table g) -> ~ prefix (p ++ [(i, j)]) (mp_row (mc_start (ed_caret ed)))) ->
  (overflow_checks cfg = true -> d = DLeft -> forall p i, ~ prefix (p ++ [(i, 0)]) (mp_row (mc_start (ed_caret ed)))) ->
  exists n ed' s, n <= left_over d (ed_input ed) (range_end m) /\ run env ed (repeat (OpSelectWithCaret d MChar) n) = Ok ed' /\
    ed_input ed' = ed_input ed /\ mc_start (ed_caret ed') = mc_start (ed_caret ed) /\
    get_caret ed' = Ok (MSelRow (mkMinRange [] s (mp_offset (edge d (ed_input ed))))).
Proof.
  remember (left_over d (ed_input ed) (range_end m)) as k eqn:Hk. assert (Hk' : left_over d (ed_input ed) (range_end m) <= k) by lia. clear Hk.
  revert ed m Hk'. induction k as [k IH] using (well_founded_induction Wf_nat.lt_wf); intros ed m Hk Hwf Hg Ha Hp Hd Ht Ho.
  destruct (caret_span Hwf Hg) as [[V1 V2] Em].
  assert (Hu : ~ underflows cfg d (range_end m)).
  { intros (H1&H2&_&p&i&Hz). apply (Ho H1 H2 p i). cbn in Hz. rewrite <- Hz, Em. apply span_row. }
  destruct (@select_step ed d m) as (ed1&Ei&[(_&_&He)|(q&Hstep&Ec&Hf)]); auto.
  { destruct d; auto; contradiction. }
  - exists 0, ed, (mr_start m). split; [lia|]. split; [reflexivity|]. split; [reflexivity|]. split; [reflexivity|].
    rewrite Hg, <- He. destruct m as [p s e]. assert (p = []) as -> by (destruct d; cbn in He; now inv He). reflexivity.
  - destruct (grown_end Hwf Hg Hd Hf) as (Vq&Hd'&Hne&Ve&Hb). set (m' := span (mc_start (ed_caret ed)) q) in *.
    assert (Hg' : get_caret ed1 = Ok (MSelRow m')).
    { rewrite caret_row; rewrite ?Ei, ?Ec; cbn [mc_start mc_end]; auto; [now split|].
      intros p i g j j' (H1&_&H3&_). exact (Ht _ _ _ _ H1 H3). }
    pose proof (left_over_less Ve Hb) as Hl.
    destruct (IH (left_over d (ed_input ed) (range_end m'))) with (ed := ed1) (m := m') as (n&ed'&s&Hn&Hr&E1&E2&E3); rewrite ?Ei, ?Ec; cbn [mc_start]; auto; [lia| | |].
    + rewrite (not_collapsed_autocomplete env Hg' Hne). eauto.
    + exact (not_collapsed_not_pending Hg' Hne).
    + exists (Datatypes.S n), ed', s. split; [lia|]. rewrite Ei in E1, E3. split; [cbn [repeat run]; rewrite Hstep; exact Hr|].
      split; auto. split; [now rewrite E2, Ec|exact E3].
Qed.
End WithSyntaxNode.

Lemma select_changes SyntaxNode (env : Env SyntaxNode) ed d m : wf_row (ed_input ed) -> get_caret ed = Ok (MSelRow m) ->
  (exists x, get_autocomplete env ed = Ok x) -> ~ autocorrect_pending env ed ->
  grows d m -> ~ underflows (env_cfg env) d (range_end m) -> range_end m <> edge d (ed_input ed) ->
  exists ed' q, step env ed (OpSelectWithCaret d MChar) = Ok (ed', OutNone _) /\ ed_input ed' = ed_input ed /\
    ed_caret ed' = mkMinCaret (mc_start (ed_caret ed)) q /\ follows d (ed_input ed) (range_end m) q /\
    ~ pos_in_range q m /\ get_caret ed' <> get_caret ed.
Proof.
  intros Hwf Hg Ha Hp Hd Hu He. destruct (@select_step _ env ed d m) as (ed'&Ei&[(_&_&H)|(q&H1&H2&H3)]); auto; [destruct d; auto; contradiction|contradiction|].
  exists ed', q. split; auto. split; auto. split; auto. split; auto. eapply grown; eauto.
Qed.
Lemma filter_le A (f : A -> bool) l : length (filter f l) <= length l.
Proof. induction l as [|x l IH]; cbn; auto. destruct (f x); cbn; lia. Qed.
Lemma select_reaches SyntaxNode (env : Env SyntaxNode) d ed m : wf_row (ed_input ed) -> get_caret ed = Ok (MSelRow m) ->
  (exists x, get_autocomplete env ed = Ok x) -> ~ autocorrect_pending env ed -> grows d m ->
  (forall p i g j, node_get (ed_input ed) p i = Some (Container Table g) -> ~ prefix (p ++ [(i, j)]) (mp_row (mc_start (ed_caret ed)))) ->
  (overflow_checks (env_cfg env) = true -> d = DLeft -> forall p i, ~ prefix (p ++ [(i, 0)]) (mp_row (mc_start (ed_caret ed)))) ->
  exists n ed' s, n <= length (positions (ed_input ed)) /\ run env ed (repeat (OpSelectWithCaret d MChar) n) = Ok ed' /\
    ed_input ed' = ed_input ed /\ mc_start (ed_caret ed') = mc_start (ed_caret ed) /\
    get_caret ed' = Ok (MSelRow (mkMinRange [] s (mp_offset (edge d (ed_input ed))))).
Proof.
  intros H1 H2 H3 H4 H5 H6 H7. destruct (@select_repeat _ env d ed m) as (n&ed'&s&Hn&H); auto. exists n, ed', s. split; auto.
  eapply Nat.le_trans; [exact Hn|apply filter_le].
Qed.
