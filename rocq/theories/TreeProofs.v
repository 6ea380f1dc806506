(** Proofs of the theorems of PropsTree.v from the facts files. *)
From Verif Require Import Base Str Grid Node Focus Edit Spec SpecEdit BaseFacts TreeFacts OrderFacts EditFacts.
Set Implicit Arguments.
Unset Strict Implicit.

Lemma total_order :
  (forall a, minpos_cmp a a = Eq) /\
  (forall a b, minpos_cmp a b = Eq <-> a = b) /\
  (forall a b, minpos_cmp b a = CompOpp (minpos_cmp a b)) /\
  (forall a b c, minpos_cmp a b = Lt -> minpos_cmp b c = Lt -> minpos_cmp a c = Lt).
Proof.
  split; [exact cmp_refl|]. split; [exact cmp_eq|]. split; [exact cmp_opp|exact cmp_lt_trans].
Qed.

Lemma focused_cmp doc a b p q :
  pos_from_minimal (from_root doc) a = Ok p -> pos_from_minimal (from_root doc) b = Ok q ->
  pos_cmp p q = minpos_cmp a b /\ (pos_eqb p q = true <-> a = b).
Proof.
  intros Ha Hb. apply pos_from_minimal_inv in Ha as [_ <-]. apply pos_from_minimal_inv in Hb as [_ <-].
  split; [reflexivity|]. unfold pos_eqb. rewrite andb_true_iff, rowindices_eqb_eq, Nat.eqb_eq.
  unfold pos_to_minimal. split; [intros [-> ->]; reflexivity|]. intros H. inv H. auto.
Qed.

Lemma pos_le_trans a b c : pos_le a b -> pos_le b c -> pos_le a c.
Proof.
  unfold pos_le. intros [H1| ->] [H2| ->]; auto. left. eapply cmp_lt_trans; eauto.
Qed.

Lemma smallest_range doc a b : wf_row doc -> valid_pos doc a -> valid_pos doc b ->
  exists p q r r',
    pos_from_minimal (from_root doc) a = Ok p /\ pos_from_minimal (from_root doc) b = Ok q /\
    range_from_positions doc p q = Ok r /\ range_from_positions doc q p = Ok r' /\
    let m := rg_to_minimal r in
    valid_range doc m /\ pos_in_range a m /\ pos_in_range b m /\
    (forall s, valid_range doc s -> pos_in_range a s -> pos_in_range b s ->
       forall c, pos_in_range c m -> pos_in_range c s) /\
    (pos_le a b -> mr_start m <= mr_end m) /\ (pos_le b a -> mr_end m <= mr_start m) /\
    rg_to_minimal r' = mkMinRange (mr_row m) (mr_end m) (mr_start m).
Proof.
  intros Hwf Ha Hb.
  destruct (pos_from_minimal_ok Hwf Ha) as [p Hp]. destruct (pos_from_minimal_ok Hwf Hb) as [q Hq].
  pose proof (pos_from_minimal_inv Hp) as [Gp Ep]. pose proof (pos_from_minimal_inv Hq) as [Gq Eq].
  destruct (range_from_positions_ok Hwf Gp Gq) as (r&Hr&Gr&Er).
  destruct (range_from_positions_ok Hwf Gq Gp) as (r'&Hr'&Gr'&Er').
  rewrite Ep, Eq in Er, Er'.
  exists p, q, r, r'. repeat (split; [assumption|]). cbv zeta. rewrite Er, Er'.
  split; [now apply span_valid|]. destruct (span_contains a b) as [Ca Cb].
  split; [exact Ca|]. split; [exact Cb|].
  split; [|split; [|split]].
  - intros s _ Hsa Hsb c [Hc1 Hc2]. destruct (span_minimal Hsa Hsb) as [H1 H2].
    split; eapply pos_le_trans; eauto.
  - apply span_direction.
  - intros H. apply span_direction in H. rewrite span_swap in H. exact H.
  - apply span_swap.
Qed.

(** ** C03, C04 *)
Lemma insert_exact cfg doc p o vs row :
  wf_row doc -> row_get doc p = Some row -> o <= length row ->
  exists doc', tree_apply_edit cfg doc (ERow (mkRowEdit Insert (mkMinPos p o) vs)) = Ok doc' /\
    replaced p row (firstn o row ++ vs ++ skipn o row) doc doc'.
Proof. apply tree_insert_ok. Qed.
Lemma delete_exact cfg doc p o vs row :
  wf_row doc -> row_get doc p = Some row -> o + length vs <= length row ->
  exists doc', tree_apply_edit cfg doc (ERow (mkRowEdit Delete (mkMinPos p o) vs)) = Ok doc' /\
    replaced p row (firstn o row ++ skipn (o + length vs) row) doc doc'.
Proof. apply tree_delete_ok. Qed.

Lemma row_get_cons_nth r r' i i' j q : nth_error r' i' = nth_error r i ->
  row_get r' ((i', j) :: q) = row_get r ((i, j) :: q).
Proof. intros H. simpl. now rewrite H. Qed.

Lemma nth_insert_left A (row vs : list A) o i : o <= length row -> i < o ->
  nth_error (firstn o row ++ vs ++ skipn o row) i = nth_error row i.
Proof.
  intros Ho Hi. rewrite nth_error_app1 by (rewrite firstn_length; lia).
  rewrite <- (firstn_skipn o row) at 2. now rewrite nth_error_app1 by (rewrite firstn_length; lia).
Qed.
Lemma nth_error_skipn A (l : list A) k i : nth_error (skipn k l) i = nth_error l (k + i).
Proof. revert l; induction k; intros l; simpl; auto. destruct l; auto. now destruct i. Qed.
Lemma nth_insert_right A (row vs : list A) o i : o <= length row -> o <= i ->
  nth_error (firstn o row ++ vs ++ skipn o row) (i + length vs) = nth_error row i.
Proof.
  intros Ho Hi. rewrite nth_error_app2 by (rewrite firstn_length; lia).
  rewrite firstn_length. rewrite nth_error_app2 by lia. rewrite nth_error_skipn. f_equal. lia.
Qed.
Lemma nth_delete_left A (row : list A) o n i : o + n <= length row -> i < o ->
  nth_error (firstn o row ++ skipn (o + n) row) i = nth_error row i.
Proof.
  intros Ho Hi. rewrite nth_error_app1 by (rewrite firstn_length; lia).
  rewrite <- (firstn_skipn o row) at 2. now rewrite nth_error_app1 by (rewrite firstn_length; lia).
Qed.
Lemma nth_delete_right A (row : list A) o n i : o + n <= length row -> o <= i ->
  nth_error (firstn o row ++ skipn (o + n) row) i = nth_error row (i + n).
Proof.
  intros Ho Hi. rewrite nth_error_app2 by (rewrite firstn_length; lia).
  rewrite firstn_length. rewrite nth_error_skipn. f_equal. lia.
Qed.

Lemma replaced_ancestors p r r' doc doc' q x s : replaced p r r' doc doc' -> p = q ++ x :: s ->
  exists row row', row_get doc q = Some row /\ row_get doc' q = Some row' /\
     length row' = length row /\ forall i, i <> fst x -> nth_error row' i = nth_error row i.
Proof.
  intros H ->. apply replaced_above in H as (row&row'&H1&H2&H3).
  exists row, row'. repeat split; auto; [eapply replaced_length; eauto|].
  intros i Hi. inv H3. simpl in Hi. now apply app_cons_nth_other.
Qed.

Lemma insert_other_rows cfg doc p o vs doc' :
  tree_apply_edit cfg doc (ERow (mkRowEdit Insert (mkMinPos p o) vs)) = Ok doc' ->
  (forall q, ~ prefix p q -> ~ prefix q p -> row_get doc' q = row_get doc q) /\
  (forall i j q, i < o -> row_get doc' (p ++ (i, j) :: q) = row_get doc (p ++ (i, j) :: q)) /\
  (forall i j q, o <= i -> row_get doc' (p ++ (i + length vs, j) :: q) = row_get doc (p ++ (i, j) :: q)) /\
  (forall q x s, p = q ++ x :: s -> exists row row', row_get doc q = Some row /\ row_get doc' q = Some row' /\
     length row' = length row /\ forall i, i <> fst x -> nth_error row' i = nth_error row i).
Proof.
  intros H. apply tree_insert_inv in H as (row&Hr&Ho&Hrep). split; [|split; [|split]].
  - intros q. now apply (replaced_elsewhere Hrep).
  - intros i j q Hi. rewrite (replaced_under _ Hrep), row_get_app, Hr.
    apply row_get_cons_nth. now apply nth_insert_left.
  - intros i j q Hi. rewrite (replaced_under _ Hrep), row_get_app, Hr.
    apply row_get_cons_nth. now apply nth_insert_right.
  - intros q x s Hq. eapply replaced_ancestors; eauto.
Qed.
Lemma delete_other_rows cfg doc p o vs doc' :
  tree_apply_edit cfg doc (ERow (mkRowEdit Delete (mkMinPos p o) vs)) = Ok doc' ->
  (forall q, ~ prefix p q -> ~ prefix q p -> row_get doc' q = row_get doc q) /\
  (forall i j q, i < o -> row_get doc' (p ++ (i, j) :: q) = row_get doc (p ++ (i, j) :: q)) /\
  (forall i j q, o <= i -> row_get doc' (p ++ (i, j) :: q) = row_get doc (p ++ (i + length vs, j) :: q)) /\
  (forall q x s, p = q ++ x :: s -> exists row row', row_get doc q = Some row /\ row_get doc' q = Some row' /\
     length row' = length row /\ forall i, i <> fst x -> nth_error row' i = nth_error row i).
Proof.
  intros H. apply tree_delete_inv in H as (row&Hr&Ho&Hrep). split; [|split; [|split]].
  - intros q. now apply (replaced_elsewhere Hrep).
  - intros i j q Hi. rewrite (replaced_under _ Hrep), row_get_app, Hr.
    apply row_get_cons_nth. now apply nth_delete_left.
  - intros i j q Hi. rewrite (replaced_under _ Hrep), row_get_app, Hr.
    apply row_get_cons_nth. now apply nth_delete_right.
  - intros q x s Hq. eapply replaced_ancestors; eauto.
Qed.

Lemma insert_panics_iff cfg doc p o vs : wf_row doc ->
  ((exists k, tree_apply_edit cfg doc (ERow (mkRowEdit Insert (mkMinPos p o) vs)) = Panic k) <->
   ~ valid_pos doc (mkMinPos p o)).
Proof.
  intros Hwf. split.
  - intros [k H] (row&Hr&Ho). simpl in Hr, Ho.
    destruct (tree_insert_ok cfg vs Hwf Hr Ho) as (doc'&H'&_). congruence.
  - intros H. destruct (tree_apply_edit _ _ _) as [doc'|k] eqn:E; [|eauto].
    apply tree_insert_inv in E as (row&Hr&Ho&_). exfalso. apply H. exists row. auto.
Qed.
Lemma delete_panics_iff cfg doc p o vs : wf_row doc ->
  ((exists k, tree_apply_edit cfg doc (ERow (mkRowEdit Delete (mkMinPos p o) vs)) = Panic k) <->
   ~ (exists row, row_get doc p = Some row /\ o + length vs <= length row)).
Proof.
  intros Hwf. split.
  - intros [k H] (row&Hr&Ho).
    destruct (tree_delete_ok cfg Hwf Hr Ho) as (doc'&H'&_). congruence.
  - intros H. destruct (tree_apply_edit _ _ _) as [doc'|k] eqn:E; [|eauto].
    apply tree_delete_inv in E as (row&Hr&Ho&_). exfalso. apply H. exists row. auto.
Qed.

(** ** C05 *)
Lemma chain_det cfg doc es d1 d2 : chain cfg doc es d1 -> tree_apply_edits cfg doc es = Ok d2 -> d1 = d2.
Proof. intros H H'. apply chain_apply in H. congruence. Qed.

Lemma made_edits_chain cfg doc es doc' : made_edits cfg doc es doc' -> chain cfg doc es doc'.
Proof.
  induction 1 as [doc|doc m r es p doc1 es' doc2 Hr He Ha _ IH|doc m p vs doc1 es' doc2 Hp Ha _ IH
                 |doc m r vs es mr doc1 es' doc2 Hr He Ha _ IH].
  - constructor.
  - apply rg_from_minimal_inv in Hr as [G _]. rewrite (remove_range_eq G) in He. inv He.
    destruct (remove_range_chain cfg G) as (d&Hc&_). pose proof (chain_det Hc Ha). subst.
    eapply chain_app; eauto.
  - apply pos_from_minimal_inv in Hp as [G _].
    destruct (insert_chain cfg vs G) as (d&Hc&_). pose proof (chain_det Hc Ha). subst.
    eapply chain_app; eauto.
  - apply rg_from_minimal_inv in Hr as [G _]. rewrite (replace_range_eq vs G) in He. inv He.
    destruct (replace_range_chain cfg vs G) as (d&Hc&_). pose proof (chain_det Hc Ha). subst.
    eapply chain_app; eauto.
Qed.

Lemma edits_invertible cfg doc es doc' : made_edits cfg doc es doc' ->
  tree_apply_edits cfg doc es = Ok doc' /\
  tree_apply_edits cfg doc' (map edit_inverse (rev es)) = Ok doc.
Proof. intros H. apply made_edits_chain in H. split; [now apply chain_apply|now apply chain_inverse]. Qed.

Lemma replace_exists cfg doc m vs : wf_row doc -> valid_range doc m ->
  exists r es mr doc', rg_from_minimal (from_root doc) m = Ok r /\ replace_range r vs = Ok (es, mr) /\
    tree_apply_edits cfg doc es = Ok doc'.
Proof.
  intros Hwf Hm. destruct (rg_from_minimal_ok Hwf Hm) as [r Hr].
  pose proof (rg_from_minimal_inv Hr) as [G _]. destruct (replace_range_chain cfg vs G) as (d&Hc&_).
  exists r. do 2 eexists. exists d. split; auto. split; [apply (replace_range_eq vs G)|]. now apply chain_apply.
Qed.

(** ** C36 *)
Lemma walk_down doc p : wf_row doc ->
  match row_get doc p with
  | Some row => exists f, walk_down_indices (from_root doc) p = Ok f /\ fr_indices f = p /\ fr_row f = row
  | None => exists k, walk_down_indices (from_root doc) p = Panic k
  end.
Proof.
  intros Hwf. destruct (row_get doc p) as [row|] eqn:E.
  - destruct (walk_exists (f := from_root doc) Hwf E) as [f Hf]. exists f.
    pose proof (walk_canonical Hf) as (_&Hi&Hr). split; auto. split; auto. congruence.
  - destruct (walk_down_indices (from_root doc) p) eqn:Ew; [|eauto].
    apply walk_canonical in Ew as (_&_&Hr). congruence.
Qed.

Lemma down_up doc p f i j f' :
  walk_down_indices (from_root doc) p = Ok f -> focus_row_at f (i, j) = Ok (Some f') ->
  fr_indices f' = p ++ [(i, j)] /\
  exists n, focus_parent f' = Some n /\ fn_parent n = f /\ fn_index n = i /\
    nth_error (fr_row f) i = Some (fn_node n) /\ fn_child_at n (Some j) = Ok (Some f').
Proof.
  intros Hw Hd. apply walk_canonical in Hw as (Hc&Hi&_).
  assert (Hi' : fr_indices f' = p ++ [(i, j)]).
  { apply focus_row_at_inv in Hd as (v&g&c&_&_&->). simpl. now rewrite Hi. }
  split; auto. pose proof (canonical_child Hc Hd) as Hc'.
  destruct (canonical_snoc_inv Hc' Hi') as (f0&v&g&Hc0&Hi0&En&Ec&Ef&Hp).
  assert (f0 = f) by (eapply canonical_unique; eauto; congruence). subst f0.
  exists (mkFocusNode (Container v g) f i). simpl. repeat split; auto.
  rewrite (fn_child_at_row_at (n := mkFocusNode (Container v g) f i)) by (simpl; auto). exact Ef.
Qed.

Lemma minimal_round_trip doc :
  (forall m p, pos_from_minimal (from_root doc) m = Ok p ->
     pos_to_minimal p = m /\ pos_from_minimal (from_root doc) (pos_to_minimal p) = Ok p) /\
  (forall m r, rg_from_minimal (from_root doc) m = Ok r ->
     rg_to_minimal r = m /\ rg_from_minimal (from_root doc) (rg_to_minimal r) = Ok r) /\
  (wf_row doc -> forall m, (exists p, pos_from_minimal (from_root doc) m = Ok p) <-> valid_pos doc m) /\
  (wf_row doc -> forall m, (exists r, rg_from_minimal (from_root doc) m = Ok r) <-> valid_range doc m).
Proof.
  split; [|split; [|split]].
  - intros m p H. pose proof (pos_from_minimal_inv H) as [G E]. split; auto. now apply good_pos_from_minimal.
  - intros m r H. pose proof (rg_from_minimal_inv H) as [G E]. split; auto. now apply good_range_from_minimal.
  - intros Hwf m. now apply pos_from_minimal_iff.
  - intros Hwf m. split; [|now apply rg_from_minimal_ok].
    intros [r H]. apply rg_from_minimal_inv in H as [G <-]. now apply good_range_valid.
Qed.

(** ** C37 *)
Lemma index_round_trip T (g : GridVec T) i : 0 < gwidth g ->
  exists xy, from_index i g = Ok xy /\ to_index xy = i /\ ix xy < gwidth g.
Proof.
  intros Hw. eexists. split; [now apply from_index_eq|]. split; [now apply to_index_from|].
  simpl. apply Nat.mod_upper_bound. lia.
Qed.

Lemma cell_in_range T (g : GridVec T) x y : length (gvalues g) mod gwidth g = 0 ->
  x < gwidth g -> y < length (gvalues g) / gwidth g -> y * gwidth g + x < length (gvalues g).
Proof.
  intros Hm Hx Hy. pose proof (Nat.div_mod (length (gvalues g)) (gwidth g) ltac:(lia)). nia.
Qed.
Lemma grid_get T (g : GridVec T) x y : 0 < gwidth g -> length (gvalues g) mod gwidth g = 0 ->
  gget g (mkIndex2D x y (gwidth g)) =
    Ok (if (x <? gwidth g) && (y <? length (gvalues g) / gwidth g)
        then nth_error (gvalues g) (y * gwidth g + x) else None) /\
  (x < gwidth g -> y < length (gvalues g) / gwidth g ->
     exists c, nth_error (gvalues g) (y * gwidth g + x) = Some c).
Proof.
  intros Hw Hm. split.
  - unfold gget, to_index_checked, with_grid. rewrite gsize_ok by auto. simpl.
    unfold with_size; simpl. rewrite Nat.eqb_refl. simpl.
    destruct (gwidth g <=? x) eqn:E1, (length (gvalues g) / gwidth g <=? y) eqn:E2; simpl;
    destruct (x <? gwidth g) eqn:E3, (y <? length (gvalues g) / gwidth g) eqn:E4; simpl; try lia; reflexivity.
  - intros Hx Hy. apply nth_error_lt_Some. now apply cell_in_range.
Qed.
Lemma to_index_checked_in T (g : GridVec T) x y : x < gwidth g -> y < length (gvalues g) / gwidth g ->
  to_index_checked (mkIndex2D x y (gwidth g)) g = Ok (Some (y * gwidth g + x)).
Proof.
  intros Hx Hy. unfold to_index_checked, with_grid. rewrite gsize_ok by lia. simpl.
  unfold with_size; simpl. rewrite Nat.eqb_refl. simpl.
  replace (gwidth g <=? x) with false by lia. replace (_ <=? y) with false by lia. reflexivity.
Qed.
Lemma grid_set T (g : GridVec T) x y c : 0 < gwidth g -> length (gvalues g) mod gwidth g = 0 ->
  x < gwidth g -> y < length (gvalues g) / gwidth g ->
  exists g' old, gset g (mkIndex2D x y (gwidth g)) c = Ok (g', Some old) /\
    gget g (mkIndex2D x y (gwidth g)) = Ok (Some old) /\
    gwidth g' = gwidth g /\ length (gvalues g') = length (gvalues g) /\
    gget g' (mkIndex2D x y (gwidth g)) = Ok (Some c) /\
    forall x' y', (x', y') <> (x, y) ->
      gget g' (mkIndex2D x' y' (gwidth g)) = gget g (mkIndex2D x' y' (gwidth g)).
Proof.
  intros Hw Hm Hx Hy. pose proof (cell_in_range Hm Hx Hy) as Hl.
  destruct (nth_error_lt_Some Hl) as [old Hold].
  exists (mkGrid (list_set (gvalues g) (y * gwidth g + x) c) (gwidth g)), old.
  assert (Hlen : length (list_set (gvalues g) (y * gwidth g + x) c) = length (gvalues g)) by apply list_set_length.
  set (l := list_set (gvalues g) (y * gwidth g + x) c) in *.
  assert (Hg : forall x' y', gget (mkGrid l (gwidth g)) (mkIndex2D x' y' (gwidth g)) =
      Ok (if (x' <? gwidth g) && (y' <? length (gvalues g) / gwidth g)
          then nth_error l (y' * gwidth g + x') else None)).
  { intros x' y'. rewrite <- Hlen. apply (@grid_get _ (mkGrid l (gwidth g)) x' y'); simpl; auto.
    now rewrite Hlen. }
  repeat split; simpl; auto.
  - unfold gset. rewrite to_index_checked_in by auto. simpl. now rewrite Hold.
  - destruct (@grid_get _ g x y Hw Hm) as [-> _].
    replace (x <? gwidth g) with true by lia. replace (y <? _) with true by lia. simpl. now rewrite Hold.
  - rewrite Hg.
    replace (x <? gwidth g) with true by lia. replace (y <? _) with true by lia. simpl.
    unfold l. rewrite nth_error_list_set, Nat.eqb_refl. now replace (_ <? _) with true by lia.
  - intros x' y' Hne. rewrite Hg. destruct (@grid_get _ g x' y' Hw Hm) as [-> _].
    destruct (x' <? gwidth g) eqn:E1; simpl; auto. destruct (y' <? _) eqn:E2; simpl; auto.
    unfold l. rewrite nth_error_list_set.
    destruct (y' * gwidth g + x' =? y * gwidth g + x) eqn:E3; simpl; auto.
    exfalso. apply Hne. assert (y' = y) by nia. subst y'. f_equal. lia.
Qed.
Lemma grid_set_outside T (g : GridVec T) x y c : 0 < gwidth g ->
  gwidth g <= x \/ length (gvalues g) / gwidth g <= y ->
  gset g (mkIndex2D x y (gwidth g)) c = Ok (g, None).
Proof.
  intros Hw H. unfold gset, to_index_checked, with_grid. rewrite gsize_ok by lia. simpl.
  unfold with_size; simpl. replace (_ || _) with true; [reflexivity|]. symmetry.
  rewrite Nat.eqb_refl. simpl. destruct (gwidth g <=? x) eqn:E; simpl; auto. lia.
Qed.

(** ** C46 *)
Lemma wf_preserved cfg es doc doc' : wf_row doc ->
  Forall (fun e => match e with
                   | ERow (mkRowEdit Insert _ vs) => wf_row vs
                   | ERow (mkRowEdit Delete _ _) => True
                   | EGrid _ => False
                   end) es ->
  tree_apply_edits cfg doc es = Ok doc' -> wf_row doc'.
Proof.
  intros Hwf He. apply row_edits_wf; auto. eapply Forall_impl; [|exact He].
  intros [[[] p vs]|e]; simpl; auto. discriminate.
Qed.

Lemma strip_some p q s : strip p q = Some s -> q = p ++ s.
Proof.
  revert q; induction p as [|x p IH]; intros q; simpl; [congruence|].
  destruct q as [|y q]; [discriminate|]. destruct (rowindex_eqb x y) eqn:E; [|discriminate].
  apply rowindex_eqb_eq in E as ->. intros H. now rewrite (IH _ H).
Qed.
Lemma strip_none p q : strip p q = None -> ~ prefix p q.
Proof.
  intros H [s ->]. revert H. induction p as [|x p IH]; simpl; [discriminate|].
  now rewrite (proj2 (rowindex_eqb_eq x x) eq_refl).
Qed.

Lemma strip_app p q : strip p (p ++ q) = Some q.
Proof. induction p as [|x p IH]; simpl; auto. now rewrite (proj2 (rowindex_eqb_eq x x) eq_refl). Qed.

(** Nodes that do not lie in the replaced row. *)
Lemma replaced_node_elsewhere p r r' doc doc' q i v g : replaced p r r' doc doc' ->
  strip p q = None -> node_get doc q i = Some (Container v g) ->
  exists g', node_get doc' q i = Some (Container v g') /\ gwidth g' = gwidth g /\
    length (gvalues g') = length (gvalues g).
Proof.
  intros Hrep Hs Hn. pose proof (strip_none Hs) as Hnp.
  destruct (strip q p) as [[|x s]|] eqn:Eq.
  - apply strip_some in Eq. rewrite app_nil_r in Eq. subst. exfalso. apply Hnp. exists []. now rewrite app_nil_r.
  - apply strip_some in Eq. subst p.
    pose proof (replaced_above Hrep) as (row&row'&H1&H2&H3). unfold node_get in *. rewrite H1 in Hn. rewrite H2.
    destruct (Nat.eq_dec i (fst x)) as [->|Hne].
    + inv H3. simpl in *. rewrite nth_error_middle in *. inv Hn. eexists. split; [reflexivity|].
      simpl. rewrite !app_length. auto.
    + exists g. split; auto. inv H3. simpl in Hne. rewrite <- Hn. now apply app_cons_nth_other.
  - exists g. split; auto. unfold node_get in *.
    rewrite (replaced_elsewhere Hrep); auto. now apply strip_none.
Qed.

Lemma layout_kept cfg doc e doc' q i v g :
  tree_apply_edit cfg doc (ERow e) = Ok doc' -> node_get doc q i = Some (Container v g) ->
  match place e q i with
  | Some (q', i') => exists g', node_get doc' q' i' = Some (Container v g') /\
                      gwidth g' = gwidth g /\ length (gvalues g') = length (gvalues g)
  | None => True
  end.
Proof.
  intros H Hn. destruct e as [ty [p o] vs].
  assert (Hshift : exists row row', row_get doc p = Some row /\ replaced p row row' doc doc' /\
     forall k k', place_in_row (mkRowEdit ty (mkMinPos p o) vs) k = Some k' -> nth_error row' k' = nth_error row k).
  { destruct ty.
    - apply tree_delete_inv in H as (row&Hr&Ho&Hrep). do 2 eexists. split; [exact Hr|]. split; [exact Hrep|].
      intros k k'. unfold place_in_row; simpl. destruct (k <? o) eqn:E1.
      + intros E; inv E. apply nth_delete_left; lia.
      + destruct (k <? o + length vs) eqn:E2; [discriminate|]. intros E; inv E.
        rewrite nth_delete_right by lia. f_equal. lia.
    - apply tree_insert_inv in H as (row&Hr&Ho&Hrep). do 2 eexists. split; [exact Hr|]. split; [exact Hrep|].
      intros k k'. unfold place_in_row; simpl. intros E; inv E. destruct (k <? o) eqn:E1.
      + apply nth_insert_left; lia.
      + apply nth_insert_right; lia. }
  destruct Hshift as (row&row'&Hr&Hrep&Hshift).
  unfold place. cbn [mp_row re_pos]. destruct (strip p q) as [[|[k j] s]|] eqn:Es.
  - apply strip_some in Es. rewrite app_nil_r in Es. subst q.
    destruct (place_in_row _ i) as [i'|] eqn:Ei; auto.
    exists g. split; auto. unfold node_get in *. rewrite Hr in Hn. rewrite (replaced_get_new Hrep).
    rewrite (Hshift _ _ Ei). auto.
  - apply strip_some in Es. subst q.
    destruct (place_in_row _ k) as [k'|] eqn:Ek; auto.
    exists g. split; auto. unfold node_get in *. rewrite row_get_app, Hr in Hn. rewrite (replaced_under _ Hrep).
    rewrite (row_get_cons_nth _ _ (Hshift _ _ Ek)). exact Hn.
  - eapply replaced_node_elsewhere; eauto.
Qed.
