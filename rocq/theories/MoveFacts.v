(** Facts about selections and caret movement. *)
From Verif Require Import Base Str Grid Node Focus Edit Caret Spec SpecMove BaseFacts TreeFacts OrderFacts EditFacts.
Set Implicit Arguments.
Unset Strict Implicit.

(** ** Neighbours in the list of positions *)
Lemma next_in_infix A (l1 l l2 : list A) a b : next_in l a b -> next_in (l1 ++ l ++ l2) a b.
Proof. intros (m1&m2&->). exists (l1 ++ m1), (m2 ++ l2). now rewrite <- !app_assoc. Qed.
Lemma next_in_map A B (f : A -> B) l a b : next_in l a b -> next_in (map f l) (f a) (f b).
Proof. intros (m1&m2&->). exists (map f m1), (map f m2). now rewrite map_app. Qed.
Lemma next_in_middle A (l1 l2 : list A) a b : next_in ((l1 ++ [a]) ++ b :: l2) a b.
Proof. exists l1, l2. now rewrite <- app_assoc. Qed.

Lemma NoDup_split A (l1 l2 m1 m2 : list A) x : NoDup (l1 ++ x :: l2) ->
  l1 ++ x :: l2 = m1 ++ x :: m2 -> l1 = m1 /\ l2 = m2.
Proof.
  revert m1; induction l1 as [|a l1 IH]; intros [|b m1] Hn H; simpl in *.
  - inv H. auto.
  - inv H. inv Hn. exfalso. apply H1. rewrite in_app_iff. right. left. reflexivity.
  - inv H. inv Hn. exfalso. apply H1. rewrite in_app_iff. right. left. reflexivity.
  - inv H. inv Hn. destruct (IH m1) as [-> ->]; auto.
Qed.
Lemma next_in_fun A (l : list A) a b b' : NoDup l -> next_in l a b -> next_in l a b' -> b = b'.
Proof.
  intros Hn (l1&l2&->) (m1&m2&H). apply (NoDup_split Hn) in H as [_ H]. now inv H.
Qed.
Lemma next_in_inj A (l : list A) a a' b : NoDup l -> next_in l a b -> next_in l a' b -> a = a'.
Proof.
  intros Hn (l1&l2&->) (m1&m2&H).
  change (a :: b :: l2) with ([a] ++ (b :: l2)) in *. change (a' :: b :: m2) with ([a'] ++ (b :: m2)) in *.
  rewrite !app_assoc in *. apply (NoDup_split Hn) in H as [H _]. apply app_inj_tail in H. tauto.
Qed.

Lemma next_in_app_l A (k l : list A) a b : next_in l a b -> next_in (k ++ l) a b.
Proof. intros (m1&m2&->). exists (k ++ m1), m2. now rewrite <- app_assoc. Qed.
Lemma next_in_app_r A (k l : list A) a b : next_in l a b -> next_in (l ++ k) a b.
Proof. intros (m1&m2&->). exists m1, (m2 ++ k). now rewrite <- app_assoc. Qed.

Definition infix A (l m : list A) : Prop := exists l1 l2, m = l1 ++ l ++ l2.
Lemma infix_refl A (l : list A) : infix l l.
Proof. exists [], []. now rewrite app_nil_r. Qed.
Lemma infix_app_l A (k l m : list A) : infix l m -> infix l (k ++ m).
Proof. intros (m1&m2&->). exists (k ++ m1), m2. now rewrite <- app_assoc. Qed.
Lemma infix_app_r A (k l m : list A) : infix l m -> infix l (m ++ k).
Proof. intros (m1&m2&->). exists m1, (m2 ++ k). now rewrite <- !app_assoc. Qed.
Lemma infix_map A B (f : A -> B) l m : infix l m -> infix (map f l) (map f m).
Proof. intros (m1&m2&->). exists (map f m1), (map f m2). now rewrite !map_app. Qed.

(** ** The shape of the list of positions *)
Lemma nodes_positions_app k l r :
  nodes_positions k (l ++ r) = nodes_positions k l ++ nodes_positions (k + length l) r.
Proof.
  revert k; induction l as [|n l IH]; intros k.
  - simpl. now rewrite Nat.add_0_r.
  - cbn [app nodes_positions length]. rewrite IH, <- app_assoc. cbn [app].
    now replace (S k + length l) with (k + S (length l)) by lia.
Qed.
Lemma positions_app l r : positions (l ++ r) = positions l ++ nodes_positions (length l) r.
Proof. unfold positions. now rewrite nodes_positions_app. Qed.
Lemma positions_first doc : exists l, positions doc = here 0 :: l.
Proof. eexists. reflexivity. Qed.
Lemma positions_last doc : exists l, positions doc = l ++ [here (length doc)].
Proof.
  destruct (list_snoc doc) as [->|(l&n&->)].
  - exists []. reflexivity.
  - rewrite positions_app. cbn [nodes_positions]. rewrite app_assoc. eexists. f_equal.
    rewrite app_length. simpl. repeat f_equal. lia.
Qed.
Lemma positions_split l n r : positions (l ++ n :: r) =
  positions l ++ node_positions (length l) n ++ here (S (length l)) :: nodes_positions (S (length l)) r.
Proof. now rewrite positions_app. Qed.
Lemma cells_positions_app i j l r :
  cells_positions i j (l ++ r) = cells_positions i j l ++ cells_positions i (j + length l) r.
Proof.
  revert j; induction l as [|c l IH]; intros j.
  - simpl. now rewrite Nat.add_0_r.
  - cbn [app cells_positions length]. rewrite IH, <- app_assoc.
    now replace (S j + length l) with (j + S (length l)) by lia.
Qed.

Definition under (p : RowIndices) (m : MinPos) : MinPos := mkMinPos (p ++ mp_row m) (mp_offset m).
Lemma under_cons x p m : under (x :: p) m = below x (under p m).
Proof. reflexivity. Qed.

(** The positions of a nested row are a contiguous part of the positions of the document. *)
Lemma positions_infix doc p row : row_get doc p = Some row ->
  infix (map (under p) (positions row)) (positions doc).
Proof.
  revert doc; induction p as [|[i j] p IH]; intros doc H; simpl in H.
  - inv H. erewrite map_ext; [rewrite map_id; apply infix_refl|]. now intros [].
  - destruct (nth_error doc i) as [[v [cells w]|s]|] eqn:Ei; try discriminate. simpl in H.
    destruct (nth_error cells j) as [cell|] eqn:Ej; try discriminate.
    apply IH, (infix_map (below (i, j))) in H. rewrite map_map in H. erewrite map_ext; [|intros; apply under_cons].
    apply nth_error_split_len in Ei as (l&r&->&<-). apply nth_error_split_len in Ej as (b&a&->&<-).
    rewrite positions_split, node_positions_container, cells_positions_app. cbn [cells_positions].
    apply infix_app_l, infix_app_r, infix_app_l, infix_app_r. exact H.
Qed.

Lemma next_in_under doc p row a b : row_get doc p = Some row -> next_in (positions row) a b ->
  next_in (positions doc) (under p a) (under p b).
Proof.
  intros H Hn. apply positions_infix in H as (l1&l2&->). now apply next_in_infix, next_in_map.
Qed.

(** One step to the right. *)
Inductive right_step (doc : InputRow) : MinPos -> MinPos -> Prop :=
| rs_symbol p o s : node_get doc p o = Some (Symbol s) ->
    right_step doc (mkMinPos p o) (mkMinPos p (o + 1))
| rs_enter p o v g : node_get doc p o = Some (Container v g) -> 0 < length (gvalues g) ->
    right_step doc (mkMinPos p o) (mkMinPos (p ++ [(o, 0)]) 0)
| rs_cell p i j v g c : node_get doc p i = Some (Container v g) -> nth_error (gvalues g) j = Some c ->
    j + 1 < length (gvalues g) ->
    right_step doc (mkMinPos (p ++ [(i, j)]) (length c)) (mkMinPos (p ++ [(i, j + 1)]) 0)
| rs_leave p i j v g c : node_get doc p i = Some (Container v g) -> nth_error (gvalues g) j = Some c ->
    j + 1 = length (gvalues g) ->
    right_step doc (mkMinPos (p ++ [(i, j)]) (length c)) (mkMinPos p (i + 1)).

Lemma right_step_next doc a b : right_step doc a b -> next_in (positions doc) a b.
Proof.
  assert (Hu : forall p q o, mkMinPos (p ++ q) o = under p (mkMinPos q o)) by reflexivity.
  assert (Hh : forall p o, mkMinPos p o = under p (here o)) by (intros; unfold under; simpl; now rewrite app_nil_r).
  intros H. destruct H as [p o s H|p o v g H Hg|p i j v g c H Hc Hj|p i j v g c H Hc Hj];
    unfold node_get in H; destruct (row_get doc p) as [row|] eqn:Er; try discriminate;
    apply nth_error_split_len in H as (l&r&->&<-).
  - rewrite (Hh p (length l)), (Hh p (length l + 1)). eapply next_in_under; eauto.
    rewrite positions_split. simpl node_positions. cbn [app]. destruct (positions_last l) as [m ->].
    rewrite Nat.add_1_r. apply next_in_middle.
  - rewrite (Hh p (length l)), (Hu p [_]). eapply next_in_under; eauto.
    destruct g as [[|c cells] w]; [simpl in Hg; lia|].
    rewrite positions_split, node_positions_container. destruct (positions_last l) as [m ->].
    simpl. apply next_in_middle.
  - rewrite (Hu p [(_, j)]), (Hu p [(_, j + 1)]). eapply next_in_under; eauto. destruct g as [cells w]. simpl in Hc, Hj.
    rewrite positions_split, node_positions_container. apply next_in_infix.
    apply nth_error_split_len in Hc as (b&a&->&<-). rewrite cells_positions_app. cbn [cells_positions].
    destruct a as [|c' a]; [rewrite app_length in Hj; simpl in Hj; lia|].
    destruct (positions_last c) as [m ->]. rewrite map_app. cbn [map]. rewrite Nat.add_1_r.
    apply next_in_app_l. cbn [cells_positions]. destruct (positions_first c') as [m' ->]. cbn [map app]. apply next_in_middle.
  - rewrite (Hu p [_]), (Hh p (length l + 1)). eapply next_in_under; eauto. destruct g as [cells w]. simpl in Hc, Hj.
    rewrite positions_split, node_positions_container.
    apply nth_error_split_len in Hc as (b&a&->&<-).
    destruct a as [|c' a]; [|rewrite app_length in Hj; simpl in Hj; lia].
    rewrite cells_positions_app. cbn [cells_positions].
    destruct (positions_last c) as [m ->]. rewrite map_app, app_nil_r. cbn [map]. rewrite Nat.add_1_r.
    apply next_in_app_l. rewrite app_assoc. apply next_in_middle.
Qed.

(** ** Horizontal movement *)
Lemma good_pos_node doc p n : good_pos doc p -> nth_error (fr_row (pos_focus p)) (pos_offset p) = Some n ->
  node_get doc (pos_indices p) (pos_offset p) = Some n.
Proof. intros [Hc _] H. unfold node_get, pos_indices. now rewrite (canonical_row Hc). Qed.

Lemma focus_row_ok doc f i j v g : wf_row doc -> canonical doc f ->
  nth_error (fr_row f) i = Some (Container v g) -> j < length (gvalues g) ->
  exists f', focus_row_at f (i, j) = Ok (Some f') /\ canonical doc f' /\
    fr_indices f' = fr_indices f ++ [(i, j)] /\ nth_error (gvalues g) j = Some (fr_row f').
Proof.
  intros Hwf Hc Hn Hj.
  assert (Hg : wf_node (Container v g)).
  { eapply wf_row_nth; [|eauto]. eapply row_get_wf; eauto. now apply canonical_row. }
  apply wf_container_inv in Hg as (Hw&_&Hm&_).
  destruct (nth_error_lt_Some Hj) as [c Hcell].
  pose proof (focus_row_at_eq j Hn Hw Hm) as E. rewrite Hcell in E.
  eexists. split; [exact E|]. split; [eapply canonical_child; eauto|]. simpl. auto.
Qed.
Lemma focus_row_miss doc f i j v g : wf_row doc -> canonical doc f ->
  nth_error (fr_row f) i = Some (Container v g) -> length (gvalues g) <= j ->
  focus_row_at f (i, j) = Ok None.
Proof.
  intros Hwf Hc Hn Hj.
  assert (Hg : wf_node (Container v g)).
  { eapply wf_row_nth; [|eauto]. eapply row_get_wf; eauto. now apply canonical_row. }
  apply wf_container_inv in Hg as (Hw&_&Hm&_).
  rewrite (focus_row_at_eq j Hn Hw Hm). apply nth_error_None in Hj. now rewrite Hj.
Qed.

Lemma focus_wf_node doc f i n : wf_row doc -> canonical doc f -> nth_error (fr_row f) i = Some n -> wf_node n.
Proof. intros Hwf Hc Hn. eapply wf_row_nth; [|eauto]. eapply row_get_wf; eauto. now apply canonical_row. Qed.

Lemma wf_grid_size v g : wf_node (Container v g) ->
  gsize g = Ok (gwidth g, length (gvalues g) / gwidth g) /\
  gwidth g * (length (gvalues g) / gwidth g) = length (gvalues g) /\ 0 < length (gvalues g).
Proof.
  intros H. apply wf_container_inv in H as (Hw&Hne&Hm&_). split; [now apply gsize_ok|].
  split; [|destruct (gvalues g); [congruence|simpl; lia]].
  pose proof (Nat.div_mod (length (gvalues g)) (gwidth g) ltac:(lia)). lia.
Qed.

Lemma node_get_canonical doc f i n : canonical doc f -> nth_error (fr_row f) i = Some n ->
  node_get doc (fr_indices f) i = Some n.
Proof. intros Hc H. unfold node_get. now rewrite (canonical_row Hc). Qed.

Lemma move_right cfg doc p : wf_row doc -> good_pos doc p ->
  exists r, move_caret_internal cfg p DRight = Ok r /\
    match r with
    | Some q => good_pos doc q /\ right_step doc (pos_to_minimal p) (pos_to_minimal q)
    | None => pos_to_minimal p = here (length doc)
    end.
Proof.
  intros Hwf [Hc Ho]. destruct p as [f o]. cbn [pos_focus pos_offset] in *.
  unfold move_caret_internal, move_horizontal_into, focus_offset_to_index, row_offset_to_index; cbn [pos_focus pos_offset is_left].
  destruct (length (fr_row f) <=? o) eqn:El.
  - assert (o = length (fr_row f)) by lia. subst o. cbn [bind].
    unfold move_horizontal_beyond_edge; cbn [pos_focus pos_offset is_left].
    destruct (focus_parent f) as [n|] eqn:Ep.
    + pose proof (canonical_parent_inv Hc Ep) as (p&j&Hi&Hcp&Hip&Hn&Hrow).
      rewrite (index_in_parent_eq cfg Hc Hi). cbn [bind].
      pose proof (focus_row_at_inv Hrow) as (v&g&c&Hn'&Hcell&Hf).
      rewrite (fn_child_at_row_at _ Hn).
      assert (c = fr_row f) as -> by (rewrite Hf; reflexivity).
      pose proof (nth_error_Some_lt Hcell) as Hj. pose proof (nth_error_Some_lt Hn) as Hni.
      unfold pos_to_minimal, pos_indices; cbn [pos_focus pos_offset]. rewrite Hi.
      destruct (Nat.lt_ge_cases (j + 1) (length (gvalues g))) as [Hlt|Hge].
      * destruct (focus_row_ok Hwf Hcp Hn' Hlt) as (f'&E&Hc'&Hi'&Hcell').
        rewrite E. cbn [bind]. rewrite pos_new_ok by lia. cbn [bind]. eexists. split; [reflexivity|].
        split; [split; simpl; auto; lia|]. simpl. rewrite Hi', Hip.
        eapply rs_cell; eauto. rewrite <- Hip. eapply node_get_canonical; eauto.
      * rewrite (focus_row_miss Hwf Hcp Hn' Hge). cbn [bind].
        rewrite pos_new_ok by lia. cbn [bind]. eexists. split; [reflexivity|].
        split; [split; simpl; auto; lia|]. simpl. rewrite Hip.
        eapply rs_leave; eauto; [|lia]. rewrite <- Hip. eapply node_get_canonical; eauto.
    + eexists. split; [reflexivity|]. apply (canonical_parent_none Hc) in Ep.
      pose proof (canonical_row Hc) as Hr. unfold pos_to_minimal, pos_indices; simpl. rewrite Ep in *. inv Hr.
      reflexivity.
  - unfold focus_child_at. destruct (nth_error_lt_Some (l := fr_row f) (i := o)) as [n Hn]; [lia|].
    rewrite Hn. cbn [unwrap bind fn_node]. destruct n as [v g|s].
    + destruct (wf_grid_size (focus_wf_node Hwf Hc Hn)) as (_&_&Hl).
      rewrite fn_child_at_row_at by exact Hn. simpl fn_parent; simpl fn_index.
      destruct (focus_row_ok Hwf Hc Hn Hl) as (f'&E&Hc'&Hi'&_).
      rewrite E. cbn [bind unwrap]. rewrite pos_new_ok by lia. cbn [bind]. eexists. split; [reflexivity|].
      split; [split; simpl; auto; lia|]. unfold pos_to_minimal, pos_indices; simpl. rewrite Hi'.
      eapply rs_enter; eauto. eapply node_get_canonical; eauto.
    + rewrite pos_new_ok by lia. cbn [bind]. eexists. split; [reflexivity|].
      split; [split; simpl; auto; lia|]. unfold pos_to_minimal, pos_indices; simpl.
      eapply rs_symbol. eapply node_get_canonical; eauto.
Qed.

Lemma move_left cfg doc p : wf_row doc -> good_pos doc p ->
  (overflow_checks cfg = true -> ~ at_cell_zero (pos_to_minimal p)) ->
  exists r, move_caret_internal cfg p DLeft = Ok r /\
    match r with
    | Some q => good_pos doc q /\ right_step doc (pos_to_minimal q) (pos_to_minimal p)
    | None => pos_to_minimal p = here 0
    end.
Proof.
  intros Hwf [Hc Ho] Hz. destruct p as [f o]. cbn [pos_focus pos_offset] in *.
  unfold move_caret_internal, move_horizontal_into, focus_offset_to_index, row_offset_to_index; cbn [pos_focus pos_offset is_left].
  destruct (o =? 0) eqn:El.
  - assert (o = 0) by lia. subst o. cbn [bind].
    unfold move_horizontal_beyond_edge; cbn [pos_focus pos_offset is_left].
    destruct (focus_parent f) as [n|] eqn:Ep.
    + pose proof (canonical_parent_inv Hc Ep) as (p&j&Hi&Hcp&Hip&Hn&Hrow).
      rewrite (index_in_parent_eq cfg Hc Hi). cbn [bind].
      pose proof (focus_row_at_inv Hrow) as (v&g&c&Hn'&Hcell&Hf).
      assert (c = fr_row f) as -> by (rewrite Hf; reflexivity).
      pose proof (nth_error_Some_lt Hcell) as Hj. pose proof (nth_error_Some_lt Hn) as Hni.
      unfold pos_to_minimal, pos_indices in *; cbn [pos_focus pos_offset] in *. rewrite Hi in *.
      destruct (wf_grid_size (focus_wf_node Hwf Hcp Hn')) as (Hsz&_&Hl).
      unfold usub. destruct (1 <=? j) eqn:Ej.
      * cbn [bind]. rewrite (fn_child_at_row_at _ Hn).
        assert (Hlt : j - 1 < length (gvalues g)) by lia.
        destruct (focus_row_ok Hwf Hcp Hn' Hlt) as (f'&E&Hc'&Hi'&Hcell').
        rewrite E. cbn [bind]. rewrite pos_new_ok by lia. cbn [bind]. eexists. split; [reflexivity|].
        split; [split; simpl; auto; lia|]. simpl. rewrite Hi', Hip.
        replace j with (j - 1 + 1) at 2 by lia.
        eapply rs_cell; eauto; [|lia]. rewrite <- Hip. eapply node_get_canonical; eauto.
      * assert (j = 0) by lia. subst j. destruct (overflow_checks cfg) eqn:Eo.
        { exfalso. apply Hz; auto. split; simpl; eauto. }
        cbn [bind]. unfold fn_child_at. assert (fn_node n = Container v g) as -> by congruence. rewrite Hsz. cbn [bind].
        rewrite pos_new_ok by lia. cbn [bind]. eexists. split; [reflexivity|].
        split; [split; simpl; auto; lia|]. simpl.
        rewrite Hip; eapply rs_enter; eauto. rewrite <- Hip; eapply node_get_canonical; eauto.
    + eexists. split; [reflexivity|]. apply (canonical_parent_none Hc) in Ep.
      unfold pos_to_minimal, pos_indices; simpl. now rewrite Ep.
  - unfold focus_child_at. destruct (nth_error_lt_Some (l := fr_row f) (i := o - 1)) as [n Hn]; [lia|].
    rewrite Hn. cbn [unwrap bind fn_node]. destruct n as [v g|s].
    + destruct (wf_grid_size (focus_wf_node Hwf Hc Hn)) as (Hsz&Hm&Hl).
      rewrite Hsz. cbn [bind]. rewrite Hm. unfold usub. replace (1 <=? _) with true by lia. cbn [bind].
      rewrite fn_child_at_row_at by exact Hn. simpl fn_parent; simpl fn_index.
      assert (Hlt : length (gvalues g) - 1 < length (gvalues g)) by lia.
      destruct (focus_row_ok Hwf Hc Hn Hlt) as (f'&E&Hc'&Hi'&Hcell).
      rewrite E. cbn [bind unwrap]. rewrite pos_new_ok by lia. cbn [bind]. eexists. split; [reflexivity|].
      split; [split; simpl; auto; lia|]. unfold pos_to_minimal, pos_indices; simpl. rewrite Hi'.
      replace o with (o - 1 + 1) at 2 by lia.
      eapply rs_leave; eauto; [|lia]. eapply node_get_canonical; eauto.
    + rewrite pos_new_ok by lia. cbn [bind]. eexists. split; [reflexivity|].
      split; [split; simpl; auto; lia|]. unfold pos_to_minimal, pos_indices; simpl.
      replace o with (o - 1 + 1) at 2 by lia.
      eapply rs_symbol. eapply node_get_canonical; eauto.
Qed.

(** ** Vertical movement *)
Lemma grid_row_above g j xy : 0 < gwidth (T := InputRow) g -> length (gvalues g) mod gwidth g = 0 ->
  j < length (gvalues g) -> from_index j g = Ok xy ->
  sub_checked xy (0, 1) g =
    Ok (if gwidth g <=? j then Some (mkIndex2D (j mod gwidth g) ((j - gwidth g) / gwidth g) (gwidth g)) else None).
Proof.
  intros Hw Hm Hj H. apply from_index_inv in H as [_ ->]. unfold sub_checked; cbn [fst snd ix iy iwidth].
  pose proof (Nat.div_mod j (gwidth g) ltac:(lia)) as Hd. pose proof (Nat.mod_upper_bound j (gwidth g) ltac:(lia)).
  replace (0 <=? j mod gwidth g) with true by lia.
  destruct (gwidth g <=? j) eqn:E.
  - assert (H1 : 1 <= j / gwidth g) by nia. replace (1 <=? _) with true by lia. cbn [andb].
    assert (E2 : (j - gwidth g) / gwidth g = j / gwidth g - 1).
    { replace j with (j / gwidth g * gwidth g + j mod gwidth g) at 1 by lia.
      replace (j / gwidth g * gwidth g + j mod gwidth g - gwidth g) with (j mod gwidth g + (j / gwidth g - 1) * gwidth g) by nia.
      rewrite Nat.div_add by lia. rewrite Nat.div_small by lia. lia. }
    rewrite E2. unfold with_grid. rewrite gsize_ok by lia. cbn [bind]. unfold with_size; cbn [iwidth ix iy fst snd].
    apply (div_lt_full (w := gwidth g)) in Hj; auto.
    rewrite Nat.eqb_refl. cbn [negb orb]. replace (_ <=? _) with false by lia. replace (_ <=? _) with false by lia.
    cbn [orb]. now rewrite Nat.sub_0_r.
  - rewrite Nat.div_small by lia. reflexivity.
Qed.
Lemma grid_row_below g j xy : 0 < gwidth (T := InputRow) g -> length (gvalues g) mod gwidth g = 0 ->
  from_index j g = Ok xy ->
  add_checked xy (0, 1) g =
    Ok (if j + gwidth g <? length (gvalues g)
        then Some (mkIndex2D (j mod gwidth g) ((j + gwidth g) / gwidth g) (gwidth g)) else None).
Proof.
  intros Hw Hm H. apply from_index_inv in H as [_ ->]. unfold add_checked; cbn [fst snd ix iy iwidth].
  pose proof (Nat.mod_upper_bound j (gwidth g) ltac:(lia)).
  assert (E2 : (j + gwidth g) / gwidth g = j / gwidth g + 1).
  { replace (j + gwidth g) with (j + 1 * gwidth g) by lia. rewrite Nat.div_add by lia. lia. }
  rewrite E2. unfold with_grid. rewrite gsize_ok by lia. cbn [bind]. unfold with_size; cbn [iwidth ix iy fst snd].
  rewrite Nat.eqb_refl. cbn [negb orb]. rewrite Nat.add_0_r. replace (gwidth g <=? _) with false by lia. cbn [orb].
  pose proof (div_lt_full (j + gwidth g) Hw Hm) as Hd. rewrite E2 in Hd.
  destruct (j + gwidth g <? length (gvalues g)) eqn:E.
  - replace (_ <=? _) with false by lia. reflexivity.
  - replace (_ <=? _) with true by lia. reflexivity.
Qed.
Lemma to_index_above w j : 0 < w -> w <= j -> to_index (mkIndex2D (j mod w) ((j - w) / w) w) = j - w.
Proof.
  intros Hw Hj. rewrite <- (to_index_from (j - w) Hw) at 2. f_equal. f_equal.
  replace j with (j - w + 1 * w) at 1 by lia. now rewrite Nat.mod_add by lia.
Qed.
Lemma to_index_below w j : 0 < w -> to_index (mkIndex2D (j mod w) ((j + w) / w) w) = j + w.
Proof.
  intros Hw. rewrite <- (to_index_from (j + w) Hw) at 2. f_equal. f_equal.
  replace (j + w) with (j + 1 * w) by lia. now rewrite Nat.mod_add by lia.
Qed.

Lemma move_vertical_fuel_spec cfg doc : wf_row doc -> forall fuel p d, good_pos doc p ->
  length (pos_indices p) < fuel ->
  exists r, move_vertical_fuel fuel cfg p d = Ok r /\
    match r with Some q => good_pos doc q | None => True end /\
    match d with VUp => up_from doc (pos_indices p) (option_map pos_to_minimal r)
               | VDown => down_from doc (pos_indices p) (option_map pos_to_minimal r) end.
Proof.
  intros Hwf fuel; induction fuel as [|fuel IH]; intros p d [Hc Ho] Hlen; [lia|].
  destruct p as [f o]. cbn [pos_focus pos_offset] in *. unfold pos_indices in *; cbn [pos_focus] in *.
  cbn [move_vertical_fuel pos_focus]. destruct (focus_parent f) as [n|] eqn:Ep.
  - pose proof (canonical_parent_inv Hc Ep) as (p&j&Hi&Hcp&Hip&Hn&Hrow).
    rewrite (index_in_parent_eq cfg Hc Hi). cbn [bind].
    pose proof (focus_row_at_inv Hrow) as (v&g&c&Hn'&Hcell&Hf).
    assert (c = fr_row f) as -> by (rewrite Hf; reflexivity).
    pose proof (nth_error_Some_lt Hcell) as Hj. pose proof (nth_error_Some_lt Hn) as Hni.
    assert (Hv : fn_node n = Container v g) by congruence. rewrite Hv. rewrite Hi.
    assert (Hng : node_get doc p (fn_index n) = Some (Container v g)).
    { rewrite <- Hip. eapply node_get_canonical; eauto. }
    pose proof (focus_wf_node Hwf Hcp Hn') as Hg.
    pose proof (wf_container_inv Hg) as (Hw&_&Hm&_).
    assert (Hlen' : length (fr_indices (fn_parent n)) < fuel).
    { rewrite Hi, app_length in Hlen. rewrite Hip. simpl in Hlen. unfold RowIndex in *. lia. }
    assert (IH' : forall d, exists r, move_vertical_fuel fuel cfg (mkPos (fn_parent n) 0) d = Ok r /\
       match r with Some q => good_pos doc q | None => True end /\
       match d with VUp => up_from doc p (option_map pos_to_minimal r)
               | VDown => down_from doc p (option_map pos_to_minimal r) end).
    { intros d'. rewrite <- Hip. apply (IH (mkPos (fn_parent n) 0) d'); [split; simpl; auto; lia|exact Hlen']. }
    pose proof (from_index_eq j Hw) as Hxy. rewrite Hxy. cbn [bind].
    destruct d.
    + destruct (IH' VUp) as (r&Er&Hgr&Hu).
      rewrite (grid_row_above Hw Hm Hj Hxy). cbn [bind].
      assert (Hgo : v <> Sup -> exists r,
        (new_row <- (match (if gwidth g <=? j then Some (mkIndex2D (j mod gwidth g) ((j - gwidth g) / gwidth g) (gwidth g)) else None) with
           | Some new_xy => fn_child_at n (Some (to_index new_xy)) | None => Ok None end) ;;
         match new_row with
         | Some new_row => p <- pos_new new_row (length (fr_row new_row)) ;; Ok (Some p)
         | None => p <- pos_new (fn_parent n) 0 ;; move_vertical_fuel fuel cfg p VUp
         end) = Ok r /\ match r with Some q => good_pos doc q | None => True end /\
         up_from doc (p ++ [(fn_index n, j)]) (option_map pos_to_minimal r)).
      { intros Hvs. destruct (gwidth g <=? j) eqn:E.
        - rewrite to_index_above by lia. rewrite (fn_child_at_row_at _ Hn).
          assert (Hlt : j - gwidth g < length (gvalues g)) by lia.
          destruct (focus_row_ok Hwf Hcp Hn' Hlt) as (f'&E'&Hc'&Hi'&Hcell').
          rewrite E'. cbn [bind]. rewrite pos_new_ok by lia. cbn [bind]. eexists. split; [reflexivity|].
          split; [split; simpl; auto; lia|]. simpl. unfold pos_to_minimal, pos_indices; simpl. rewrite Hi', Hip.
          eapply up_cell; eauto. lia.
        - cbn [bind]. rewrite pos_new_ok by lia. cbn [bind]. exists r. split; [exact Er|]. split; auto.
          eapply up_out; eauto. lia. }
      destruct v; try (apply Hgo; discriminate).
      rewrite pos_new_ok by lia. cbn [bind]. eexists. split; [reflexivity|].
      split; [split; simpl; auto; lia|]. simpl. unfold pos_to_minimal, pos_indices; simpl. rewrite Hip.
      eapply up_sup; eauto.
    + destruct (IH' VDown) as (r&Er&Hgr&Hu).
      rewrite (grid_row_below Hw Hm Hxy). cbn [bind].
      assert (Hgo : v <> Sub -> exists r,
        (new_row <- (match (if j + gwidth g <? length (gvalues g)
              then Some (mkIndex2D (j mod gwidth g) ((j + gwidth g) / gwidth g) (gwidth g)) else None) with
           | Some new_xy => fn_child_at n (Some (to_index new_xy)) | None => Ok None end) ;;
         match new_row with
         | Some new_row => p <- pos_new new_row 0 ;; Ok (Some p)
         | None => p <- pos_new (fn_parent n) 0 ;; move_vertical_fuel fuel cfg p VDown
         end) = Ok r /\ match r with Some q => good_pos doc q | None => True end /\
         down_from doc (p ++ [(fn_index n, j)]) (option_map pos_to_minimal r)).
      { intros Hvs. destruct (j + gwidth g <? length (gvalues g)) eqn:E.
        - rewrite to_index_below by lia. rewrite (fn_child_at_row_at _ Hn).
          assert (Hlt : j + gwidth g < length (gvalues g)) by lia.
          destruct (focus_row_ok Hwf Hcp Hn' Hlt) as (f'&E'&Hc'&Hi'&Hcell').
          rewrite E'. cbn [bind]. rewrite pos_new_ok by lia. cbn [bind]. eexists. split; [reflexivity|].
          split; [split; simpl; auto; lia|]. simpl. unfold pos_to_minimal, pos_indices; simpl. rewrite Hi', Hip.
          eapply down_cell; eauto.
        - cbn [bind]. rewrite pos_new_ok by lia. cbn [bind]. exists r. split; [exact Er|]. split; auto.
          eapply down_out; eauto. lia. }
      destruct v; try (apply Hgo; discriminate).
      rewrite pos_new_ok by lia. cbn [bind]. eexists. split; [reflexivity|].
      split; [split; simpl; auto; lia|]. simpl. unfold pos_to_minimal, pos_indices; simpl. rewrite Hip.
      eapply down_sub; eauto.
  - apply (canonical_parent_none Hc) in Ep. exists None. split; [reflexivity|]. split; [exact I|].
    rewrite Ep. destruct d; constructor.
Qed.

(** ** Selections *)
Lemma span_same m : span m m = mkMinRange (mp_row m) (mp_offset m) (mp_offset m).
Proof. induction m as [o|x m IH] using pos_ind; [reflexivity|]. rewrite span_below, IH. reflexivity. Qed.

Lemma diverge (a b : RowIndices) : exists ra rb,
  a = get_shared a b ++ ra /\ b = get_shared a b ++ rb /\
  match ra, rb with x :: _, y :: _ => x <> y | _, _ => True end.
Proof.
  revert b; induction a as [|x a IH]; intros [|y b]; simpl.
  - exists [], []. auto.
  - exists [], (y :: b). auto.
  - exists (x :: a), []. auto.
  - destruct (rowindex_eqb x y) eqn:E.
    + apply rowindex_eqb_eq in E as ->. destruct (IH b) as (ra&rb&Ha&Hb&H).
      exists ra, rb. simpl. rewrite <- Ha, <- Hb. auto.
    + exists (x :: a), (y :: b). simpl. repeat split; auto. intros ->.
      rewrite (proj2 (rowindex_eqb_eq y y) eq_refl) in E. discriminate.
Qed.
Lemma get_shared_diverge p x s y s' : x <> y -> get_shared (p ++ x :: s) (p ++ y :: s') = p.
Proof.
  intros Hne. induction p as [|z p IH]; simpl.
  - destruct (rowindex_eqb x y) eqn:E; auto. apply rowindex_eqb_eq in E. congruence.
  - rewrite (proj2 (rowindex_eqb_eq z z) eq_refl). now rewrite IH.
Qed.

Lemma nth_error_app_hd A (l r : list A) : nth_error (l ++ r) (length l) = hd_error r.
Proof. rewrite nth_error_app2, Nat.sub_diag by lia. destruct r; reflexivity. Qed.

Lemma cmp_under p a b : minpos_cmp (mkMinPos (p ++ mp_row a) (mp_offset a)) (mkMinPos (p ++ mp_row b) (mp_offset b)) = minpos_cmp a b.
Proof.
  induction p as [|x p IH]; [destruct a, b; reflexivity|].
  change (minpos_cmp (below x (mkMinPos (p ++ mp_row a) (mp_offset a))) (below x (mkMinPos (p ++ mp_row b) (mp_offset b))) = minpos_cmp a b).
  rewrite cmp_below, rowindex_cmp_refl. exact IH.
Qed.

Lemma rect_ok g j j' : 0 < gwidth (T := InputRow) g -> length (gvalues g) mod gwidth g = 0 ->
  j < length (gvalues g) -> j' < length (gvalues g) ->
  (si <- from_index j g ;; ei <- from_index j' g ;; rect_from_indices_inclusive si ei g) =
  Ok (mkRect (Nat.min j j') (Nat.max j j' + 1) (gwidth g)).
Proof.
  intros Hw Hm Hj Hj'.
  assert (H : forall j, j < length (gvalues g) ->
     to_index_checked (mkIndex2D (j mod gwidth g) (j / gwidth g) (gwidth g)) g = Ok (Some j)).
  { intros k Hk. unfold to_index_checked, with_grid. rewrite gsize_ok by lia. cbn [bind].
    unfold with_size; cbn [iwidth ix iy fst snd]. rewrite Nat.eqb_refl. cbn [negb orb].
    pose proof (Nat.mod_upper_bound k (gwidth g) ltac:(lia)).
    apply (div_lt_full (w := gwidth g)) in Hk; auto.
    replace (_ <=? _) with false by lia. replace (_ <=? _) with false by lia. cbn [orb option_map].
    now rewrite to_index_from. }
  rewrite !from_index_eq by auto. cbn [bind]. unfold rect_from_indices_inclusive.
  rewrite (H j Hj), (H j' Hj'). cbn [bind unwrap]. unfold gwidth_of. rewrite gsize_ok by auto. cbn [bind fst].
  destruct (j' <? j) eqn:E; unfold rect_new.
  - replace (_ <? _) with true by lia. repeat f_equal; lia.
  - replace (_ <? _) with true by lia. repeat f_equal; lia.
Qed.

Definition selection_spec (doc : InputRow) (a b : MinPos) (sel : CaretSelection) : Prop :=
  match sel with
  | SelGrid r => exists p i g j j', in_table_cells doc a b p i g j j' /\
      gr_to_minimal r = mkMinGridRange p i (mkRect (Nat.min j j') (Nat.max j j' + 1) (gwidth g))
  | SelRow r => (forall p i g j j', ~ in_table_cells doc a b p i g j j') /\
      good_range doc r /\ rg_to_minimal r = span a b
  end.

Lemma selection_ok doc s e : wf_row doc -> good_pos doc s -> good_pos doc e ->
  exists sel, selection_from_positions doc s e = Ok sel /\
    selection_spec doc (pos_to_minimal s) (pos_to_minimal e) sel.
Proof.
  intros Hwf Hs He. destruct (range_from_positions_ok Hwf Hs He) as (r&Er&Hr&Hspan).
  unfold selection_from_positions. rewrite Er. cbn [bind].
  destruct (diverge (pos_indices s) (pos_indices e)) as (ra&rb&Ha&Hb&Hne).
  set (sh := get_shared (pos_indices s) (pos_indices e)) in *.
  assert (Hri : rg_indices r = sh).
  { apply (f_equal mr_row) in Hspan. unfold span in Hspan. cbn [mr_row rg_to_minimal] in Hspan.
    rewrite Hspan. reflexivity. }
  assert (Hsr : row_get doc sh = Some (fr_row (rg_focus r))).
  { rewrite <- Hri. apply canonical_row, Hr. }
  (* the table case determines the paths *)
  assert (Huniq : forall p i g j j', in_table_cells doc (pos_to_minimal s) (pos_to_minimal e) p i g j j' ->
     sh = p /\ hd_error ra = Some (i, j) /\ hd_error rb = Some (i, j') /\
     nth_error (fr_row (rg_focus r)) i = Some (Container Table g)).
  { intros p i g j j' (Hn&Hjj&[s1 H1]&[s2 H2]). cbn [pos_to_minimal mp_row] in H1, H2.
    rewrite <- app_assoc in H1, H2. cbn [app] in H1, H2.
    assert (Hp : sh = p). { unfold sh. rewrite H1, H2. apply get_shared_diverge. congruence. }
    split; auto. rewrite Ha, Hp in H1. rewrite Hb, Hp in H2. apply app_inv_head in H1, H2. subst ra rb.
    split; auto. split; auto. unfold node_get in Hn. now rewrite <- Hp, Hsr in Hn. }
  assert (Hhd : forall (x y : RowIndex), hd_error ra = Some x -> hd_error rb = Some y -> x <> y).
  { intros x y Hx Hy. destruct ra, rb; try discriminate. simpl in Hx, Hy. now inv Hx; inv Hy. }
  assert (Hlen : forall (x y : RowIndex), hd_error ra = Some x -> hd_error rb = Some y ->
     (fst x = fst y -> rg_len r = 1) /\ (rg_len r = 1 -> fst x = fst y /\ rg_left r = fst x)).
  { intros x y Hx Hy. specialize (Hhd _ _ Hx Hy). destruct ra as [|x' ra]; [discriminate|]. destruct rb as [|y' rb]; [discriminate|].
    simpl in Hx, Hy. inv Hx. inv Hy.
    pose proof (f_equal mr_start Hspan) as Es. pose proof (f_equal mr_end Hspan) as Ee.
    unfold span in Es, Ee. cbn [mr_start mr_end rg_to_minimal pos_to_minimal mp_row mp_offset] in Es, Ee.
    fold sh in Es, Ee.
    assert (Nx : nth_error (pos_indices s) (length sh) = Some x) by (rewrite Ha; apply nth_error_app_hd).
    assert (Ny : nth_error (pos_indices e) (length sh) = Some y) by (rewrite Hb; apply nth_error_app_hd).
    rewrite Nx in Es. rewrite Ny in Ee.
    assert (Hcmp : minpos_cmp (pos_to_minimal s) (pos_to_minimal e) = rowindex_cmp x y).
    { unfold pos_to_minimal. rewrite Ha, Hb.
      etransitivity; [apply (cmp_under sh (mkMinPos (x :: ra) (pos_offset s)) (mkMinPos (y :: rb) (pos_offset e)))|].
      change (minpos_cmp (below x (mkMinPos ra (pos_offset s))) (below y (mkMinPos rb (pos_offset e))) = rowindex_cmp x y).
      rewrite cmp_below. destruct (rowindex_cmp x y) eqn:E; auto. apply rowindex_cmp_eq in E. congruence. }
    rewrite Hcmp in Es, Ee. unfold rg_len, rg_right, rg_left, rg_is_forwards.
    rewrite Es, Ee. destruct (rowindex_cmp x y) eqn:E; cbn [is_le].
    - apply rowindex_cmp_eq in E. congruence.
    - apply rowindex_cmp_lt in E. replace (fst x <=? fst y + 1) with true by lia. lia.
    - apply rowindex_cmp_gt in E. replace (fst x + 1 <=? fst y) with false by lia. lia. }
  destruct (rg_len r =? 1) eqn:El; cbn [negb].
  2:{ eexists. split; [reflexivity|]. split; auto. intros p i g j j' H.
      destruct (Huniq _ _ _ _ _ H) as (_&Hx&Hy&_). destruct (Hlen _ _ Hx Hy) as [Hl _]. simpl in Hl. lia. }
  unfold focus_node_at.
  assert (Hrow_case : (forall p i g j j', in_table_cells doc (pos_to_minimal s) (pos_to_minimal e) p i g j j' -> False) ->
     selection_spec doc (pos_to_minimal s) (pos_to_minimal e) (SelRow r)).
  { intros H. split; auto. }
  assert (Hind : nth_error (pos_indices s) (length (rg_indices r)) = hd_error ra /\
                 nth_error (pos_indices e) (length (rg_indices r)) = hd_error rb).
  { rewrite Hri. split; [rewrite Ha at 1|rewrite Hb at 1]; apply nth_error_app_hd. }
  destruct Hind as [Is Ie]. rewrite Is, Ie.
  destruct (match nth_error (fr_row (rg_focus r)) (rg_left r) with Some n => has_resizable_grid n | None => false end) eqn:Eg; cbn [negb].
  2:{ eexists. split; [reflexivity|]. apply Hrow_case. intros p i g j j' H.
      destruct (Huniq _ _ _ _ _ H) as (_&Hx&Hy&Hn). destruct (Hlen _ _ Hx Hy) as [_ Hl].
      destruct Hl as [_ Hl]; [lia|]. simpl in Hl. rewrite Hl, Hn in Eg. discriminate. }
  destruct (hd_error ra) as [x|] eqn:Hx.
  2:{ eexists. split; [reflexivity|]. apply Hrow_case. intros p i g j j' H.
      destruct (Huniq _ _ _ _ _ H) as (_&Hx'&_). discriminate. }
  destruct (hd_error rb) as [y|] eqn:Hy.
  2:{ eexists. split; [reflexivity|]. apply Hrow_case. intros p i g j j' H.
      destruct (Huniq _ _ _ _ _ H) as (_&_&Hy'&_). discriminate. }
  destruct (Hlen _ _ eq_refl eq_refl) as [_ Hl]. destruct Hl as [Hxy Hleft]; [lia|].
  rewrite Hleft, <- Hxy, Nat.eqb_refl. cbn [assert_ bind].
  rewrite Hleft in Eg. unfold focus_child_at.
  destruct (nth_error (fr_row (rg_focus r)) (fst x)) as [[v g|]|] eqn:En; try discriminate.
  destruct v; try discriminate. cbn [bind unwrap fn_node node_grid].
  assert (Hwn : wf_node (Container Table g)).
  { exact (wf_row_nth (row_get_wf Hwf Hsr) En). }
  pose proof (wf_container_inv Hwn) as (Hw&_&Hm&_).
  assert (Hcells : snd x < length (gvalues g) /\ snd y < length (gvalues g)).
  { destruct ra as [|x' ra]; [discriminate|]. destruct rb as [|y' rb]; [discriminate|]. simpl in Hx, Hy. inv Hx. inv Hy.
    destruct Hs as [Hcs _]. destruct He as [Hce _]. apply canonical_row in Hcs, Hce.
    unfold pos_indices in Ha, Hb. rewrite Ha, row_get_app, Hsr in Hcs. rewrite Hb, row_get_app, Hsr in Hce.
    destruct x as [i j], y as [i' j']. simpl in *. subst i'. rewrite En in Hcs, Hce.
    destruct (nth_error (gvalues g) j) eqn:E1; try discriminate.
    destruct (nth_error (gvalues g) j') eqn:E2; try discriminate.
    split; eapply nth_error_Some_lt; eauto. }
  destruct Hcells as [Hc1 Hc2].
  pose proof (rect_ok Hw Hm Hc1 Hc2) as Hrect.
  destruct (from_index (snd x) g) as [si|]; [|discriminate]. cbn [bind] in Hrect |- *.
  destruct (from_index (snd y) g) as [ei|]; [|discriminate]. cbn [bind] in Hrect |- *.
  rewrite Hrect. cbn [bind]. eexists. split; [reflexivity|].
  simpl. exists sh, (fst x), g, (snd x), (snd y). split.
  - destruct ra as [|x' ra]; [discriminate|]. destruct rb as [|y' rb]; [discriminate|]. simpl in Hx, Hy. inv Hx. inv Hy.
    split; [unfold node_get; now rewrite Hsr|]. split.
    + intros Hjj. apply Hne. destruct x, y. simpl in *. congruence.
    + split; [exists ra|exists rb]; rewrite <- app_assoc; cbn [app].
      * rewrite <- surjective_pairing. exact Ha.
      * rewrite Hxy, <- surjective_pairing. exact Hb.
  - unfold gr_to_minimal; simpl. fold (rg_indices r). now rewrite Hri.
Qed.

Lemma caret_new_collapsed doc p : wf_row doc -> good_pos doc p ->
  caret_new doc p p = Ok (mkCaret p p (SelRow (range_of_pos p))).
Proof.
  intros Hwf Hp. unfold caret_new, selection_from_positions.
  destruct (range_from_positions_ok Hwf Hp Hp) as (r&Er&Hr&Hspan). rewrite Er. cbn [bind].
  rewrite span_same in Hspan. destruct r as [f s e]. unfold rg_to_minimal, rg_indices in Hspan. simpl in Hspan. inv Hspan.
  replace (rg_len _) with 0; [|unfold rg_len, rg_right, rg_left; simpl; destruct (rg_is_forwards _); simpl; lia].
  cbn [Nat.eqb negb bind]. unfold range_of_pos. repeat f_equal.
  destruct Hr as [Hc _]. destruct Hp as [Hp _]. eapply canonical_unique; eauto.
Qed.

Lemma caret_from_minimal_ok doc m : wf_row doc -> valid_pos doc (mc_start m) -> valid_pos doc (mc_end m) ->
  exists c, caret_from_minimal doc m = Ok c /\ good_pos doc (c_start c) /\ good_pos doc (c_end c) /\
    caret_to_minimal c = m /\ selection_spec doc (mc_start m) (mc_end m) (c_selection c).
Proof.
  intros Hwf Hs He. destruct (pos_from_minimal_ok Hwf Hs) as [s Es]. destruct (pos_from_minimal_ok Hwf He) as [e Ee].
  pose proof (pos_from_minimal_inv Es) as [Gs Ms]. pose proof (pos_from_minimal_inv Ee) as [Ge Me].
  destruct (selection_ok Hwf Gs Ge) as (sel&Hsel&Hspec).
  unfold caret_from_minimal, caret_new. rewrite Es, Ee. cbn [bind]. rewrite Hsel. cbn [bind].
  eexists. split; [reflexivity|]. cbn [c_start c_end c_selection]. split; auto. split; auto.
  unfold caret_to_minimal; cbn [c_start c_end]. rewrite Ms, Me in *. split; [now destruct m|exact Hspec].
Qed.
Lemma caret_from_minimal_inv doc m c : caret_from_minimal doc m = Ok c ->
  good_pos doc (c_start c) /\ good_pos doc (c_end c) /\ caret_to_minimal c = m.
Proof.
  intros H. unfold caret_from_minimal, caret_new in H.
  apply bind_ok in H as (s&Es&H). apply bind_ok in H as (e&Ee&H). apply bind_ok in H as (sel&_&H). inv H.
  apply pos_from_minimal_inv in Es as [Gs Ms], Ee as [Ge Me]. unfold caret_to_minimal; simpl.
  rewrite Ms, Me. now destruct m.
Qed.
Lemma collapsed_caret doc m : wf_row doc -> valid_pos doc m ->
  exists p, good_pos doc p /\ pos_to_minimal p = m /\
    caret_from_minimal doc (collapsed m) = Ok (mkCaret p p (SelRow (range_of_pos p))).
Proof.
  intros Hwf Hv. destruct (pos_from_minimal_ok Hwf Hv) as [p Ep]. pose proof (pos_from_minimal_inv Ep) as [Gp Mp].
  exists p. split; auto. split; auto. unfold caret_from_minimal; simpl. rewrite Ep. cbn [bind].
  now apply caret_new_collapsed.
Qed.
