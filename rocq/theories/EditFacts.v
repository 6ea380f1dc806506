(** Row edits: what they change, what they keep, how they are undone. *)
From Verif Require Import Base Str Grid Node Focus Edit Spec BaseFacts TreeFacts OrderFacts.
Set Implicit Arguments.
Unset Strict Implicit.

(** ** [replaced] *)
Lemma replaced_get_old p r r' doc doc' : replaced p r r' doc doc' -> row_get doc p = Some r.
Proof.
  induction 1; [reflexivity|]. simpl. rewrite nth_error_middle. simpl. now rewrite nth_error_middle.
Qed.
Lemma replaced_sym p r r' doc doc' : replaced p r r' doc doc' -> replaced p r' r doc' doc.
Proof. induction 1; constructor; auto. Qed.
Lemma replaced_get_new p r r' doc doc' : replaced p r r' doc doc' -> row_get doc' p = Some r'.
Proof. intros H. apply replaced_sym in H. eapply replaced_get_old; eauto. Qed.

Lemma replaced_exists p r r' doc : row_get doc p = Some r -> exists doc', replaced p r r' doc doc'.
Proof.
  revert doc; induction p as [|[i j] p IH]; simpl; intros doc H.
  - inv H. eexists. constructor.
  - destruct (nth_error doc i) as [[v [cells w]|s]|] eqn:En; try discriminate. simpl in H.
    destruct (nth_error cells j) as [c|] eqn:Ec; try discriminate.
    apply IH in H as [c' Hc'].
    apply nth_error_split_len in En as (l1&l2&->&<-). apply nth_error_split_len in Ec as (m1&m2&->&<-).
    eexists. constructor. exact Hc'.
Qed.

(** What happens to the other rows. *)
Lemma replaced_under p r r' doc doc' q : replaced p r r' doc doc' -> row_get doc' (p ++ q) = row_get r' q.
Proof. intros H. rewrite row_get_app. now rewrite (replaced_get_new H). Qed.

Lemma app_cons_nth_other A (l r : list A) x y i : i <> length l ->
  nth_error (l ++ x :: r) i = nth_error (l ++ y :: r) i.
Proof.
  intros Hne. destruct (Nat.lt_ge_cases i (length l)).
  - now rewrite !nth_error_app1 by auto.
  - rewrite !nth_error_app2 by auto. destruct (i - length l) eqn:E; [lia|reflexivity].
Qed.

Lemma replaced_elsewhere p r r' doc doc' q : replaced p r r' doc doc' ->
  ~ prefix p q -> ~ prefix q p -> row_get doc' q = row_get doc q.
Proof.
  intros H. revert q. induction H as [r r'|p r r' l v b c c' a w rt H IH]; intros q Hp Hq.
  - exfalso. apply Hp. now exists q.
  - destruct q as [|[i j] q].
    + exfalso. apply Hq. eexists. reflexivity.
    + simpl. destruct (Nat.eq_dec i (length l)) as [->|Hi].
      * rewrite !nth_error_middle. simpl. destruct (Nat.eq_dec j (length b)) as [->|Hj].
        -- rewrite !nth_error_middle. apply IH.
           ++ intros [s ->]. apply Hp. now exists s.
           ++ intros [s ->]. apply Hq. now exists s.
        -- now rewrite (@app_cons_nth_other _ b a c' c _ Hj).
      * now rewrite (@app_cons_nth_other _ l rt _ (Container v (mkGrid (b ++ c :: a) w)) _ Hi).
Qed.

(** The rows around the changed one keep their length and all other nodes. *)
Lemma replaced_above p q r r' doc doc' : replaced (p ++ q) r r' doc doc' ->
  exists row row', row_get doc p = Some row /\ row_get doc' p = Some row' /\ replaced q r r' row row'.
Proof.
  revert doc doc'; induction p as [|[i j] p IH]; simpl; intros doc doc' H.
  - eauto.
  - inv H. apply IH in H7 as (row&row'&H1&H2&H3).
    exists row, row'. rewrite !nth_error_middle. simpl. rewrite !nth_error_middle. auto.
Qed.
Lemma replaced_length x p r r' doc doc' : replaced (x :: p) r r' doc doc' -> length doc' = length doc.
Proof. intros H. inv H. rewrite !app_length. reflexivity. Qed.

Lemma replaced_unique p r r' doc doc1 doc2 :
  replaced p r r' doc doc1 -> replaced p r r' doc doc2 -> doc1 = doc2.
Proof.
  intros H. revert doc2. induction H as [r r'|p r r' l v b c c' a w rt H IH]; intros doc2 H2; inv H2; [reflexivity|].
  match goal with E : _ ++ _ :: _ = _ ++ _ :: _ |- _ => apply app_inj_len in E as [<- E]; [|auto] end.
  match goal with E : _ :: _ = _ :: _ |- _ => injection E as <- Eg <- <- end.
  apply app_inj_len in Eg as [<- Eg]; [|auto]. injection Eg as <- <-.
  erewrite IH by eassumption. reflexivity.
Qed.

(** ** Updating a row under a path *)
Lemma gset_from_index T (g : GridVec T) j xy c x g' o :
  from_index j g = Ok xy -> gget g xy = Ok (Some c) -> gset g xy x = Ok (g', o) ->
  g' = mkGrid (list_set (gvalues g) j x) (gwidth g).
Proof.
  intros Hx Hg Hs. apply from_index_inv in Hx as [Hw ->].
  unfold gget in Hg. unfold gset in Hs. bind_inv.
  rewrite E in E0. injection E0 as <-. destruct x0 as [k|]; [|discriminate].
  apply to_index_checked_inv in E; auto. subst k.
  destruct (nth_error (gvalues g) j); [|discriminate]. inv Hs. reflexivity.
Qed.

Lemma gset_ok T (g : GridVec T) j xy c x : from_index j g = Ok xy -> gget g xy = Ok (Some c) ->
  gset g xy x = Ok (mkGrid (list_set (gvalues g) j x) (gwidth g), Some c).
Proof.
  intros Hx Hg. apply from_index_inv in Hx as [Hw ->]. unfold gget in Hg. unfold gset. bind_inv.
  rewrite E. simpl. destruct x0 as [k|]; [|discriminate].
  apply to_index_checked_inv in E; auto. subst k. now rewrite Hg.
Qed.

(** Lookups only depend on the shape of the grid. *)
Lemma to_index_checked_shape T (g g' : GridVec T) xy : gwidth g' = gwidth g ->
  length (gvalues g') = length (gvalues g) -> to_index_checked xy g' = to_index_checked xy g.
Proof. intros Hw Hl. unfold to_index_checked, with_grid, gsize. now rewrite Hw, Hl. Qed.
Lemma from_index_shape T (g g' : GridVec T) j : gwidth g' = gwidth g ->
  length (gvalues g') = length (gvalues g) -> from_index j g' = from_index j g.
Proof. intros Hw Hl. unfold from_index, gwidth_of, gsize. now rewrite Hw, Hl. Qed.

Lemma update_row_inv f p doc doc' : update_row f p doc = Ok doc' ->
  exists r r', f r = Ok r' /\ replaced p r r' doc doc' /\
    (forall g x, g r' = Ok x -> exists doc'', update_row g p doc' = Ok doc'' /\ replaced p r' x doc' doc'').
Proof.
  revert doc doc'; induction p as [|[i j] p IH]; simpl; intros doc doc' H.
  - exists doc, doc'. split; auto. split; [constructor|]. intros g x Hx. exists x. split; auto. constructor.
  - apply bind_ok in H as (n&E&H). apply unwrap_ok in E.
    destruct n as [v [cells w]|s]; [|discriminate].
    apply bind_ok in H as (x&E0&H). apply bind_ok in H as (o&E2&H). apply bind_ok in H as (x0&Eo&H).
    apply unwrap_ok in Eo. subst o. apply bind_ok in H as (x1&E3&H). apply bind_ok in H as ([g' o]&E4&H). injection H as <-.
    pose proof (gget_inv E0 E2) as Ec. pose proof (gset_from_index E0 E2 E4) as ->. simpl gvalues in *. simpl gwidth in *.
    apply IH in E3 as (r&r'&Hf&Hrep&Hback). exists r, r'. split; auto.
    apply nth_error_split_len in E as (l1&l2&->&<-). apply nth_error_split_len in Ec as (m1&m2&->&<-).
    rewrite !list_set_middle. split; [now constructor|].
    intros g y Hy. destruct (Hback g y Hy) as (c2&Hu&Hrep2). rewrite nth_error_middle. cbn [unwrap bind].
    rewrite (@from_index_shape _ (mkGrid (m1 ++ x0 :: m2) w)) by (simpl; rewrite ?app_length; reflexivity).
    rewrite E0. cbn [bind].
    assert (Hg : gget (mkGrid (m1 ++ x1 :: m2) w) x = Ok (Some x1)).
    { pose proof (from_index_inv E0) as [Hw ->]. unfold gget in *. simpl gwidth in *.
      erewrite to_index_checked_shape with (g := mkGrid (m1 ++ x0 :: m2) w) by (simpl; rewrite ?app_length; reflexivity).
      bind_inv. rewrite E. cbn [bind]. destruct x as [k|]; [|discriminate].
      apply to_index_checked_inv in E; auto. subst k. simpl gvalues. now rewrite nth_error_middle. }
    rewrite Hg. cbn [bind unwrap]. rewrite Hu. cbn [bind].
    assert (Hi : from_index (length m1) (mkGrid (m1 ++ x1 :: m2) w) = Ok x).
    { rewrite (@from_index_shape _ (mkGrid (m1 ++ x0 :: m2) w)) by (simpl; rewrite ?app_length; reflexivity). auto. }
    rewrite (gset_ok _ Hi Hg). cbn [bind gvalues gwidth]. rewrite !list_set_middle.
    eexists. split; [reflexivity|]. now constructor.
Qed.

Lemma update_row_ok f p doc r r' : wf_row doc -> row_get doc p = Some r -> f r = Ok r' ->
  exists doc', update_row f p doc = Ok doc'.
Proof.
  intros Hwf Hr Hf. revert doc Hwf Hr; induction p as [|[i j] p IH]; simpl; intros doc Hwf Hr.
  - inv Hr. eauto.
  - destruct (nth_error doc i) as [[v g|s]|] eqn:En; try discriminate.
    destruct (nth_error (gvalues g) j) as [c|] eqn:Ec; try discriminate.
    pose proof (wf_row_nth Hwf En) as Hn. apply wf_container_inv in Hn as (Hw&_&Hm&Hcs).
    cbn [unwrap bind]. pose proof (from_index_eq j Hw) as Hi. rewrite Hi. cbn [bind].
    pose proof (gget_from_index j Hw Hm) as Hg. rewrite Hg, Ec. cbn [bind unwrap].
    destruct (IH c) as [c' Hc']; auto. { apply Hcs. eapply nth_error_In; eauto. }
    rewrite Hc'. cbn [bind]. rewrite Ec in Hg. rewrite (gset_ok _ Hi Hg). cbn [bind]. eauto.
Qed.

(** A panic of [update_row] on a well-formed document. *)
Lemma update_row_panic f p doc k : wf_row doc -> update_row f p doc = Panic k ->
  row_get doc p = None \/ exists r, row_get doc p = Some r /\ f r = Panic k.
Proof.
  revert doc; induction p as [|[i j] p IH]; simpl; intros doc Hwf H.
  - right. eauto.
  - destruct (nth_error doc i) as [[v g|s]|] eqn:En; auto.
    destruct (nth_error (gvalues g) j) as [c|] eqn:Ec; auto.
    pose proof (wf_row_nth Hwf En) as Hn. apply wf_container_inv in Hn as (Hw&_&Hm&Hcs).
    cbn [unwrap bind] in H. pose proof (from_index_eq j Hw) as Hi. rewrite Hi in H. cbn [bind] in H.
    pose proof (gget_from_index j Hw Hm) as Hg. rewrite Hg, Ec in H. cbn [bind unwrap] in H.
    apply IH. { apply Hcs. eapply nth_error_In; eauto. }
    destruct (update_row f p c); auto. cbn [bind] in H. rewrite Ec in Hg. rewrite (gset_ok _ Hi Hg) in H.
    discriminate.
Qed.

(** Well-formedness is kept. *)
Lemma replaced_wf p r r' doc doc' : replaced p r r' doc doc' -> wf_row doc -> wf_row r' -> wf_row doc'.
Proof.
  induction 1 as [r r'|p r r' l v b c c' a w rt H IH]; intros Hwf Hr'; auto.
  apply wf_row_app in Hwf as [Hl Hwf]. apply wf_row_cons in Hwf as [Hn Hrt].
  apply wf_row_app. split; auto. apply wf_row_cons. split; auto.
  pose proof (wf_container_inv Hn) as (Hw&_&Hm&Hcs). simpl in *. constructor; auto.
  - destruct b; discriminate.
  - rewrite app_length in *. exact Hm.
  - intros cell Hc. apply in_app_or in Hc as [Hc|[<-|Hc]].
    + apply Hcs. apply in_or_app. auto.
    + apply IH; auto. apply Hcs. apply in_or_app. right. now left.
    + apply Hcs. apply in_or_app. right. now right.
Qed.

(** ** Row edits *)
Lemma apply_row_edit_insert p o vs row : o <= length row ->
  apply_row_edit (mkRowEdit Insert (mkMinPos p o) vs) row = Ok (firstn o row ++ vs ++ skipn o row).
Proof. intros. unfold apply_row_edit; simpl. apply splice_eq; auto. Qed.
Lemma apply_row_edit_delete p o vs row : o + length vs <= length row ->
  apply_row_edit (mkRowEdit Delete (mkMinPos p o) vs) row = Ok (firstn o row ++ skipn (o + length vs) row).
Proof. intros. unfold apply_row_edit; simpl. rewrite splice_eq by lia. reflexivity. Qed.

Lemma tree_insert_inv cfg doc p o vs doc' :
  tree_apply_edit cfg doc (ERow (mkRowEdit Insert (mkMinPos p o) vs)) = Ok doc' ->
  exists row, row_get doc p = Some row /\ o <= length row /\
    replaced p row (firstn o row ++ vs ++ skipn o row) doc doc'.
Proof.
  simpl. intros H. apply update_row_inv in H as (r&r'&Hf&Hrep&_).
  unfold apply_row_edit in Hf; simpl in Hf. apply splice_ok in Hf as (_&Ho&->).
  exists r. split; auto. eapply replaced_get_old; eauto.
Qed.
Lemma tree_delete_inv cfg doc p o vs doc' :
  tree_apply_edit cfg doc (ERow (mkRowEdit Delete (mkMinPos p o) vs)) = Ok doc' ->
  exists row, row_get doc p = Some row /\ o + length vs <= length row /\
    replaced p row (firstn o row ++ skipn (o + length vs) row) doc doc'.
Proof.
  simpl. intros H. apply update_row_inv in H as (r&r'&Hf&Hrep&_).
  unfold apply_row_edit in Hf; simpl in Hf. apply splice_ok in Hf as (_&Ho&->).
  exists r. split; auto. eapply replaced_get_old; eauto.
Qed.

Lemma tree_insert_ok cfg doc p o vs row : wf_row doc -> row_get doc p = Some row -> o <= length row ->
  exists doc', tree_apply_edit cfg doc (ERow (mkRowEdit Insert (mkMinPos p o) vs)) = Ok doc' /\
    replaced p row (firstn o row ++ vs ++ skipn o row) doc doc'.
Proof.
  intros Hwf Hr Ho. pose proof (apply_row_edit_insert p vs Ho) as Hf.
  destruct (update_row_ok Hwf Hr Hf) as [doc' H]. exists doc'. split; auto.
  destruct (tree_insert_inv (cfg := cfg) (doc := doc) (doc' := doc') H) as (row'&Hr'&_&H').
  rewrite Hr in Hr'. inv Hr'. auto.
Qed.
Lemma tree_delete_ok cfg doc p o vs row : wf_row doc -> row_get doc p = Some row -> o + length vs <= length row ->
  exists doc', tree_apply_edit cfg doc (ERow (mkRowEdit Delete (mkMinPos p o) vs)) = Ok doc' /\
    replaced p row (firstn o row ++ skipn (o + length vs) row) doc doc'.
Proof.
  intros Hwf Hr Ho. pose proof (apply_row_edit_delete p Ho) as Hf.
  destruct (update_row_ok Hwf Hr Hf) as [doc' H]. exists doc'. split; auto.
  destruct (tree_delete_inv (cfg := cfg) (doc := doc) (doc' := doc') H) as (row'&Hr'&_&H').
  rewrite Hr in Hr'. inv Hr'. auto.
Qed.

(** ** Invertible edits *)
(** The nodes recorded in a deletion are the nodes it deletes. *)
Definition recorded (doc : InputRow) (e : BasicEdit) : Prop :=
  match e with
  | ERow (mkRowEdit Insert _ _) => True
  | ERow (mkRowEdit Delete p vs) =>
      exists row, row_get doc (mp_row p) = Some row /\
        firstn (length vs) (skipn (mp_offset p) row) = vs
  | EGrid _ => False
  end.

Lemma edit_invertible cfg doc e doc' : recorded doc e -> tree_apply_edit cfg doc e = Ok doc' ->
  tree_apply_edit cfg doc' (edit_inverse e) = Ok doc.
Proof.
  destruct e as [[[] [p o] vs]|e]; simpl; [| |tauto]; intros Hrec H.
  - apply update_row_inv in H as (r&r'&Hf&Hrep&Hback).
    unfold apply_row_edit in Hf; simpl in Hf. apply splice_ok in Hf as (_&Ho&->).
    destruct Hrec as (row&Hr&Hvs). rewrite (replaced_get_old Hrep) in Hr. inv Hr.
    assert (Hg : apply_row_edit (mkRowEdit Insert (mkMinPos p o) vs) (firstn o row ++ [] ++ skipn (o + length vs) row) = Ok row).
    { assert (Hl : length (firstn o row) = o) by (rewrite firstn_length; lia).
      rewrite apply_row_edit_insert by (rewrite app_length; lia).
      f_equal. simpl. rewrite firstn_firstn_app, skipn_firstn_app by lia.
      rewrite (@cut3 _ row o (o + length vs)) at 3 by lia.
      replace (o + length vs - o) with (length vs) by lia. now rewrite Hvs. }
    destruct (Hback _ _ Hg) as (doc2&H2&Hrep2). unfold row_edit_inverse; simpl. rewrite H2. f_equal.
    eapply replaced_unique; [exact Hrep2|]. now apply replaced_sym.
  - apply update_row_inv in H as (r&r'&Hf&Hrep&Hback).
    unfold apply_row_edit in Hf; simpl in Hf. apply splice_ok in Hf as (_&Ho&->).
    assert (Hg : apply_row_edit (mkRowEdit Delete (mkMinPos p o) vs) (firstn o r ++ vs ++ skipn o r) = Ok r).
    { assert (Hl : length (firstn o r) = o) by (rewrite firstn_length; lia).
      rewrite apply_row_edit_delete by (rewrite !app_length; lia).
      f_equal. rewrite firstn_firstn_app by lia.
      rewrite (app_assoc (firstn o r)). replace (o + length vs) with (length (firstn o r ++ vs)) by (rewrite app_length; lia).
      rewrite skipn_app_exact. apply firstn_skipn. }
    destruct (Hback _ _ Hg) as (doc2&H2&Hrep2). unfold row_edit_inverse; simpl. rewrite H2. f_equal.
    eapply replaced_unique; [exact Hrep2|]. now apply replaced_sym.
Qed.

(** A run of recorded edits. *)
Inductive chain (cfg : Cfg) : InputRow -> list BasicEdit -> InputRow -> Prop :=
| chain_nil doc : chain cfg doc [] doc
| chain_cons doc e doc1 es doc2 :
    recorded doc e -> tree_apply_edit cfg doc e = Ok doc1 -> chain cfg doc1 es doc2 ->
    chain cfg doc (e :: es) doc2.

Lemma chain_app cfg doc es doc1 es' doc2 :
  chain cfg doc es doc1 -> chain cfg doc1 es' doc2 -> chain cfg doc (es ++ es') doc2.
Proof. induction 1; simpl; auto. intros. econstructor; eauto. Qed.
Lemma chain_app_inv cfg doc es es' doc2 : chain cfg doc (es ++ es') doc2 ->
  exists doc1, chain cfg doc es doc1 /\ chain cfg doc1 es' doc2.
Proof.
  revert doc; induction es as [|e es IH]; simpl; intros doc H.
  - exists doc. split; [constructor|auto].
  - inv H. apply IH in H6 as (d&Hc1&Hc2). exists d. split; auto. econstructor; eauto.
Qed.
Lemma apply_edits_app T (f : T -> BasicEdit -> Res T) x es es' :
  apply_edits f x (es ++ es') = (y <- apply_edits f x es ;; apply_edits f y es').
Proof. revert x; induction es; simpl; intros; auto. destruct (f x a); simpl; auto. Qed.

Lemma chain_apply cfg doc es doc' : chain cfg doc es doc' -> tree_apply_edits cfg doc es = Ok doc'.
Proof.
  induction 1; simpl; auto. unfold tree_apply_edits in *. simpl. rewrite H0. simpl. auto.
Qed.
Lemma chain_inverse cfg doc es doc' : chain cfg doc es doc' ->
  tree_apply_edits cfg doc' (map edit_inverse (rev es)) = Ok doc.
Proof.
  induction 1; simpl; auto. rewrite map_app. unfold tree_apply_edits in *. rewrite apply_edits_app, IHchain. simpl.
  rewrite (edit_invertible H H0). reflexivity.
Qed.

(** ** The edits made by [remove_range], [insert_at_position], [replace_range] *)
Lemma rg_left_le_right r : rg_left r <= rg_right r.
Proof. unfold rg_left, rg_right, rg_is_forwards. destruct (_ <=? _) eqn:E; lia. Qed.
Lemma rg_left_min r : rg_left r = Nat.min (rg_start r) (rg_end r).
Proof. unfold rg_left, rg_is_forwards. destruct (_ <=? _) eqn:E; lia. Qed.
Lemma rg_right_max r : rg_right r = Nat.max (rg_start r) (rg_end r).
Proof. unfold rg_right, rg_is_forwards. destruct (_ <=? _) eqn:E; lia. Qed.
Lemma good_range_right doc r : good_range doc r -> rg_right r <= length (fr_row (rg_focus r)).
Proof. intros (_&Hs&He). rewrite rg_right_max. lia. Qed.
Lemma rg_values_eq doc r : good_range doc r ->
  rg_values r = Ok (firstn (rg_right r - rg_left r) (skipn (rg_left r) (fr_row (rg_focus r)))).
Proof.
  intros H. unfold rg_values. apply slice_eq; [apply rg_left_le_right|eapply good_range_right; eauto].
Qed.
Definition rg_nodes (r : InputRowRange) : list InputNode :=
  firstn (rg_right r - rg_left r) (skipn (rg_left r) (fr_row (rg_focus r))).
Lemma rg_nodes_length doc r : good_range doc r -> length (rg_nodes r) = rg_right r - rg_left r.
Proof.
  intros H. unfold rg_nodes. rewrite firstn_length, skipn_length.
  pose proof (good_range_right H). pose proof (rg_left_le_right r). lia.
Qed.

Lemma remove_range_eq doc r : good_range doc r ->
  remove_range r = Ok ([ERow (mkRowEdit Delete (mkMinPos (rg_indices r) (rg_left r)) (rg_nodes r))],
                       mkMinPos (rg_indices r) (rg_left r)).
Proof. intros H. unfold remove_range. rewrite (rg_values_eq H). reflexivity. Qed.

Lemma replace_range_eq doc r vs : good_range doc r ->
  replace_range r vs =
  Ok ([ERow (mkRowEdit Delete (mkMinPos (rg_indices r) (rg_left r)) (rg_nodes r));
       ERow (mkRowEdit Insert (mkMinPos (rg_indices r) (rg_left r)) vs)],
      mkMinRange (rg_indices r) (rg_left r) (rg_left r + length vs)).
Proof.
  intros H. unfold replace_range. rewrite (remove_range_eq H). cbn [bind insert_at_position].
  cbn [mp_row]. replace (rowindices_eqb _ _) with true; [reflexivity|].
  symmetry. now apply rowindices_eqb_eq.
Qed.

(** An edit list that works on a good range of the document, also if the document
    is not well-formed. *)
Lemma walk_update f p doc fr r' : walk_down_indices (from_root doc) p = Ok fr -> f (fr_row fr) = Ok r' ->
  exists doc', update_row f p doc = Ok doc'.
Proof.
  assert (H : forall fc, walk_down_indices fc p = Ok fr -> f (fr_row fr) = Ok r' ->
    exists doc', update_row f p (fr_row fc) = Ok doc'); [|intros; eapply (H (from_root doc)); eauto].
  induction p as [|[i j] p IH]; intros fc H Hf.
  - simpl in *. inv H. eauto.
  - simpl in H. simpl. apply bind_ok in H as (n&E&H). apply unwrap_ok in E. unfold focus_child_at in E.
    destruct (nth_error (fr_row fc) i) as [n0|] eqn:En; [|discriminate]. injection E as <-. cbn [unwrap bind].
    apply bind_ok in H as (o&E0&H). apply bind_ok in H as (fr1&Eo&H). apply unwrap_ok in Eo. subst o.
    unfold fn_child_at in E0. simpl fn_node in E0. destruct n0 as [v g|s]; [|discriminate].
    apply bind_ok in E0 as (xy&E&E0). apply bind_ok in E0 as ([cell|]&E1&E0); [|discriminate].
    injection E0 as <-. rewrite E. cbn [bind]. rewrite E1. cbn [bind unwrap].
    apply IH in H as [c' Hc']; auto. simpl in Hc'. rewrite Hc'. cbn [bind].
    rewrite (gset_ok _ E E1). cbn [bind]. eauto.
Qed.

Lemma canonical_insert cfg doc f o vs : canonical doc f -> o <= length (fr_row f) ->
  exists doc', tree_apply_edit cfg doc (ERow (mkRowEdit Insert (mkMinPos (fr_indices f) o) vs)) = Ok doc' /\
    replaced (fr_indices f) (fr_row f) (firstn o (fr_row f) ++ vs ++ skipn o (fr_row f)) doc doc'.
Proof.
  intros Hc Ho. destruct (walk_update Hc (apply_row_edit_insert (fr_indices f) vs Ho)) as [doc' H].
  exists doc'. split; auto. destruct (tree_insert_inv (cfg := cfg) (doc := doc) (doc' := doc') H) as (row'&Hr'&_&H').
  rewrite (canonical_row Hc) in Hr'. inv Hr'. auto.
Qed.
Lemma canonical_delete cfg doc f o vs : canonical doc f -> o + length vs <= length (fr_row f) ->
  exists doc', tree_apply_edit cfg doc (ERow (mkRowEdit Delete (mkMinPos (fr_indices f) o) vs)) = Ok doc' /\
    replaced (fr_indices f) (fr_row f) (firstn o (fr_row f) ++ skipn (o + length vs) (fr_row f)) doc doc'.
Proof.
  intros Hc Ho. destruct (walk_update Hc (apply_row_edit_delete (fr_indices f) Ho)) as [doc' H].
  exists doc'. split; auto. destruct (tree_delete_inv (cfg := cfg) (doc := doc) (doc' := doc') H) as (row'&Hr'&_&H').
  rewrite (canonical_row Hc) in Hr'. inv Hr'. auto.
Qed.

Lemma replaced_trans p r1 r2 r3 d1 d2 d3 : replaced p r1 r2 d1 d2 -> replaced p r2 r3 d2 d3 -> replaced p r1 r3 d1 d3.
Proof.
  intros H. revert r3 d3. induction H as [r r'|p r r' l v b c c' a w rt H IH]; intros r3 d3 H2; inv H2; [constructor|].
  match goal with E : _ ++ _ :: _ = _ ++ _ :: _ |- _ => apply app_inj_len in E as [<- E]; [|auto] end.
  match goal with E : _ :: _ = _ :: _ |- _ => injection E as <- Eg <- <- end.
  apply app_inj_len in Eg as [<- Eg]; [|auto]. injection Eg as <- <-.
  constructor. eauto.
Qed.

(** The row after a replacement is still reachable. *)
Lemma insert_after_delete cfg doc f l r vs : canonical doc f -> l <= r -> r <= length (fr_row f) ->
  exists doc',
    chain cfg doc [ERow (mkRowEdit Delete (mkMinPos (fr_indices f) l) (firstn (r - l) (skipn l (fr_row f))));
                   ERow (mkRowEdit Insert (mkMinPos (fr_indices f) l) vs)] doc' /\
    replaced (fr_indices f) (fr_row f) (firstn l (fr_row f) ++ vs ++ skipn r (fr_row f)) doc doc'.
Proof.
  intros Hc Hlr Hr. set (del := firstn (r - l) (skipn l (fr_row f))).
  assert (Hdel : length del = r - l) by (unfold del; rewrite firstn_length, skipn_length; lia).
  assert (Hd : l + length del <= length (fr_row f)) by lia.
  destruct (walk_update Hc (apply_row_edit_delete (fr_indices f) Hd)) as [doc1 H1].
  pose proof (update_row_inv H1) as (r0&r0'&Hf&Hrep&Hback).
  pose proof (replaced_get_old Hrep) as Hg. rewrite (canonical_row Hc) in Hg. inv Hg.
  rewrite (apply_row_edit_delete (fr_indices f) Hd) in Hf. injection Hf as <-.
  set (r0 := fr_row f) in *.
  assert (Ho : l <= length (firstn l r0 ++ skipn (l + length del) r0)).
  { rewrite app_length, firstn_length. lia. }
  destruct (Hback _ _ (apply_row_edit_insert (fr_indices f) vs Ho)) as (doc2&H2&Hrep2).
  exists doc2. split.
  - econstructor; [| exact H1 |].
    + simpl. exists r0. split; [apply canonical_row; auto|]. rewrite Hdel. reflexivity.
    + econstructor; [exact I|exact H2|constructor].
  - replace (firstn l r0 ++ vs ++ skipn r r0) with
      (firstn l (firstn l r0 ++ skipn (l + length del) r0) ++ vs ++
       skipn l (firstn l r0 ++ skipn (l + length del) r0)).
    + eapply replaced_trans; eauto.
    + rewrite firstn_firstn_app, skipn_firstn_app by lia. rewrite Hdel. replace (l + (r - l)) with r by lia. reflexivity.
Qed.

Lemma replace_range_chain cfg doc r vs : good_range doc r ->
  exists doc',
    chain cfg doc [ERow (mkRowEdit Delete (mkMinPos (rg_indices r) (rg_left r)) (rg_nodes r));
                   ERow (mkRowEdit Insert (mkMinPos (rg_indices r) (rg_left r)) vs)] doc' /\
    replaced (rg_indices r) (fr_row (rg_focus r))
      (firstn (rg_left r) (fr_row (rg_focus r)) ++ vs ++ skipn (rg_right r) (fr_row (rg_focus r))) doc doc'.
Proof.
  intros H. apply insert_after_delete; [apply H | apply rg_left_le_right | eapply good_range_right; eauto].
Qed.

Lemma remove_range_chain cfg doc r : good_range doc r ->
  exists doc',
    chain cfg doc [ERow (mkRowEdit Delete (mkMinPos (rg_indices r) (rg_left r)) (rg_nodes r))] doc' /\
    replaced (rg_indices r) (fr_row (rg_focus r))
      (firstn (rg_left r) (fr_row (rg_focus r)) ++ skipn (rg_right r) (fr_row (rg_focus r))) doc doc'.
Proof.
  intros H. pose proof (rg_nodes_length H) as Hl. pose proof (rg_left_le_right r). pose proof (good_range_right H).
  assert (Hd : rg_left r + length (rg_nodes r) <= length (fr_row (rg_focus r))) by lia.
  destruct (canonical_delete cfg (proj1 H) Hd) as (doc'&Ha&Hr).
  exists doc'. split.
  - econstructor; [|exact Ha|constructor]. simpl. exists (fr_row (rg_focus r)).
    split; [apply canonical_row, H|]. rewrite Hl. reflexivity.
  - rewrite Hl in Hr. replace (rg_left r + (rg_right r - rg_left r)) with (rg_right r) in Hr by lia. exact Hr.
Qed.

Lemma insert_chain cfg doc p vs : good_pos doc p ->
  exists doc', chain cfg doc [ERow (mkRowEdit Insert (pos_to_minimal p) vs)] doc' /\
    replaced (pos_indices p) (fr_row (pos_focus p))
      (firstn (pos_offset p) (fr_row (pos_focus p)) ++ vs ++ skipn (pos_offset p) (fr_row (pos_focus p))) doc doc'.
Proof.
  intros [Hc Ho]. destruct (canonical_insert cfg vs Hc Ho) as (doc'&Ha&Hr).
  exists doc'. split; auto. econstructor; [exact I|exact Ha|constructor].
Qed.

(** Well-formedness of an edit, and its preservation. *)
Definition wf_edit (e : BasicEdit) : Prop :=
  match e with
  | ERow e => re_type e = Insert -> wf_row (re_values e)
  | EGrid _ => False
  end.

Lemma row_edit_wf cfg doc e doc' : wf_row doc -> wf_edit e -> tree_apply_edit cfg doc e = Ok doc' -> wf_row doc'.
Proof.
  destruct e as [[[] [p o] vs]|e]; simpl; [| |tauto]; intros Hwf He H.
  - destruct (tree_delete_inv (cfg := cfg) H) as (row&Hr&Ho&Hrep).
    eapply replaced_wf; eauto. pose proof (row_get_wf Hwf Hr). apply wf_row_app.
    split; [now apply wf_row_firstn|now apply wf_row_skipn].
  - destruct (tree_insert_inv (cfg := cfg) H) as (row&Hr&Ho&Hrep).
    eapply replaced_wf; eauto. pose proof (row_get_wf Hwf Hr). rewrite !wf_row_app.
    split; [now apply wf_row_firstn|]. split; auto. now apply wf_row_skipn.
Qed.
Lemma row_edits_wf cfg doc es doc' : wf_row doc -> Forall wf_edit es -> tree_apply_edits cfg doc es = Ok doc' -> wf_row doc'.
Proof.
  revert doc; induction es as [|e es IH]; simpl; intros doc Hwf He H.
  - unfold tree_apply_edits in H. simpl in H. now inv H.
  - unfold tree_apply_edits in H. simpl in H. bind_inv. inv He.
    eapply IH; [|eassumption|exact H]. eapply row_edit_wf; eauto.
Qed.
