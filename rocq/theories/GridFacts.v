(** Grid edits. *)
From Verif Require Import Base Str Grid Node Focus Edit Spec SpecGrid BaseFacts TreeFacts OrderFacts EditFacts.
Set Implicit Arguments.
Unset Strict Implicit.

Lemma rect_len T (g : GridVec T) : rectangular g -> length (gvalues g) = height g * gwidth g.
Proof. intros [Hw Hm]. unfold height. pose proof (Nat.div_mod_eq (length (gvalues g)) (gwidth g)). lia. Qed.
Lemma rect_size_eq T (g : GridVec T) : rectangular g -> gsize g = Ok (gwidth g, height g).
Proof.
  intros [Hw _]. unfold gsize, udiv, height. destruct (gwidth g =? 0) eqn:E; [lia|reflexivity].
Qed.
Lemma rect_of T (l : list T) w h : 0 < w -> length l = h * w -> rectangular (mkGrid l w) /\ height (mkGrid l w) = h.
Proof.
  intros Hw Hl. unfold rectangular, height; cbn [gvalues gwidth]. rewrite Hl.
  rewrite Nat.mod_mul, Nat.div_mul by lia. auto.
Qed.
Lemma from_1d T (l : list T) w : 0 < w -> length l mod w = 0 -> from_one_dimensional l w = Ok (mkGrid l w).
Proof.
  intros Hw Hm. unfold from_one_dimensional, umod. replace (0 <? w) with true by lia. cbn [bind assert_].
  replace (w =? 0) with false by lia. cbn [bind]. now rewrite Hm.
Qed.

Lemma cell_out T (g : GridVec T) x y : rectangular g -> height g <= y -> cell g x y = None.
Proof.
  intros Hr Hy. unfold cell. destruct (x <? gwidth g); auto. apply nth_error_None. rewrite (rect_len Hr). nia.
Qed.

Lemma insert_columns_len A n k w ow (old ins : list A) : k <= ow -> length old = n * ow -> length ins = n * w ->
  length (insert_columns n k w (Some (ow - k)) old ins) = n * (ow + w).
Proof.
  revert old ins. induction n as [|n IH]; intros old ins Hk Ho Hi; [reflexivity|].
  simpl. rewrite !app_length, IH; try (rewrite !skipn_length; nia); auto.
  rewrite !firstn_length, skipn_length. nia.
Qed.
Lemma nth_error_skipn' A (l : list A) n i : nth_error (skipn n l) i = nth_error l (n + i).
Proof. revert l; induction n; intros [|a l]; simpl; auto. now destruct i. Qed.
Lemma nth_error_firstn' A (l : list A) n i : i < n -> nth_error (firstn n l) i = nth_error l i.
Proof.
  revert l i; induction n; intros [|a l] [|i] H; simpl; auto; try lia. apply IHn. lia.
Qed.
Lemma insert_columns_nth A n k w ow (old ins : list A) x y : k <= ow -> length old = n * ow -> length ins = n * w ->
  x < ow + w -> y < n ->
  nth_error (insert_columns n k w (Some (ow - k)) old ins) (y * (ow + w) + x) =
  if x <? k then nth_error old (y * ow + x)
  else if x <? k + w then nth_error ins (y * w + (x - k))
  else nth_error old (y * ow + (x - w)).
Proof.
  revert old ins y. induction n as [|n IH]; intros old ins y Hk Ho Hi Hx Hy; [lia|].
  cbn [insert_columns take_it].
  assert (La : length (firstn k old) = k) by (rewrite firstn_length; nia).
  assert (Lb : length (firstn w ins) = w) by (rewrite firstn_length; nia).
  assert (Lc : length (firstn (ow - k) (skipn k old)) = ow - k) by (rewrite firstn_length, skipn_length; nia).
  destruct y as [|y].
  - rewrite Nat.mul_0_l, !Nat.add_0_l. simpl (0 * _ + _).
    destruct (x <? k) eqn:E1.
    { rewrite nth_error_app1 by lia. apply nth_error_firstn'. lia. }
    rewrite nth_error_app2, La by lia.
    destruct (x <? k + w) eqn:E2.
    { rewrite nth_error_app1 by lia. apply nth_error_firstn'. lia. }
    rewrite nth_error_app2, Lb by lia. rewrite nth_error_app1 by lia.
    rewrite nth_error_firstn' by lia. rewrite nth_error_skipn'. f_equal. lia.
  - rewrite nth_error_app2, La by nia. rewrite nth_error_app2, Lb by nia. rewrite nth_error_app2, Lc by nia.
    replace (S y * (ow + w) + x - k - w - (ow - k)) with (y * (ow + w) + x) by nia.
    rewrite IH; auto; try lia; try (rewrite ?skipn_length; nia).
    rewrite !nth_error_skipn'.
    destruct (x <? k) eqn:E1; [f_equal; nia|]. destruct (x <? k + w) eqn:E2; f_equal; nia.
Qed.

Lemma lines_inserted_ok T k (ins g : GridVec T) : rectangular g -> rectangular ins -> gwidth ins = gwidth g ->
  k <= height g ->
  lines_inserted k ins g (mkGrid (firstn (gwidth ins * k) (gvalues g) ++ gvalues ins ++ skipn (gwidth ins * k) (gvalues g)) (gwidth g)).
Proof.
  intros Hg Hi Hw Hk. pose proof (rect_len Hg) as Lg. pose proof (rect_len Hi) as Li. rewrite Hw in *.
  assert (Hp := proj1 Hg).
  assert (La : length (firstn (gwidth g * k) (gvalues g)) = k * gwidth g) by (rewrite firstn_length; nia).
  destruct (@rect_of _ (firstn (gwidth g * k) (gvalues g) ++ gvalues ins ++ skipn (gwidth g * k) (gvalues g))
              (gwidth g) (height g + height ins)) as [Hr Hh]; auto.
  { rewrite !app_length, La, skipn_length. nia. }
  split; [exact Hr|]. split; [reflexivity|]. split; [exact Hh|].
  intros x y. unfold cell at 1 2 3 4; cbn [gvalues gwidth]. rewrite Hw.
  destruct (x <? gwidth g) eqn:Ex; [|destruct (y <? k), (y <? k + height ins); reflexivity].
  destruct (y <? k) eqn:E1.
  { rewrite nth_error_app1 by nia. apply nth_error_firstn'. nia. }
  rewrite nth_error_app2, La by nia.
  destruct (y <? k + height ins) eqn:E2.
  { rewrite nth_error_app1 by nia. f_equal. nia. }
  rewrite nth_error_app2 by nia. rewrite nth_error_skipn'. f_equal. nia.
Qed.

Lemma columns_inserted_ok T k (ins g : GridVec T) : rectangular g -> rectangular ins -> height ins = height g ->
  k <= gwidth g ->
  columns_inserted k ins g
    (mkGrid (insert_columns (height ins) k (gwidth ins) (Some (gwidth g - k)) (gvalues g) (gvalues ins)) (gwidth g + gwidth ins)).
Proof.
  intros Hg Hi Hh Hk. pose proof (rect_len Hg) as Lg. pose proof (rect_len Hi) as Li. rewrite Hh in *.
  assert (Hp := proj1 Hg).
  destruct (@rect_of _ (insert_columns (height g) k (gwidth ins) (Some (gwidth g - k)) (gvalues g) (gvalues ins))
              (gwidth g + gwidth ins) (height g)) as [Hr Hh']; [lia|apply insert_columns_len; auto|].
  split; [exact Hr|]. split; [reflexivity|]. split; [exact Hh'|].
  intros x y. destruct (height g <=? y) eqn:Ey.
  { rewrite (cell_out x Hr) by lia. rewrite !cell_out by (auto; lia). destruct (x <? k), (x <? k + gwidth ins); reflexivity. }
  unfold cell at 1; cbn [gvalues gwidth].
  destruct (x <? gwidth g + gwidth ins) eqn:Ex.
  - rewrite insert_columns_nth by (auto; lia). unfold cell.
    destruct (x <? k) eqn:E1; [now replace (x <? gwidth g) with true by lia|].
    destruct (x <? k + gwidth ins) eqn:E2; [now replace (x - k <? gwidth ins) with true by lia|].
    now replace (x - gwidth ins <? gwidth g) with true by lia.
  - unfold cell. replace (x <? k) with false by lia. replace (x <? k + gwidth ins) with false by lia.
    now replace (x - gwidth ins <? gwidth g) with false by lia.
Qed.

(** Looking up the table of a well-formed document. *)
Lemma node_get_split doc p i n : node_get doc p i = Some n -> exists l r, length l = i /\ row_get doc p = Some (l ++ n :: r).
Proof.
  unfold node_get. destruct (row_get doc p) as [row|]; [|discriminate]. intros H.
  apply nth_error_split in H as (l&r&->&Hl). eauto.
Qed.
Lemma table_grid_rect doc p i g : wf_row doc -> node_get doc p i = Some (Container Table g) ->
  rectangular g /\ 0 < height g.
Proof.
  intros Hwf H. destruct (node_get_split H) as (l&r&_&Hr).
  pose proof (row_get_wf Hwf Hr) as Hw. assert (Hn : wf_node (Container Table g)) by (apply Hw, in_or_app; right; left; auto).
  apply wf_container_inv in Hn as (Hp&Hne&Hm&_). split; [split; auto|]. unfold height.
  apply Nat.div_str_pos. split; auto.
  destruct (Nat.lt_ge_cases (length (gvalues g)) (gwidth g)) as [Hlt|]; auto. rewrite Nat.mod_small in Hm by auto.
  destruct (gvalues g); [congruence|discriminate].
Qed.

Lemma grid_edit_ok cfg doc p i g e f : wf_row doc -> node_get doc p i = Some (Container Table g) ->
  ge_element e = mkElementIndices p i ->
  (forall l r, length l = i -> apply_grid_edit cfg e (l ++ Container Table g :: r) = Ok (l ++ Container Table f :: r)) ->
  exists doc', tree_apply_edit cfg doc (EGrid e) = Ok doc' /\ table_replaced p i g f doc doc'.
Proof.
  intros Hwf Hn He Hf. destruct (node_get_split Hn) as (l&r&Hl&Hr).
  destruct (update_row_ok Hwf Hr (Hf _ _ Hl)) as (doc'&E).
  pose proof (update_row_inv E) as (r0&r1&Hf1&Hrep&_).
  pose proof (replaced_get_old Hrep) as H1. rewrite Hr in H1. inv H1. rewrite (Hf _ _ eq_refl) in Hf1. inv Hf1.
  exists doc'. cbn [tree_apply_edit]. rewrite He. cbn [ei_row]. split; auto. exists l, r. auto.
Qed.

Lemma update_row_fail f p doc r k : wf_row doc -> row_get doc p = Some r -> f r = Panic k -> update_row f p doc = Panic k.
Proof.
  intros Hwf Hr Hf. revert doc Hwf Hr; induction p as [|[i j] p IH]; simpl; intros doc Hwf Hr.
  - now inv Hr.
  - destruct (nth_error doc i) as [[v g|s]|] eqn:En; try discriminate.
    destruct (nth_error (gvalues g) j) as [c|] eqn:Ec; try discriminate.
    pose proof (wf_row_nth Hwf En) as Hn. apply wf_container_inv in Hn as (Hw&_&Hm&Hcs).
    cbn [unwrap bind]. pose proof (from_index_eq j Hw) as Hi. rewrite Hi. cbn [bind].
    pose proof (gget_from_index j Hw Hm) as Hg. rewrite Hg, Ec. cbn [bind unwrap].
    rewrite IH; auto. apply Hcs. eapply nth_error_In; eauto.
Qed.

Lemma insert_lines_ok cfg doc p i g k ins : wf_row doc -> node_get doc p i = Some (Container Table g) ->
  rectangular ins -> gwidth ins = gwidth g -> k <= height g ->
  exists doc' g', tree_apply_edit cfg doc (EGrid (mkGridEdit Insert (mkElementIndices p i) GRow k ins)) = Ok doc' /\
    table_replaced p i g g' doc doc' /\ lines_inserted k ins g g'.
Proof.
  intros Hwf Hn Hi Hw Hk. destruct (table_grid_rect Hwf Hn) as [Hg Hh].
  pose proof (lines_inserted_ok Hg Hi Hw Hk) as Hl.
  set (g' := mkGrid _ _) in Hl.
  destruct (@grid_edit_ok cfg doc p i g (mkGridEdit Insert (mkElementIndices p i) GRow k ins) g') as (doc'&E&Ht); auto.
  - intros l r Hlen. unfold apply_grid_edit. cbn [ge_element ei_index ge_type ge_direction ge_row_or_column ge_values].
    rewrite <- Hlen, nth_error_middle. cbn [unwrap bind has_resizable_grid variant_has_resizable_grid assert_].
    rewrite (rect_size_eq Hg). cbn [bind]. unfold new_grid_size. cbn [ge_type ge_direction ge_values].
    rewrite (rect_size_eq Hg). cbn [bind]. rewrite (rect_size_eq Hi). cbn [bind]. rewrite Hw, Nat.eqb_refl. cbn [assert_ bind take_it].
    rewrite <- Hw at 1 2. destruct Hl as (Hr&_&Hh'&_). 
    rewrite from_1d by apply Hr. cbn [bind]. change (mkGrid _ _) with g'. rewrite (rect_size_eq Hr). cbn [bind].
    change (gwidth g') with (gwidth g). rewrite Hh', !Nat.eqb_refl. cbn [assert_ bind]. now rewrite list_set_middle.
  - exists doc', g'. auto.
Qed.

Lemma insert_columns_ok cfg doc p i g k ins : wf_row doc -> node_get doc p i = Some (Container Table g) ->
  rectangular ins -> height ins = height g -> k <= gwidth g ->
  exists doc' g', tree_apply_edit cfg doc (EGrid (mkGridEdit Insert (mkElementIndices p i) GColumn k ins)) = Ok doc' /\
    table_replaced p i g g' doc doc' /\ columns_inserted k ins g g'.
Proof.
  intros Hwf Hn Hi Hw Hk. destruct (table_grid_rect Hwf Hn) as [Hg Hh].
  pose proof (columns_inserted_ok Hg Hi Hw Hk) as Hl.
  set (g' := mkGrid _ _) in Hl.
  destruct (@grid_edit_ok cfg doc p i g (mkGridEdit Insert (mkElementIndices p i) GColumn k ins) g') as (doc'&E&Ht); auto.
  - intros l r Hlen. unfold apply_grid_edit. cbn [ge_element ei_index ge_type ge_direction ge_row_or_column ge_values].
    rewrite <- Hlen, nth_error_middle. cbn [unwrap bind has_resizable_grid variant_has_resizable_grid assert_].
    rewrite (rect_size_eq Hg). cbn [bind]. unfold new_grid_size. cbn [ge_type ge_direction ge_values].
    rewrite (rect_size_eq Hg). cbn [bind]. rewrite (rect_size_eq Hi). cbn [bind].
    replace (height ins =? height g) with true by lia. cbn [assert_ bind].
    replace (height ins =? 0) with false by lia. unfold usub. replace (k <=? gwidth g) with true by lia. cbn [bind].
    destruct Hl as (Hr&_&Hh'&_).
    rewrite from_1d by apply Hr. cbn [bind]. change (mkGrid _ _) with g'. rewrite (rect_size_eq Hr). cbn [bind].
    change (gwidth g') with (gwidth g + gwidth ins). rewrite Hh', !Nat.eqb_refl. cbn [assert_ bind]. now rewrite list_set_middle.
  - exists doc', g'. auto.
Qed.

(** Deletion never works. *)
Lemma delete_columns_all A n k ow (old : list A) : k <= ow -> length old = n * ow ->
  delete_columns n k (Some (ow - k)) old = old.
Proof.
  revert old. induction n as [|n IH]; intros old Hk Hl; simpl.
  - destruct old; [reflexivity|discriminate].
  - rewrite IH by (rewrite ?skipn_length; nia). now rewrite firstn_skipn, firstn_skipn.
Qed.
Lemma delete_panics cfg doc p i g d k vs : wf_row doc -> node_get doc p i = Some (Container Table g) ->
  rectangular vs -> 0 < height vs ->
  match d with
  | GRow => gwidth vs = gwidth g /\ k + height vs <= height g
  | GColumn => height vs = height g /\ k + gwidth vs <= gwidth g
  end ->
  tree_apply_edit cfg doc (EGrid (mkGridEdit Delete (mkElementIndices p i) d k vs)) = Panic PAssert.
Proof.
  intros Hwf Hn Hi Hvs Hd. destruct (table_grid_rect Hwf Hn) as [Hg Hh].
  destruct (node_get_split Hn) as (l&r&Hlen&Hr).
  cbn [tree_apply_edit ge_element ei_row]. apply (update_row_fail Hwf Hr).
  unfold apply_grid_edit. cbn [ge_element ei_index ge_type ge_direction ge_row_or_column ge_values].
  rewrite <- Hlen, nth_error_middle. cbn [unwrap bind has_resizable_grid variant_has_resizable_grid assert_].
  rewrite (rect_size_eq Hg). cbn [bind]. unfold new_grid_size. cbn [ge_type ge_direction ge_values].
  rewrite (rect_size_eq Hg). cbn [bind]. rewrite (rect_size_eq Hi). cbn [bind]. unfold psub.
  pose proof (rect_len Hg) as Lg. assert (Hp := proj1 Hg). assert (Hp' := proj1 Hi).
  destruct d, Hd as [Hs Hk].
  - replace (height vs <=? height g) with true by lia. cbn [bind]. rewrite Hs, Nat.eqb_refl. cbn [assert_ bind take_it].
    rewrite firstn_skipn. rewrite from_1d by apply Hg. cbn [bind].
    assert (Hr' : rectangular (mkGrid (gvalues g) (gwidth g))) by exact Hg.
    rewrite (rect_size_eq Hr'). cbn [bind gwidth]. rewrite Nat.eqb_refl. cbn [assert_ bind].
    change (height (mkGrid (gvalues g) (gwidth g))) with (height g).
    now replace (height g =? height g - height vs) with false by lia.
  - replace (gwidth vs <=? gwidth g) with true by lia. cbn [bind].
    replace (height vs =? height g) with true by lia. cbn [assert_ bind].
    replace (height vs =? 0) with false by lia. unfold usub. replace (k <=? gwidth g) with true by lia. cbn [bind].
    rewrite delete_columns_all by (try lia; rewrite Lg; nia).
    unfold from_one_dimensional, umod.
    destruct (0 <? gwidth g - gwidth vs) eqn:E0; [|reflexivity]. cbn [assert_ bind].
    replace (gwidth g - gwidth vs =? 0) with false by lia. cbn [bind].
    destruct (length (gvalues g) mod (gwidth g - gwidth vs) =? 0) eqn:Em; [|reflexivity]. cbn [assert_ bind].
    assert (Hr' : rectangular (mkGrid (gvalues g) (gwidth g - gwidth vs))) by (split; cbn [gwidth gvalues]; lia).
    pose proof (rect_len Hr') as Ll. rewrite (rect_size_eq Hr'). cbn [gvalues gwidth bind] in *.
    rewrite Nat.eqb_refl. cbn [assert_ bind].
    destruct (height {| gvalues := gvalues g; gwidth := gwidth g - gwidth vs |} =? height g) eqn:Eh; [|reflexivity].
    exfalso. assert (height {| gvalues := gvalues g; gwidth := gwidth g - gwidth vs |} = height g) by lia. nia.
Qed.

(** Well-formedness. *)
Lemma cell_in T (g : GridVec T) x y c : cell g x y = Some c -> In c (gvalues g).
Proof. unfold cell. destruct (x <? gwidth g); [|discriminate]. apply nth_error_In. Qed.
Lemma in_cell T (g : GridVec T) c : rectangular g -> In c (gvalues g) -> exists x y, cell g x y = Some c.
Proof.
  intros [Hw _] Hc. apply In_nth_error in Hc as [n Hn]. exists (n mod gwidth g), (n / gwidth g).
  unfold cell. pose proof (Nat.mod_upper_bound n (gwidth g)).
  replace (n mod gwidth g <? gwidth g) with true by lia.
  rewrite Nat.mul_comm, <- Nat.div_mod_eq. auto.
Qed.
Lemma table_replaced_wf p i g g' doc doc' : wf_row doc -> table_replaced p i g g' doc doc' ->
  rectangular g' -> 0 < height g' -> (forall c, In c (gvalues g') -> wf_row c) -> wf_row doc'.
Proof.
  intros Hwf (l&r&_&Hrep) Hg' Hh Hc.
  pose proof (row_get_wf Hwf (replaced_get_old Hrep)) as Hw.
  apply (replaced_wf Hrep Hwf). intros n Hn. apply in_app_iff in Hn as [Hn|[<-|Hn]].
  - apply Hw, in_or_app; auto.
  - destruct g' as [cs w]. destruct Hg' as [Hp Hm]. constructor; auto.
    intros ->. unfold height in Hh; simpl in Hh. rewrite Nat.div_0_l in Hh by (simpl in Hp; lia). lia.
  - apply Hw, in_or_app; right; right; auto.
Qed.
Lemma insert_wf cfg doc p i g d k ins doc' : wf_row doc -> node_get doc p i = Some (Container Table g) ->
  rectangular ins -> (forall c, In c (gvalues ins) -> wf_row c) ->
  match d with
  | GRow => gwidth ins = gwidth g /\ k <= height g
  | GColumn => height ins = height g /\ k <= gwidth g
  end ->
  tree_apply_edit cfg doc (EGrid (mkGridEdit Insert (mkElementIndices p i) d k ins)) = Ok doc' -> wf_row doc'.
Proof.
  intros Hwf Hn Hi Hc Hd E. destruct (table_grid_rect Hwf Hn) as [Hg Hh].
  assert (Hcg : forall c, In c (gvalues g) -> wf_row c).
  { destruct (node_get_split Hn) as (l&r&_&Hr). pose proof (row_get_wf Hwf Hr) as Hw.
    assert (Hx : wf_node (Container Table g)) by (apply Hw, in_or_app; right; left; auto).
    apply wf_container_inv in Hx. intuition. }
  destruct d, Hd as [Hs Hk].
  - destruct (@insert_lines_ok cfg doc p i g k ins) as (doc1&g'&E1&Ht&Hr&_&Hh'&Hcell); auto.
    rewrite E in E1. inv E1. apply (table_replaced_wf Hwf Ht Hr); [lia|].
    intros c Hin. destruct (in_cell Hr Hin) as (x&y&Hxy). rewrite Hcell in Hxy.
    destruct (y <? k); [eauto using cell_in|]. destruct (y <? k + height ins); eauto using cell_in.
  - destruct (@insert_columns_ok cfg doc p i g k ins) as (doc1&g'&E1&Ht&Hr&_&Hh'&Hcell); auto.
    rewrite E in E1. inv E1. apply (table_replaced_wf Hwf Ht Hr); [lia|].
    intros c Hin. destruct (in_cell Hr Hin) as (x&y&Hxy). rewrite Hcell in Hxy.
    destruct (x <? k); [eauto using cell_in|]. destruct (x <? k + gwidth ins); eauto using cell_in.
Qed.
