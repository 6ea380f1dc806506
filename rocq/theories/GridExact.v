(** Exactly which edits of tables are carried out. *)
From Verif Require Import Base Str Grid Node Focus Edit Spec SpecGrid BaseFacts TreeFacts EditFacts GridFacts.
Set Implicit Arguments.
Unset Strict Implicit.

Lemma replaced_same p r doc doc' : replaced p r r doc doc' -> doc' = doc.
Proof.
  intros H. remember r as r' in H at 2. revert Heqr'. induction H as [r1 r2|p r1 r2 l v b c c' a w rt H IH]; intros E; [exact E|]. now rewrite (IH E).
Qed.
Lemma size_pos T (g : GridVec T) s : gsize g = Ok s -> 0 < gwidth g /\ s = (gwidth g, height g).
Proof. unfold gsize, udiv, height. destruct (gwidth g =? 0) eqn:E; [discriminate|]. cbn [bind]. intros H. injection H as <-. split; [lia|reflexivity]. Qed.
Lemma from_1d_inv T (l : list T) w (g : GridVec T) : from_one_dimensional l w = Ok g -> 0 < w /\ g = mkGrid l w /\ rectangular g.
Proof.
  unfold from_one_dimensional, umod. destruct (0 <? w) eqn:E; [|discriminate]. cbn [assert_ bind]. destruct (w =? 0) eqn:E0; [discriminate|]. cbn [bind]. destruct (length l mod w =? 0) eqn:Em; [|discriminate].
  cbn [assert_ bind]. intros H. injection H as <-. unfold rectangular. cbn [gwidth gvalues]. repeat split; lia.
Qed.
(** What remains of the cells when nothing is skipped *)
Lemma delete_keeps A n k (rest : option nat) ow (old : list A) : match rest with Some r => k <= ow /\ r = ow - k | None => True end -> length old = n * ow -> 0 < n -> delete_columns n k rest old = old.
Proof.
  intros Hr Hl Hn. destruct rest as [r|]; [destruct Hr as [Hk ->]; now apply delete_columns_all|]. destruct n as [|n]; [lia|]. cbn [delete_columns take_it].
  assert (E : delete_columns n k None (@nil A) = []) by (clear; induction n as [|n IH]; [reflexivity|cbn [delete_columns take_it]; rewrite firstn_nil, skipn_nil, IH; reflexivity]). rewrite E, app_nil_r. apply firstn_skipn.
Qed.
(** Adding columns never loses a cell. *)
Lemma insert_empty A n k w (ins : list A) : length ins = n * w -> insert_columns n k w None [] ins = ins.
Proof.
  revert ins. induction n as [|n IH]; intros ins Hl; cbn [insert_columns take_it]; [destruct ins; [reflexivity|discriminate Hl]|]. rewrite firstn_nil, skipn_nil. cbn [app].
  rewrite IH by (rewrite skipn_length; lia). apply firstn_skipn.
Qed.
Lemma insert_wrapped A n k w (old ins : list A) : 0 < n -> length ins = n * w -> insert_columns n k w None old ins = firstn k old ++ firstn w ins ++ skipn k old ++ skipn w ins.
Proof.
  intros Hn Hl. destruct n as [|n]; [lia|]. cbn [insert_columns take_it]. rewrite insert_empty by (rewrite skipn_length; lia). reflexivity.
Qed.

Section Edits.
Variables (cfg : Cfg) (doc : InputRow).
Hypothesis Hwf : wf_row doc.

Lemma delete_only_nothing p i d k vs doc' : rectangular vs -> tree_apply_edit cfg doc (EGrid (mkGridEdit Delete (mkElementIndices p i) d k vs)) = Ok doc' ->
  d = GRow /\ height vs = 0 /\ doc' = doc.
Proof.
  intros Hvs H. cbn [tree_apply_edit ge_element ei_row] in H. apply update_row_inv in H as (r&r'&H&Hrep&_).
  unfold apply_grid_edit in H. cbn [ge_element ei_index ge_type ge_direction ge_row_or_column ge_values] in H.
  destruct (nth_error r i) as [n|] eqn:En; [|discriminate H]. cbn [unwrap bind] in H. apply bind_ok in H as (u&Ha&H). destruct n as [v g|s]; [|discriminate Ha]. destruct v; try discriminate Ha. clear Ha u.
  assert (Hn : node_get doc p i = Some (Container Table g)) by (unfold node_get; now rewrite (replaced_get_old Hrep)). destruct (table_grid_rect Hwf Hn) as [Hg Hh].
  rewrite (rect_size_eq Hg) in H. cbn [bind] in H. unfold new_grid_size in H. cbn [ge_type ge_direction ge_values] in H. rewrite (rect_size_eq Hg) in H. cbn [bind] in H. rewrite (rect_size_eq Hvs) in H. cbn [bind] in H.
  pose proof (rect_len Hg) as Lg. assert (Hp := proj1 Hg). assert (Hp' := proj1 Hvs). destruct d; unfold psub in H.
  - destruct (height vs <=? height g) eqn:E1; [|discriminate H]. cbn [bind] in H. destruct (gwidth vs =? gwidth g) eqn:E2; [|discriminate H]. cbn [assert_ bind take_it] in H. rewrite firstn_skipn in H.
    apply bind_ok in H as (g'&Eg&H). apply from_1d_inv in Eg as (_&->&Hg'). rewrite (rect_size_eq Hg') in H. cbn [bind gwidth] in H. rewrite Nat.eqb_refl in H. cbn [assert_ bind] in H.
    destruct (height _ =? _) eqn:E3 in H; [|discriminate H]. cbn [assert_ bind] in H. change (height (mkGrid (gvalues g) (gwidth g))) with (height g) in E3. split; [reflexivity|]. split; [lia|].
    injection H as <-. apply nth_error_split in En as (l1&l2&->&<-). rewrite list_set_middle in Hrep. destruct g as [cells w]. cbn [gvalues gwidth] in Hrep. exact (replaced_same Hrep).
  - exfalso. destruct (gwidth vs <=? gwidth g) eqn:E1; [|discriminate H]. cbn [bind] in H. destruct (height vs =? height g) eqn:E2; [|discriminate H]. cbn [assert_ bind] in H.
    destruct (height vs =? 0) eqn:E0; [lia|]. apply bind_ok in H as (new&Enew&H). apply bind_ok in Enew as (rest&Er&Enew). injection Enew as <-.
    apply bind_ok in H as (g'&Eg&H). apply from_1d_inv in Eg as (Hw&->&Hg'). pose proof (rect_len Hg') as L'. rewrite (rect_size_eq Hg') in H. cbn [bind gwidth gvalues] in *. rewrite Nat.eqb_refl in H. cbn [assert_ bind] in H.
    destruct (height _ =? _) eqn:E3 in H; [|discriminate H]. apply Nat.eqb_eq in E3. rewrite E3 in L'. rewrite (@delete_keeps _ (height vs) k rest (gwidth g)) in L' by (try lia; try (unfold usub in Er; destruct (k <=? gwidth g) eqn:Ek; [injection Er as <-; lia|destruct (overflow_checks cfg); [discriminate Er|injection Er as <-; exact I]])).
    nia.
Qed.
Lemma insert_lines_past p i g k ins : node_get doc p i = Some (Container Table g) -> height g <= k -> rectangular ins -> gwidth ins = gwidth g ->
  tree_apply_edit cfg doc (EGrid (mkGridEdit Insert (mkElementIndices p i) GRow k ins)) = tree_apply_edit cfg doc (EGrid (mkGridEdit Insert (mkElementIndices p i) GRow (height g) ins)).
Proof.
  intros Hn Hk Hi Hw. destruct (table_grid_rect Hwf Hn) as [Hg Hh]. cbn [tree_apply_edit ge_element ei_row].
  destruct (node_get_split Hn) as (l&r&Hlen&Hr).
  assert (E : apply_grid_edit cfg (mkGridEdit Insert (mkElementIndices p i) GRow k ins) (l ++ Container Table g :: r) = apply_grid_edit cfg (mkGridEdit Insert (mkElementIndices p i) GRow (height g) ins) (l ++ Container Table g :: r)).
  { unfold apply_grid_edit. cbn [ge_element ei_index ge_type ge_direction ge_row_or_column ge_values]. rewrite <- Hlen, nth_error_middle. cbn [unwrap bind has_resizable_grid variant_has_resizable_grid assert_].
    rewrite (rect_size_eq Hg). cbn [bind]. unfold new_grid_size. cbn [ge_type ge_direction ge_values]. rewrite (rect_size_eq Hg). cbn [bind]. rewrite (rect_size_eq Hi). cbn [bind]. rewrite Hw, Nat.eqb_refl. cbn [assert_ bind take_it].
    pose proof (rect_len Hg) as Lg. assert (A : length (gvalues g) <= gwidth g * k) by nia. assert (B : length (gvalues g) <= gwidth g * height g) by nia. rewrite !firstn_all2, !skipn_all2 by assumption. reflexivity. }
  destruct (@insert_lines_ok cfg doc p i g (height g) ins Hwf Hn Hi Hw (Nat.le_refl _)) as (doc1&g1&E1&_). cbn [tree_apply_edit ge_element ei_row] in E1. rewrite E1.
  pose proof E1 as E1'. apply update_row_inv in E1' as (r1&r1'&F&Hrep&_). assert (r1 = l ++ Container Table g :: r) as -> by (rewrite (replaced_get_old Hrep) in Hr; now injection Hr).
  rewrite <- E in F. destruct (update_row_ok Hwf Hr F) as (doc2&E2). rewrite E2. pose proof E2 as E2'. apply update_row_inv in E2' as (r2&r2'&F2&Hrep2&_). assert (r2 = l ++ Container Table g :: r) as -> by (rewrite (replaced_get_old Hrep2) in Hr; now injection Hr).
  rewrite F in F2. injection F2 as <-. now rewrite (replaced_unique Hrep Hrep2).
Qed.
(** Inserting columns behind the last one, without overflow checks *)
Lemma insert_columns_past p i g k ins : node_get doc p i = Some (Container Table g) -> gwidth g < k -> rectangular ins -> height ins = height g -> overflow_checks cfg = false ->
  exists doc', tree_apply_edit cfg doc (EGrid (mkGridEdit Insert (mkElementIndices p i) GColumn k ins)) = Ok doc' /\
    table_replaced p i g (mkGrid (firstn k (gvalues g) ++ firstn (gwidth ins) (gvalues ins) ++ skipn k (gvalues g) ++ skipn (gwidth ins) (gvalues ins)) (gwidth g + gwidth ins)) doc doc'.
Proof.
  intros Hn Hk Hi Hh Hc. destruct (table_grid_rect Hwf Hn) as [Hg Hh0]. pose proof (rect_len Hg) as Lg. pose proof (rect_len Hi) as Li. assert (Hp := proj1 Hg). assert (Hp' := proj1 Hi).
  set (new := _ ++ _ ++ _ ++ _). assert (L : length new = height g * (gwidth g + gwidth ins)).
  { unfold new. rewrite !app_length. pose proof (firstn_skipn k (gvalues g)) as A1. pose proof (firstn_skipn (gwidth ins) (gvalues ins)) as A2. apply (f_equal (@length _)) in A1, A2. rewrite app_length in A1, A2. nia. }
  destruct (@rect_of _ new (gwidth g + gwidth ins) (height g) ltac:(lia) L) as [Hr Hh'].
  destruct (@grid_edit_ok cfg doc p i g (mkGridEdit Insert (mkElementIndices p i) GColumn k ins) (mkGrid new (gwidth g + gwidth ins))) as (doc'&E&Ht); auto; [|exists doc'; auto].
  intros l r Hlen. unfold apply_grid_edit. cbn [ge_element ei_index ge_type ge_direction ge_row_or_column ge_values].
  rewrite <- Hlen, nth_error_middle. cbn [unwrap bind has_resizable_grid variant_has_resizable_grid assert_].
  rewrite (rect_size_eq Hg). cbn [bind]. unfold new_grid_size. cbn [ge_type ge_direction ge_values].
  rewrite (rect_size_eq Hg). cbn [bind]. rewrite (rect_size_eq Hi). cbn [bind].
  replace (height ins =? height g) with true by lia. cbn [assert_ bind]. replace (height ins =? 0) with false by lia. unfold usub. replace (k <=? gwidth g) with false by lia. rewrite Hc. cbn [bind].
  rewrite insert_wrapped by (try lia). fold new. rewrite from_1d by apply Hr. cbn [bind]. rewrite (rect_size_eq Hr). cbn [bind gwidth]. rewrite Hh', !Nat.eqb_refl. cbn [assert_ bind]. now rewrite list_set_middle.
Qed.
Lemma insert_exact p i d k ins : rectangular ins ->
  (exists doc', tree_apply_edit cfg doc (EGrid (mkGridEdit Insert (mkElementIndices p i) d k ins)) = Ok doc') <->
  exists g, node_get doc p i = Some (Container Table g) /\
    match d with GRow => gwidth ins = gwidth g | GColumn => height ins = height g /\ (k <= gwidth g \/ overflow_checks cfg = false) end.
Proof.
  intros Hi. split.
  - intros [doc' H]. cbn [tree_apply_edit ge_element ei_row] in H. apply update_row_inv in H as (r&r'&H&Hrep&_).
    unfold apply_grid_edit in H. cbn [ge_element ei_index ge_type ge_direction ge_row_or_column ge_values] in H.
    destruct (nth_error r i) as [n|] eqn:En; [|discriminate H]. cbn [unwrap bind] in H. apply bind_ok in H as (u&Ha&H). destruct n as [v g|s]; [|discriminate Ha]. destruct v; try discriminate Ha. clear Ha u.
    assert (Hn : node_get doc p i = Some (Container Table g)) by (unfold node_get; now rewrite (replaced_get_old Hrep)). destruct (table_grid_rect Hwf Hn) as [Hg Hh]. exists g. split; [exact Hn|].
    rewrite (rect_size_eq Hg) in H. cbn [bind] in H. unfold new_grid_size in H. cbn [ge_type ge_direction ge_values] in H. rewrite (rect_size_eq Hg) in H. cbn [bind] in H. rewrite (rect_size_eq Hi) in H. cbn [bind] in H.
    destruct d; cbn [bind] in H.
    + destruct (gwidth ins =? gwidth g) eqn:E2; [lia|discriminate H].
    + destruct (height ins =? height g) eqn:E2; [|discriminate H]. split; [lia|]. cbn [assert_ bind] in H. destruct (height ins =? 0) eqn:E0; [lia|]. unfold usub in H. destruct (k <=? gwidth g) eqn:Ek; [lia|]. destruct (overflow_checks cfg); [discriminate H|auto].
  - intros (g&Hn&Hd). destruct d.
    + destruct (Nat.le_gt_cases k (height g)) as [Hk|Hk].
      * destruct (@insert_lines_ok cfg doc p i g k ins Hwf Hn Hi Hd Hk) as (doc'&g'&E&_). eauto.
      * rewrite (@insert_lines_past p i g k ins Hn ltac:(lia) Hi Hd). destruct (@insert_lines_ok cfg doc p i g (height g) ins Hwf Hn Hi Hd (Nat.le_refl _)) as (doc'&g'&E&_). eauto.
    + destruct Hd as [Hh Hd]. destruct (Nat.le_gt_cases k (gwidth g)) as [Hk|Hk].
      * destruct (@insert_columns_ok cfg doc p i g k ins Hwf Hn Hi Hh Hk) as (doc'&g'&E&_). eauto.
      * destruct Hd as [Hd|Hd]; [lia|]. destruct (@insert_columns_past p i g k ins Hn Hk Hi Hh Hd) as (doc'&E&_). eauto.
Qed.
End Edits.
