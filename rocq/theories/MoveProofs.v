(** Proofs of the theorems of PropsMove.v. *)
From Verif Require Import Base Str Grid Node Focus Edit Caret Spec SpecMove BaseFacts TreeFacts OrderFacts
  EditFacts MoveFacts.
Set Implicit Arguments.
Unset Strict Implicit.

Lemma nav_collapsed cfg doc p d : wf_row doc -> good_pos doc p ->
  nav_move_caret cfg doc (mkCaret p p (SelRow (range_of_pos p))) d MChar =
  (r <- move_caret_internal cfg p d ;;
   match r with
   | Some q => caret_new doc q q
   | None => Ok (mkCaret p p (SelRow (range_of_pos p)))
   end).
Proof.
  intros Hwf Hp. unfold nav_move_caret, move_caret_range; cbn [c_selection].
  assert (Hl : rg_left_position (range_of_pos p) = p).
  { destruct p. unfold rg_left_position, rg_left; simpl. now destruct (rg_is_forwards _). }
  assert (Hr : rg_right_position (range_of_pos p) = p).
  { destruct p. unfold rg_right_position, rg_right; simpl. now destruct (rg_is_forwards _). }
  assert (Hc : rg_is_collapsed (range_of_pos p) = true) by (unfold rg_is_collapsed; simpl; apply Nat.eqb_refl).
  assert (Hs : forall q, caret_set_selection doc (mkCaret p p (SelRow (range_of_pos p))) (range_of_pos q) = caret_new doc q q).
  { intros [f o]. reflexivity. }
  replace (match d with DLeft | DUp => rg_left_position (range_of_pos p)
                      | DRight | DDown => rg_right_position (range_of_pos p) end) with p
    by (destruct d; congruence).
  rewrite Hc. cbn [negb].
  destruct (move_caret_internal cfg p d) as [[q|]|k]; cbn [bind]; auto.
Qed.


(** The caret at a position. *)
Definition caret_at (p : InputRowPosition) : Caret := mkCaret p p (SelRow (range_of_pos p)).

Lemma nav_right cfg doc p : wf_row doc -> good_pos doc p -> exists q, good_pos doc q /\
  nav_move_caret cfg doc (caret_at p) DRight MChar = Ok (caret_at q) /\
  (next_in (positions doc) (pos_to_minimal p) (pos_to_minimal q) \/
   ((exists l, positions doc = l ++ [pos_to_minimal p]) /\ q = p)).
Proof.
  intros Hwf Gp. unfold caret_at at 1. rewrite nav_collapsed by auto.
  destruct (move_right cfg Hwf Gp) as ([q|]&E&H); rewrite E; cbn [bind].
  - destruct H as [Gq H]. exists q. rewrite caret_new_collapsed by auto. split; auto. split; auto.
    left. now apply right_step_next.
  - exists p. split; auto. split; auto. right. split; auto. rewrite H. apply positions_last.
Qed.
Lemma nav_left cfg doc p : wf_row doc -> good_pos doc p ->
  (overflow_checks cfg = true -> ~ at_cell_zero (pos_to_minimal p)) -> exists q, good_pos doc q /\
  nav_move_caret cfg doc (caret_at p) DLeft MChar = Ok (caret_at q) /\
  (next_in (positions doc) (pos_to_minimal q) (pos_to_minimal p) \/
   ((exists l, positions doc = pos_to_minimal p :: l) /\ q = p)).
Proof.
  intros Hwf Gp Hz. unfold caret_at at 1. rewrite nav_collapsed by auto.
  destruct (move_left Hwf Gp Hz) as ([q|]&E&H); rewrite E; cbn [bind].
  - destruct H as [Gq H]. exists q. rewrite caret_new_collapsed by auto. split; auto. split; auto.
    left. now apply right_step_next.
  - exists p. split; auto. split; auto. right. split; auto. rewrite H. apply positions_first.
Qed.

Lemma right_or_end cfg doc m : wf_row doc -> valid_pos doc m ->
  exists c c', caret_from_minimal doc (collapsed m) = Ok c /\
    nav_move_caret cfg doc c DRight MChar = Ok c' /\
    ((exists m', next_in (positions doc) m m' /\ caret_to_minimal c' = collapsed m') \/
     ((exists l, positions doc = l ++ [m]) /\ c' = c)).
Proof.
  intros Hwf Hv. destruct (collapsed_caret Hwf Hv) as (p&Gp&<-&Ec).
  destruct (nav_right cfg Hwf Gp) as (q&Gq&E&H).
  do 2 eexists. split; [exact Ec|]. split; [exact E|].
  destruct H as [H|[H ->]]; [left|right; auto]. exists (pos_to_minimal q). auto.
Qed.

Lemma left_or_start cfg doc m : wf_row doc -> valid_pos doc m ->
  (overflow_checks cfg = true -> ~ at_cell_zero m) ->
  exists c c', caret_from_minimal doc (collapsed m) = Ok c /\
    nav_move_caret cfg doc c DLeft MChar = Ok c' /\
    ((exists m', next_in (positions doc) m' m /\ caret_to_minimal c' = collapsed m') \/
     ((exists l, positions doc = m :: l) /\ c' = c)).
Proof.
  intros Hwf Hv Hz. destruct (collapsed_caret Hwf Hv) as (p&Gp&<-&Ec).
  destruct (nav_left Hwf Gp Hz) as (q&Gq&E&H).
  do 2 eexists. split; [exact Ec|]. split; [exact E|].
  destruct H as [H|[H ->]]; [left|right; auto]. exists (pos_to_minimal q). auto.
Qed.

Lemma next_in_valid doc a b : next_in (positions doc) a b -> valid_pos doc a /\ valid_pos doc b.
Proof.
  intros (l1&l2&H). rewrite <- !in_positions_valid, H. split; apply in_app_iff; simpl; auto.
Qed.

Lemma last_not_next A (l : list A) m m' : NoDup (l ++ [m]) -> ~ next_in (l ++ [m]) m m'.
Proof.
  intros Hn (l1&l2&H). apply (NoDup_split Hn) in H as [_ H]. discriminate.
Qed.
Lemma first_not_next A (l : list A) m m' : NoDup (m :: l) -> ~ next_in (m :: l) m' m.
Proof.
  intros Hn (l1&l2&H). assert (H' : [] ++ m :: l = (l1 ++ [m']) ++ m :: l2) by (rewrite <- app_assoc; exact H).
  apply (NoDup_split (l1 := [])) in H' as [H' _]; [|exact Hn]. destruct l1; discriminate.
Qed.
Lemma nav_right_next cfg doc p m' : wf_row doc -> good_pos doc p ->
  next_in (positions doc) (pos_to_minimal p) m' -> exists q, good_pos doc q /\
  nav_move_caret cfg doc (caret_at p) DRight MChar = Ok (caret_at q) /\ pos_to_minimal q = m'.
Proof.
  intros Hwf Gp Hn. pose proof (positions_NoDup doc) as Hnd.
  destruct (nav_right cfg Hwf Gp) as (q&Gq&E&H). exists q. split; auto. split; auto.
  destruct H as [H|[[l El] ->]].
  - eapply next_in_fun; eauto.
  - exfalso. rewrite El in Hn, Hnd. eapply last_not_next; eauto.
Qed.
Lemma nav_left_next cfg doc p m' : wf_row doc -> good_pos doc p ->
  (overflow_checks cfg = true -> ~ at_cell_zero (pos_to_minimal p)) ->
  next_in (positions doc) m' (pos_to_minimal p) -> exists q, good_pos doc q /\
  nav_move_caret cfg doc (caret_at p) DLeft MChar = Ok (caret_at q) /\ pos_to_minimal q = m'.
Proof.
  intros Hwf Gp Hz Hn. pose proof (positions_NoDup doc) as Hnd.
  destruct (nav_left Hwf Gp Hz) as (q&Gq&E&H). exists q. split; auto. split; auto.
  destruct H as [H|[[l El] ->]].
  - eapply next_in_inj; eauto.
  - exfalso. rewrite El in Hn, Hnd. eapply first_not_next; eauto.
Qed.

(** The other key undoes a movement. *)
Lemma right_left cfg doc m m' : wf_row doc -> overflow_checks cfg = false -> next_in (positions doc) m m' ->
  (exists c c' c'', caret_from_minimal doc (collapsed m) = Ok c /\ caret_to_minimal c' = collapsed m' /\
     nav_move_caret cfg doc c DRight MChar = Ok c' /\ nav_move_caret cfg doc c' DLeft MChar = Ok c'' /\ c'' = c) /\
  (exists c c' c'', caret_from_minimal doc (collapsed m') = Ok c /\ caret_to_minimal c' = collapsed m /\
     nav_move_caret cfg doc c DLeft MChar = Ok c' /\ nav_move_caret cfg doc c' DRight MChar = Ok c'' /\ c'' = c).
Proof.
  intros Hwf Ho Hn. pose proof (next_in_valid Hn) as [Hv Hv'].
  assert (Hu : forall p q, good_pos doc p -> good_pos doc q -> pos_to_minimal p = pos_to_minimal q -> p = q).
  { intros [f o] [f' o'] [H1 _] [H2 _] H. unfold pos_to_minimal, pos_indices in H. simpl in *. inv H.
    f_equal. eapply canonical_unique; eauto. }
  split.
  - destruct (collapsed_caret Hwf Hv) as (p&Gp&<-&Ec).
    destruct (nav_right_next cfg Hwf Gp Hn) as (q&Gq&E&<-).
    destruct (@nav_left_next cfg doc q (pos_to_minimal p) Hwf Gq) as (p'&Gp'&E'&Hp'); [congruence|auto|].
    assert (p' = p) as -> by auto. do 3 eexists. split; [exact Ec|]. split; [|split; [exact E|split; [exact E'|reflexivity]]]. reflexivity.
  - destruct (collapsed_caret Hwf Hv') as (p&Gp&<-&Ec).
    destruct (@nav_left_next cfg doc p m Hwf Gp) as (q&Gq&E&<-); [congruence|auto|].
    destruct (nav_right_next cfg Hwf Gq Hn) as (p'&Gp'&E'&Hp').
    assert (p' = p) as -> by auto. do 3 eexists. split; [exact Ec|]. split; [|split; [exact E|split; [exact E'|reflexivity]]]. reflexivity.
Qed.

(** ** C10 *)
Lemma nth_next A (l : list A) k a b : NoDup l -> nth_error l k = Some a -> next_in l a b -> nth_error l (S k) = Some b.
Proof.
  intros Hn Hk (l1&l2&->). apply nth_error_split_len in Hk as (m1&m2&H&<-).
  apply (NoDup_split Hn) in H as [-> <-].
  rewrite nth_error_app2 by lia. replace (S (length m1) - length m1) with 1 by lia. reflexivity.
Qed.
Lemma next_nth A (l : list A) k a b : nth_error l k = Some a -> nth_error l (S k) = Some b -> next_in l a b.
Proof.
  intros Hk Hk'. apply nth_error_split_len in Hk as (m1&m2&->&<-).
  rewrite nth_error_app2 in Hk' by lia. replace (S (length m1) - length m1) with 1 in Hk' by lia.
  destruct m2 as [|c m2]; [discriminate|]. simpl in Hk'. inv Hk'. exists m1, m2. reflexivity.
Qed.

Lemma presses_right cfg doc k : wf_row doc ->
  forall p i, good_pos doc p -> nth_error (positions doc) i = Some (pos_to_minimal p) ->
  exists q, good_pos doc q /\ presses cfg doc DRight k (caret_at p) = Ok (caret_at q) /\
    nth_error (positions doc) (Nat.min (i + k) (length (positions doc) - 1)) = Some (pos_to_minimal q).
Proof.
  intros Hwf. pose proof (positions_NoDup doc) as Hnd.
  induction k as [|k IH]; intros p i Gp Hi; pose proof (nth_error_Some_lt Hi) as Hl.
  - exists p. split; auto. split; auto. rewrite Nat.add_0_r, Nat.min_l by lia. exact Hi.
  - cbn [presses]. destruct (nav_right cfg Hwf Gp) as (q&Gq&E&H). rewrite E. cbn [bind].
    destruct H as [H|[[l El] ->]].
    + destruct (IH q (S i) Gq (nth_next Hnd Hi H)) as (q'&Gq'&E'&Hq').
      exists q'. split; auto. split; auto. now replace (i + S k) with (S i + k) by lia.
    + destruct (IH p i Gp Hi) as (q'&Gq'&E'&Hq'). exists q'. split; auto. split; auto.
      rewrite El in *. assert (i = length l).
      { apply nth_error_split_len in Hi as (m1&m2&Hm&<-). apply (NoDup_split Hnd) in Hm as [-> _]. reflexivity. }
      subst i. rewrite app_length in *. simpl in *. rewrite Nat.min_r in * by lia. exact Hq'.
Qed.
Lemma presses_left cfg doc k : wf_row doc -> overflow_checks cfg = false ->
  forall p i, good_pos doc p -> nth_error (positions doc) i = Some (pos_to_minimal p) ->
  exists q, good_pos doc q /\ presses cfg doc DLeft k (caret_at p) = Ok (caret_at q) /\
    nth_error (positions doc) (i - k) = Some (pos_to_minimal q).
Proof.
  intros Hwf Hov. pose proof (positions_NoDup doc) as Hnd.
  induction k as [|k IH]; intros p i Gp Hi; pose proof (nth_error_Some_lt Hi) as Hl.
  - exists p. split; auto. split; auto. now rewrite Nat.sub_0_r.
  - cbn [presses]. destruct (@nav_left cfg doc p Hwf Gp) as (q&Gq&E&H); [congruence|]. rewrite E. cbn [bind].
    destruct H as [H|[[l El] ->]].
    + destruct i as [|i].
      { exfalso. destruct (positions_first doc) as [l El]. rewrite El in *. simpl in Hi.
        assert (E0 : pos_to_minimal p = here 0) by congruence. rewrite E0 in H.
        eapply first_not_next; eauto. }
      assert (Hi' : nth_error (positions doc) i = Some (pos_to_minimal q)).
      { destruct (nth_error_lt_Some (l := positions doc) (i := i)) as [m Hm]; [lia|].
        rewrite Hm. f_equal. eapply next_in_inj; [exact Hnd| |exact H]. eapply next_nth; eauto. }
      destruct (IH q i Gq Hi') as (q'&Gq'&E'&Hq').
      exists q'. split; auto.
    + destruct (IH p i Gp Hi) as (q'&Gq'&E'&Hq'). exists q'. split; auto. split; auto.
      assert (i = 0); [|subst i; exact Hq'].
      rewrite El in *. destruct i; auto. exfalso. simpl in Hi. apply nth_error_In in Hi. inv Hnd. auto.
Qed.

Lemma right_visits_all cfg doc k : wf_row doc -> exists c0 c m,
  caret_from_minimal doc default_caret = Ok c0 /\ presses cfg doc DRight k c0 = Ok c /\
  caret_to_minimal c = collapsed m /\
  nth_error (positions doc) (Nat.min k (length (positions doc) - 1)) = Some m.
Proof.
  intros Hwf. assert (Hv : valid_pos doc (mkMinPos [] 0)).
  { apply in_positions_valid. left. reflexivity. }
  destruct (collapsed_caret Hwf Hv) as (p&Gp&Ep&Ec).
  destruct (@presses_right cfg doc k Hwf p 0 Gp) as (q&Gq&E&H); [now rewrite Ep|].
  exists (caret_at p), (caret_at q), (pos_to_minimal q). auto.
Qed.
Lemma left_visits_all cfg doc k : wf_row doc -> overflow_checks cfg = false -> exists c0 c m,
  caret_from_minimal doc (collapsed (mkMinPos [] (length doc))) = Ok c0 /\ presses cfg doc DLeft k c0 = Ok c /\
  caret_to_minimal c = collapsed m /\
  nth_error (positions doc) (length (positions doc) - 1 - k) = Some m.
Proof.
  intros Hwf Ho. destruct (positions_last doc) as [l El].
  assert (Hv : valid_pos doc (mkMinPos [] (length doc))).
  { apply in_positions_valid. rewrite El. apply in_app_iff. simpl. auto. }
  destruct (collapsed_caret Hwf Hv) as (p&Gp&Ep&Ec).
  destruct (@presses_left cfg doc k Hwf Ho p (length (positions doc) - 1) Gp) as (q&Gq&E&H).
  { rewrite Ep, El, app_length. simpl. replace (length l + 1 - 1) with (length l) by lia. apply nth_error_middle. }
  exists (caret_at p), (caret_at q), (pos_to_minimal q). auto.
Qed.

(** ** C11, C12 *)
Lemma move_internal_ok cfg doc p d : wf_row doc -> good_pos doc p ->
  (overflow_checks cfg = true -> d = DLeft -> ~ at_cell_zero (pos_to_minimal p)) ->
  exists r, move_caret_internal cfg p d = Ok r /\ match r with Some q => good_pos doc q | None => True end.
Proof.
  intros Hwf Gp Hz. destruct d.
  - destruct (@move_left cfg doc p Hwf Gp) as (r&E&H); [auto|]. exists r. split; auto. destruct r; tauto.
  - destruct (move_right cfg Hwf Gp) as (r&E&H). exists r. split; auto. destruct r; tauto.
  - destruct (@move_vertical_fuel_spec cfg doc Hwf (S (length (pos_indices p))) p VUp Gp) as (r&E&H&_); [lia|].
    exists r. auto.
  - destruct (@move_vertical_fuel_spec cfg doc Hwf (S (length (pos_indices p))) p VDown Gp) as (r&E&H&_); [lia|].
    exists r. auto.
Qed.

Lemma good_left doc r : good_range doc r -> good_pos doc (rg_left_position r).
Proof.
  intros (Hc&Hs&He). split; simpl; auto. unfold rg_left. destruct (rg_is_forwards r); auto.
Qed.
Lemma good_right doc r : good_range doc r -> good_pos doc (rg_right_position r).
Proof.
  intros (Hc&Hs&He). split; simpl; auto. unfold rg_right. destruct (rg_is_forwards r); auto.
Qed.

Lemma move_range_ok cfg doc r d : wf_row doc -> good_range doc r ->
  (overflow_checks cfg = true -> d = DLeft -> ~ at_cell_zero (pos_to_minimal (rg_left_position r))) ->
  exists q, move_caret_range cfg r d MChar = Ok q /\ match q with Some q => good_pos doc q | None => True end.
Proof.
  intros Hwf Gr Hz. unfold move_caret_range.
  set (p := match d with DLeft | DUp => rg_left_position r | DRight | DDown => rg_right_position r end).
  assert (Gp : good_pos doc p) by (unfold p; destruct d; auto using good_left, good_right).
  destruct (@move_internal_ok cfg doc p d Hwf Gp) as (q&E&H).
  { intros Ho ->. unfold p. auto. }
  rewrite E. cbn [bind]. destruct q as [q|]; [eauto|].
  destruct (rg_is_collapsed r); cbn [negb]; eexists; split; eauto.
Qed.

Lemma rg_left_position_minimal r : pos_to_minimal (rg_left_position r) = range_left (rg_to_minimal r).
Proof. unfold pos_to_minimal, rg_left_position, range_left; simpl. now rewrite rg_left_min. Qed.

Lemma arrows_ok cfg doc m d : wf_row doc -> valid_pos doc (mc_start m) -> valid_pos doc (mc_end m) ->
  (overflow_checks cfg = true -> d = DLeft ->
     forall r p q, pos_from_minimal (from_root doc) (mc_start m) = Ok p ->
       pos_from_minimal (from_root doc) (mc_end m) = Ok q ->
       range_from_positions doc p q = Ok r -> ~ at_cell_zero (range_left (rg_to_minimal r))) ->
  exists c c', caret_from_minimal doc m = Ok c /\ nav_move_caret cfg doc c d MChar = Ok c' /\
    valid_pos doc (mc_start (caret_to_minimal c')) /\ valid_pos doc (mc_end (caret_to_minimal c')).
Proof.
  intros Hwf Hs He Hz. destruct (caret_from_minimal_ok Hwf Hs He) as (c&Ec&Gs&Ge&Em&Hsel).
  exists c. unfold nav_move_caret.
  assert (Hold : valid_pos doc (mc_start (caret_to_minimal c)) /\ valid_pos doc (mc_end (caret_to_minimal c))) by now rewrite Em.
  destruct (c_selection c) as [r|g] eqn:Esel; [|exists c; auto].
  destruct Hsel as (_&Gr&Espan).
  destruct (@move_range_ok cfg doc r d Hwf Gr) as (q&E&H).
  { intros Ho Hd. rewrite rg_left_position_minimal.
    destruct (pos_from_minimal_ok Hwf Hs) as [p Ep]. destruct (pos_from_minimal_ok Hwf He) as [q Eq].
    pose proof (pos_from_minimal_inv Ep) as [Gp Mp]. pose proof (pos_from_minimal_inv Eq) as [Gq Mq].
    destruct (range_from_positions_ok Hwf Gp Gq) as (r'&Er'&Gr'&Hspan').
    rewrite Mp, Mq in Hspan'. rewrite Espan, <- Hspan'. eapply Hz; eauto. }
  rewrite E. cbn [bind]. destruct q as [q|]; [|exists c; auto].
  replace (caret_set_selection doc c (range_of_pos q)) with (caret_new doc q q) by (destruct q; reflexivity).
  rewrite caret_new_collapsed by auto. eexists. split; [exact Ec|]. split; [reflexivity|]. simpl.
  split; now apply good_pos_valid.
Qed.

Lemma vertical_ok cfg doc m d : wf_row doc -> valid_pos doc m ->
  exists c c' t, caret_from_minimal doc (collapsed m) = Ok c /\
    nav_move_caret cfg doc c (match d with VUp => DUp | VDown => DDown end) MChar = Ok c' /\
    match d with VUp => up_from doc (mp_row m) t | VDown => down_from doc (mp_row m) t end /\
    match t with Some m' => caret_to_minimal c' = collapsed m' | None => c' = c end.
Proof.
  intros Hwf Hv. destruct (collapsed_caret Hwf Hv) as (p&Gp&<-&Ec).
  destruct (@move_vertical_fuel_spec cfg doc Hwf (S (length (pos_indices p))) p d Gp) as (r&E&H&Hs); [lia|].
  exists (caret_at p). change (mkCaret p p (SelRow (range_of_pos p))) with (caret_at p) in Ec. rewrite Ec.
  pose proof (nav_collapsed cfg (match d with VUp => DUp | VDown => DDown end) Hwf Gp) as En.
  change (mkCaret p p (SelRow (range_of_pos p))) with (caret_at p) in En. rewrite En.
  assert (Em : move_caret_internal cfg p (match d with VUp => DUp | VDown => DDown end) = Ok r).
  { destruct d; exact E. }
  rewrite Em. cbn [bind]. destruct r as [q|].
  - rewrite caret_new_collapsed by auto. exists (caret_at q), (Some (pos_to_minimal q)).
    split; auto.
  - exists (caret_at p), None. split; auto.
Qed.

Lemma snoc_inj A (p q : list A) x y : p ++ [x] = q ++ [y] -> p = q /\ x = y.
Proof. apply app_inj_tail. Qed.
(** The specification of Up and Down determines the target. *)
Lemma up_fun doc p t t' : up_from doc p t -> up_from doc p t' -> t = t'.
Proof.
  intros H. revert t'. induction H as [|p i j g Hn|p i j j' v g cell Hn Hv Hj Hc|p i j v g t Hn Hv Hj Hu IH];
    intros t' H'; inversion H'; subst;
    repeat match goal with
    | H : _ ++ [_] = _ ++ [_] |- _ => apply snoc_inj in H as [? ?]
    | H : (_, _) = (_, _) |- _ => injection H as ? ?
    | H : [] = _ ++ [_] |- _ => symmetry in H
    | H : _ ++ [_] = [] |- _ => apply app_eq_nil in H as [_ ?]; discriminate
    end; subst; auto;
    repeat match goal with
    | H : node_get ?d ?p ?i = Some _, H' : node_get ?d ?p ?i = Some _ |- _ => rewrite H in H'; injection H' as ? ?; subst
    end; try congruence; try lia.
  - assert (j' = j'0) by lia. subst j'0. congruence.
Qed.
Lemma down_fun doc p t t' : down_from doc p t -> down_from doc p t' -> t = t'.
Proof.
  intros H. revert t'. induction H as [|p i j g Hn|p i j v g Hn Hv Hj|p i j v g t Hn Hv Hj Hu IH];
    intros t' H'; inversion H'; subst;
    repeat match goal with
    | H : _ ++ [_] = _ ++ [_] |- _ => apply snoc_inj in H as [? ?]
    | H : (_, _) = (_, _) |- _ => injection H as ? ?
    | H : [] = _ ++ [_] |- _ => symmetry in H
    | H : _ ++ [_] = [] |- _ => apply app_eq_nil in H as [_ ?]; discriminate
    end; subst; auto;
    repeat match goal with
    | H : node_get ?d ?p ?i = Some _, H' : node_get ?d ?p ?i = Some _ |- _ => rewrite H in H'; injection H' as ? ?; subst
    end; try congruence; try lia.
Qed.

(** ** C22, C23 *)
Lemma in_table_sym doc a b p i g j j' : in_table_cells doc a b p i g j j' -> in_table_cells doc b a p i g j' j.
Proof. intros (H1&H2&H3&H4). repeat split; auto. Qed.
Lemma in_table_unique doc a b p i g j j' p2 i2 g2 k k' :
  in_table_cells doc a b p i g j j' -> in_table_cells doc a b p2 i2 g2 k k' ->
  p = p2 /\ i = i2 /\ g = g2 /\ j = k /\ j' = k'.
Proof.
  intros (Hn&Hj&[s1 E1]&[s2 E2]) (Hn'&Hk&[t1 F1]&[t2 F2]).
  rewrite <- app_assoc in *. cbn [app] in *.
  assert (Hp : get_shared (mp_row a) (mp_row b) = p).
  { rewrite E1, E2. apply get_shared_diverge. congruence. }
  assert (Hp2 : get_shared (mp_row a) (mp_row b) = p2).
  { rewrite F1, F2. apply get_shared_diverge. congruence. }
  rewrite Hp in Hp2. subst p2. rewrite E1 in F1. rewrite E2 in F2.
  apply app_inv_head in F1, F2. injection F1 as -> -> _. injection F2 as -> _. 
  rewrite Hn in Hn'. injection Hn' as ->. auto.
Qed.

Lemma selection_class doc a b : wf_row doc -> valid_pos doc a -> valid_pos doc b ->
  exists s e sel, pos_from_minimal (from_root doc) a = Ok s /\ pos_from_minimal (from_root doc) b = Ok e /\
    selection_from_positions doc s e = Ok sel /\
    (forall p i g j j', in_table_cells doc a b p i g j j' ->
       sel_to_minimal sel = MSelGrid (mkMinGridRange p i (mkRect (Nat.min j j') (Nat.max j j' + 1) (gwidth g)))) /\
    ((forall p i g j j', ~ in_table_cells doc a b p i g j j') ->
       exists r, sel = SelRow r /\ range_from_positions doc s e = Ok r).
Proof.
  intros Hwf Ha Hb. destruct (pos_from_minimal_ok Hwf Ha) as [s Es]. destruct (pos_from_minimal_ok Hwf Hb) as [e Ee].
  pose proof (pos_from_minimal_inv Es) as [Gs Ms]. pose proof (pos_from_minimal_inv Ee) as [Ge Me].
  destruct (selection_ok Hwf Gs Ge) as (sel&Hsel&Hspec). rewrite Ms, Me in Hspec.
  exists s, e, sel. repeat (split; [assumption|]). split.
  - intros p i g j j' H. destruct sel as [r|r]; simpl in Hspec |- *.
    + exfalso. eapply (proj1 Hspec); eauto.
    + destruct Hspec as (p2&i2&g2&k&k'&H2&->).
      destruct (in_table_unique H H2) as (->&->&->&->&->). reflexivity.
  - intros H. destruct sel as [r|r]; simpl in Hspec.
    + exists r. split; auto. destruct Hspec as (_&Gr&Espan).
      destruct (range_from_positions_ok Hwf Gs Ge) as (r'&Er'&Gr'&Hspan'). rewrite Er'. f_equal.
      rewrite Ms, Me, <- Espan in Hspan'. apply good_range_from_minimal in Gr, Gr'. congruence.
    + destruct Hspec as (p2&i2&g2&k&k'&H2&_). exfalso. eapply H; eauto.
Qed.

Lemma rect_corners lo hi w : 0 < w -> lo <= hi ->
  rect_start_index (mkRect lo (hi + 1) w) = Ok (mkIndex2D (lo mod w) (lo / w) w) /\
  rect_end_index_inclusive (mkRect lo (hi + 1) w) = Ok (Some (mkIndex2D (hi mod w) (hi / w) w)).
Proof.
  intros Hw Hlo. unfold rect_start_index, rect_end_index_inclusive, rect_is_empty, umod, udiv; cbn [rstart rend rwidth].
  replace (w =? 0) with false by lia. replace (_ <=? _) with false by lia. cbn [bind].
  replace (hi + 1 - 1) with hi by lia. auto.
Qed.

Lemma grid_selection_corners doc a b p i g j j' : wf_row doc -> valid_pos doc a -> valid_pos doc b ->
  in_table_cells doc a b p i g j j' ->
  exists s e r, pos_from_minimal (from_root doc) a = Ok s /\ pos_from_minimal (from_root doc) b = Ok e /\
    selection_from_positions doc s e = Ok (SelGrid r) /\
    (exists r', selection_from_positions doc e s = Ok (SelGrid r') /\ gr_to_minimal r' = gr_to_minimal r) /\
    let w := gwidth g in
    gr_top_left r = Ok (Nat.min j j' mod w, Nat.min j j' / w) /\
    gr_bottom_right r = Ok (Some (Nat.max j j' mod w, Nat.max j j' / w)) /\
    (Nat.min j j' mod w <= Nat.max j j' mod w ->
     gr_top_left r = Ok (Nat.min (j mod w) (j' mod w), Nat.min (j / w) (j' / w)) /\
     gr_bottom_right r = Ok (Some (Nat.max (j mod w) (j' mod w), Nat.max (j / w) (j' / w)))).
Proof.
  intros Hwf Ha Hb H.
  destruct (selection_class Hwf Ha Hb) as (s&e&sel&Es&Ee&Esel&Hgrid&_). specialize (Hgrid _ _ _ _ _ H).
  destruct (selection_class Hwf Hb Ha) as (e'&s'&sel'&Ee'&Es'&Esel'&Hgrid'&_). specialize (Hgrid' _ _ _ _ _ (in_table_sym H)).
  rewrite Es in Es'. injection Es' as <-. rewrite Ee in Ee'. injection Ee' as <-.
  destruct sel as [r|r]; [discriminate|]. destruct sel' as [r'|r']; [discriminate|].
  assert (Hinj : forall x y, MSelGrid x = MSelGrid y -> x = y) by (intros; congruence).
  cbn [sel_to_minimal] in Hgrid, Hgrid'. apply Hinj in Hgrid, Hgrid'.
  rewrite (Nat.min_comm j' j), (Nat.max_comm j' j) in Hgrid'.
  exists s, e, r. repeat (split; [assumption|]). split.
  { exists r'. split; auto. congruence. }
  assert (Hw : 0 < gwidth g).
  { destruct H as (Hn&_). unfold node_get in Hn. destruct (row_get doc p) eqn:Er; [|discriminate].
    apply (wf_row_nth (row_get_wf Hwf Er)) in Hn. apply wf_container_inv in Hn. tauto. }
  cbv zeta. set (w := gwidth g) in *.
  destruct r as [n [lo hi rw]]. unfold gr_to_minimal in Hgrid. simpl in Hgrid. inv Hgrid.
  destruct (@rect_corners (Nat.min j j') (Nat.max j j') w Hw ltac:(lia)) as [E1 E2].
  unfold gr_top_left, gr_bottom_right; cbn [gr_range]. fold w. rewrite E1, E2. cbn [bind option_map ix iy].
  split; auto. split; auto. intros Hmod.
  assert (Hdiv : j / w <= j' / w /\ j <= j' \/ j' / w <= j / w /\ j' <= j).
  { destruct (Nat.le_ge_cases j j'); [left|right]; split; auto; apply Nat.div_le_mono; lia. }
  destruct Hdiv as [[Hd Hjj]|[Hd Hjj]].
  - rewrite (Nat.min_l j j'), (Nat.max_r j j') in * by lia.
    rewrite (Nat.min_l _ _ Hmod), (Nat.max_r _ _ Hmod), (Nat.min_l _ _ Hd), (Nat.max_r _ _ Hd). auto.
  - rewrite (Nat.min_r j j'), (Nat.max_l j j') in * by lia.
    rewrite (Nat.min_r _ _ Hmod), (Nat.max_l _ _ Hmod), (Nat.min_r _ _ Hd), (Nat.max_l _ _ Hd). auto.
Qed.

(** ** C38 *)
Lemma whole_lines_view T (g : GridVec T) k m : 0 < gwidth g -> length (gvalues g) mod gwidth g = 0 ->
  k <= m -> m < length (gvalues g) / gwidth g ->
  exists r, rect_from_indices_inclusive (mkIndex2D 0 k (gwidth g)) (mkIndex2D (gwidth g - 1) m (gwidth g)) g = Ok r /\
    rect_size r = Ok (gwidth g, m + 1 - k) /\
    forall x y, view_get g r (mkIndex2D x y (gwidth g)) =
      Ok (if (x <? gwidth g) && (y <? m + 1 - k) then nth_error (gvalues g) ((k + y) * gwidth g + x) else None).
Proof.
  intros Hw Hm Hkm Hmh.
  assert (Hti : forall x y, x < gwidth g -> y < length (gvalues g) / gwidth g ->
     to_index_checked (mkIndex2D x y (gwidth g)) g = Ok (Some (y * gwidth g + x))).
  { intros x y Hx Hy. unfold to_index_checked, with_grid. rewrite gsize_ok by lia. cbn [bind].
    unfold with_size; cbn [iwidth ix iy fst snd]. rewrite Nat.eqb_refl. cbn [negb orb].
    replace (gwidth g <=? x) with false by lia. replace (_ <=? y) with false by lia. reflexivity. }
  unfold rect_from_indices_inclusive. rewrite (Hti 0 k) by lia. rewrite (Hti (gwidth g - 1) m) by lia. cbn [bind unwrap].
  replace (_ <? k * gwidth g + 0) with false by nia. unfold gwidth_of. rewrite gsize_ok by lia. cbn [bind fst].
  unfold rect_new. replace (_ <? _) with true by nia. eexists. split; [reflexivity|].
  assert (Hsz : rect_size (mkRect (k * gwidth g + 0) (m * gwidth g + (gwidth g - 1) + 1) (gwidth g)) = Ok (gwidth g, m + 1 - k)).
  { unfold rect_size, rect_height, udiv; cbn [rstart rend rwidth]. replace (gwidth g =? 0) with false by lia. cbn [bind].
    replace (k * gwidth g + 0) with (k * gwidth g) by lia.
    replace (m * gwidth g + (gwidth g - 1) + 1) with ((m + 1) * gwidth g) by nia. rewrite !Nat.div_mul by lia. auto. }
  split; [exact Hsz|]. intros x y. unfold view_get. rewrite Hsz. cbn [bind]. f_equal.
  unfold with_size; cbn [iwidth ix iy fst snd]. rewrite Nat.eqb_refl. cbn [negb orb].
  destruct (gwidth g <=? x) eqn:E1, (m + 1 - k <=? y) eqn:E2; cbn [orb];
    destruct (x <? gwidth g) eqn:E3, (y <? m + 1 - k) eqn:E4; cbn [andb]; try lia; auto.
  f_equal. unfold to_index; cbn [ix iy iwidth rstart]. nia.
Qed.

(** With overflow checks Left panics at the start of every first cell. *)
Lemma left_cell_zero cfg doc m : wf_row doc -> valid_pos doc m -> overflow_checks cfg = true -> at_cell_zero m ->
  exists c, caret_from_minimal doc (collapsed m) = Ok c /\ nav_move_caret cfg doc c DLeft MChar = Panic POverflow.
Proof.
  intros Hwf Hv Hd [Hz (pp&i&Hm)]. destruct (collapsed_caret Hwf Hv) as (p&Gp&<-&Ec).
  eexists. split; [exact Ec|]. rewrite nav_collapsed by auto.
  destruct p as [f o], Gp as [Hc Ho]. unfold pos_to_minimal, pos_indices in *. cbn [pos_focus pos_offset mp_row mp_offset] in *.
  subst o. unfold move_caret_internal, move_horizontal_into, focus_offset_to_index, row_offset_to_index; cbn [pos_focus pos_offset is_left].
  change (0 =? 0) with true. cbn [bind]. unfold move_horizontal_beyond_edge; cbn [pos_focus pos_offset is_left].
  destruct (focus_parent f) as [n|] eqn:Ep.
  - rewrite (index_in_parent_eq cfg Hc Hm). cbn [bind]. unfold usub. simpl. rewrite Hd. reflexivity.
  - exfalso. apply (canonical_parent_none Hc) in Ep. rewrite Ep in Hm. destruct pp; discriminate.
Qed.

(** ** Arrow keys with a selection *)
Lemma selection_arrow cfg doc c r d p q : wf_row doc -> c_selection c = SelRow r -> rg_start r <> rg_end r ->
  p = match d with DLeft | DUp => rg_left_position r | DRight | DDown => rg_right_position r end ->
  good_pos doc p -> move_caret_internal cfg p d = Ok q -> match q with Some q => good_pos doc q | None => True end ->
  exists c', nav_move_caret cfg doc c d MChar = Ok c' /\
    caret_to_minimal c' = collapsed (pos_to_minimal (match q with Some q => q | None => p end)).
Proof.
  intros Hwf Hs Hne Hp Gp Hm Gq. unfold nav_move_caret. rewrite Hs. unfold move_caret_range. rewrite <- Hp, Hm. cbn [bind].
  replace (rg_is_collapsed r) with false by (unfold rg_is_collapsed; lia). cbn [negb].
  destruct q as [q|]; cbn [bind].
  - replace (caret_set_selection doc c (range_of_pos q)) with (caret_new doc q q) by (destruct q; reflexivity). rewrite caret_new_collapsed by auto.
    eexists. split; reflexivity.
  - replace (caret_set_selection doc c (range_of_pos p)) with (caret_new doc p p) by (destruct p; reflexivity). rewrite caret_new_collapsed by auto.
    eexists. split; reflexivity.
Qed.

Lemma selection_arrows cfg doc m c r : wf_row doc -> caret_from_minimal doc m = Ok c -> c_selection c = SelRow r ->
  rg_start r <> rg_end r ->
  let R := rg_to_minimal r in
  (exists c' q, nav_move_caret cfg doc c DRight MChar = Ok c' /\ caret_to_minimal c' = collapsed q /\
     (next_in (positions doc) (range_right R) q \/ ((exists l, positions doc = l ++ [range_right R]) /\ q = range_right R))) /\
  ((overflow_checks cfg = true -> ~ at_cell_zero (range_left R)) ->
   exists c' q, nav_move_caret cfg doc c DLeft MChar = Ok c' /\ caret_to_minimal c' = collapsed q /\
     (next_in (positions doc) q (range_left R) \/ ((exists l, positions doc = range_left R :: l) /\ q = range_left R))) /\
  (exists c' t, nav_move_caret cfg doc c DUp MChar = Ok c' /\ up_from doc (mr_row R) t /\
     caret_to_minimal c' = collapsed (match t with Some q => q | None => range_left R end)) /\
  (exists c' t, nav_move_caret cfg doc c DDown MChar = Ok c' /\ down_from doc (mr_row R) t /\
     caret_to_minimal c' = collapsed (match t with Some q => q | None => range_right R end)).
Proof.
  intros Hwf Hc Hs Hne R.
  assert (Gr : good_range doc r).
  { destruct (caret_from_minimal_inv Hc) as (G1&G2&Hm). pose proof (good_pos_valid G1) as V1. pose proof (good_pos_valid G2) as V2.
    rewrite <- Hm in Hc. destruct (@caret_from_minimal_ok doc (caret_to_minimal c) Hwf V1 V2) as (c2&Hc2&_&_&_&Hsel).
    rewrite Hc in Hc2. inv Hc2. rewrite Hs in Hsel. now destruct Hsel as (_&Gr&_). }
  assert (HL : pos_to_minimal (rg_left_position r) = range_left R) by apply rg_left_position_minimal.
  assert (HR : pos_to_minimal (rg_right_position r) = range_right R).
  { unfold pos_to_minimal, rg_right_position, range_right; simpl. now rewrite rg_right_max. }
  pose proof (good_left Gr) as GL. pose proof (good_right Gr) as GR.
  split; [|split; [|split]].
  - destruct (move_right cfg Hwf GR) as (q&E&H).
    destruct (@selection_arrow cfg doc c r DRight _ q Hwf Hs Hne eq_refl GR E) as (c'&Hn&Hm); [destruct q; tauto|].
    exists c'. eexists. split; [exact Hn|]. split; [exact Hm|]. rewrite <- HR. destruct q as [q|].
    + left. now apply right_step_next.
    + right. rewrite H. split; auto. apply positions_last.
  - intros Hz. rewrite <- HL in Hz. destruct (move_left Hwf GL Hz) as (q&E&H).
    destruct (@selection_arrow cfg doc c r DLeft _ q Hwf Hs Hne eq_refl GL E) as (c'&Hn&Hm); [destruct q; tauto|].
    exists c'. eexists. split; [exact Hn|]. split; [exact Hm|]. rewrite <- HL. destruct q as [q|].
    + left. now apply right_step_next.
    + right. rewrite H. split; auto. apply positions_first.
  - destruct (@move_vertical_fuel_spec cfg doc Hwf (S (length (pos_indices (rg_left_position r)))) _ VUp GL) as (q&E&H&Hu); [lia|].
    destruct (@selection_arrow cfg doc c r DUp _ q Hwf Hs Hne eq_refl GL E) as (c'&Hn&Hm); [destruct q; tauto|].
    exists c', (option_map pos_to_minimal q). split; auto. split; [exact Hu|]. rewrite Hm, <- HL. destruct q; reflexivity.
  - destruct (@move_vertical_fuel_spec cfg doc Hwf (S (length (pos_indices (rg_right_position r)))) _ VDown GR) as (q&E&H&Hu); [lia|].
    destruct (@selection_arrow cfg doc c r DDown _ q Hwf Hs Hne eq_refl GR E) as (c'&Hn&Hm); [destruct q; tauto|].
    exists c', (option_map pos_to_minimal q). split; auto. split; [exact Hu|]. rewrite Hm, <- HR. destruct q; reflexivity.
Qed.
