(** Views of grids that are not made of whole lines, and the content of the list of suggestions. *)
From Coq Require Import Permutation.
From Verif Require Import Base Str Grid Node Focus Edit Caret Autocomplete Editor Spec SpecAuto SpecMove SpecExact BaseFacts
  TreeFacts EditFacts MoveFacts MoveProofs GridFacts AutoFacts PopupFacts.
Set Implicit Arguments.
Unset Strict Implicit.

Lemma rect_of_cells T (g : GridVec T) x1 y1 x2 y2 : 0 < gwidth g -> x1 < gwidth g -> x2 < gwidth g ->
  y1 < length (gvalues g) / gwidth g -> y2 < length (gvalues g) / gwidth g -> y1 * gwidth g + x1 <= y2 * gwidth g + x2 ->
  let r := mkRect (y1 * gwidth g + x1) (y2 * gwidth g + x2 + 1) (gwidth g) in
  rect_from_indices_inclusive (mkIndex2D x1 y1 (gwidth g)) (mkIndex2D x2 y2 (gwidth g)) g = Ok r /\
  rect_from_indices_inclusive (mkIndex2D x2 y2 (gwidth g)) (mkIndex2D x1 y1 (gwidth g)) g = Ok r.
Proof.
  intros Hw H1 H2 H3 H4 Hle.
  assert (Hti : forall x y, x < gwidth g -> y < length (gvalues g) / gwidth g ->
     to_index_checked (mkIndex2D x y (gwidth g)) g = Ok (Some (y * gwidth g + x))).
  { intros x y Hx Hy. unfold to_index_checked, with_grid. rewrite gsize_ok by lia. cbn [bind].
    unfold with_size; cbn [iwidth ix iy fst snd]. rewrite Nat.eqb_refl. cbn [negb orb].
    replace (gwidth g <=? x) with false by lia. replace (_ <=? y) with false by lia. reflexivity. }
  cbv zeta. unfold rect_from_indices_inclusive. rewrite !Hti by lia. cbn [bind unwrap]. unfold gwidth_of. rewrite gsize_ok by lia. cbn [bind fst].
  replace (y2 * gwidth g + x2 <? y1 * gwidth g + x1) with false by lia.
  assert (E : rect_new (y1 * gwidth g + x1) (y2 * gwidth g + x2 + 1) (gwidth g) = mkRect (y1 * gwidth g + x1) (y2 * gwidth g + x2 + 1) (gwidth g)).
  { unfold rect_new. replace (_ <? _) with true by lia. reflexivity. }
  split; [now rewrite E|]. destruct (y1 * gwidth g + x1 <? y2 * gwidth g + x2) eqn:L; [now rewrite E|].
  replace (y2 * gwidth g + x2) with (y1 * gwidth g + x1) in * by lia. now rewrite E.
Qed.
Lemma rect_of_cells_size w x1 y1 x2 y2 : 0 < w -> x1 < w -> x2 < w ->
  rect_size (mkRect (y1 * w + x1) (y2 * w + x2 + 1) w) = Ok (w, (if x2 =? w - 1 then y2 + 1 else y2) - y1).
Proof.
  intros Hw H1 H2. unfold rect_size, rect_height, udiv; cbn [rstart rend rwidth]. replace (w =? 0) with false by lia. cbn [bind].
  assert (E1 : (y1 * w + x1) / w = y1) by (rewrite Nat.div_add_l, Nat.div_small by lia; lia). rewrite E1.
  assert (E2 : (y2 * w + x2 + 1) / w = if x2 =? w - 1 then y2 + 1 else y2).
  { destruct (x2 =? w - 1) eqn:E; [replace (y2 * w + x2 + 1) with ((y2 + 1) * w) by nia; now apply Nat.div_mul; lia|].
    rewrite <- Nat.add_assoc, Nat.div_add_l, Nat.div_small by lia. lia. }
  now rewrite E2.
Qed.
Lemma rect_shows T (g : GridVec T) x1 y1 x2 y2 : 0 < gwidth g -> x1 < gwidth g -> x2 < gwidth g ->
  y1 * gwidth g + x1 <= y2 * gwidth g + x2 ->
  shows_rectangle g (mkRect (y1 * gwidth g + x1) (y2 * gwidth g + x2 + 1) (gwidth g)) x1 y1 x2 y2 <-> x1 = 0 /\ x2 = gwidth g - 1.
Proof.
  intros Hw H1 H2 Hle. assert (Hy : y1 <= y2) by nia. unfold shows_rectangle, view_get. rewrite (rect_of_cells_size _ _ Hw H1 H2). cbv zeta.
  rewrite (Nat.max_r y1 y2), (Nat.min_l y1 y2) by lia. split.
  - intros [E _]. injection E as Ew Eh. destruct (x2 =? gwidth g - 1) eqn:Ex; [lia|]. exfalso. lia.
  - intros [-> ->]. rewrite Nat.eqb_refl, Nat.max_r, Nat.min_l by lia. replace (gwidth g - 1 + 1 - 0) with (gwidth g) by lia. split; [reflexivity|].
    intros x y. cbn [bind]. f_equal. unfold with_size; cbn [iwidth ix iy fst snd]. rewrite Nat.eqb_refl. cbn [negb orb].
    destruct (gwidth g <=? x) eqn:E1, (y2 + 1 - y1 <=? y) eqn:E2; cbn [orb];
      destruct (x <? gwidth g) eqn:E3, (y <? y2 + 1 - y1) eqn:E4; cbn [andb]; try lia; auto.
    f_equal. unfold to_index; cbn [ix iy iwidth rstart]. nia.
Qed.

Lemma rules_matches_in rules input caret min ms m : rules_matches rules input caret min = Ok ms ->
  (In m ms <-> exists rule, In rule rules /\ matches_end rule (firstn caret input) m /\ min <= m_input_match_length m).
Proof.
  revert ms. induction rules as [|rule rules IH]; intros ms H; cbn [rules_matches] in H.
  - inv H. split; [intros []|intros (?&[]&_)].
  - apply bind_ok in H as (a&Ha&H). apply bind_ok in H as (b&Hb&H). inv H. rewrite in_app_iff, (IH _ Hb), (proj2 (rule_matches_inv Ha) m).
    assert (R : (exists before syms last rest, firstn caret input = before ++ map Symbol (syms ++ [last]) /\ rule_parser rule = concat syms ++ last ++ rest /\
      min <= length syms + 1 /\ m = mkMatch rule (byte_len (concat syms) + 1) (length syms + 1) /\ last <> [] /\ (forall b, before <> b ++ [Symbol []])) <->
      matches_end rule (firstn caret input) m /\ min <= m_input_match_length m).
    { unfold matches_end. split.
      - intros (before&syms&last&rest&Hf&Hp&Hmin&->&Hl&Hb'). cbn [m_input_match_length]. split; [|exact Hmin]. exists before, syms, last, rest.
        rewrite app_length, concat_app. cbn [concat length]. rewrite app_nil_r, <- app_assoc. tauto.
      - intros [(before&syms&last&rest&Hf&Hl&Hb'&Hp&->) Hmin]. cbn [m_input_match_length] in Hmin. exists before, syms, last, rest.
        rewrite app_length, concat_app in *. cbn [concat length] in *. rewrite app_nil_r, <- app_assoc in *. tauto. }
    rewrite R. split.
    + intros [H|(rule'&H1&H2)]; [exists rule; split; [now left|exact H]|exists rule'; split; [now right|exact H2]].
    + intros (rule'&[<-|H1]&H2); [now left|right; exists rule'; now split].
Qed.
Lemma popup_content SyntaxNode (env : Env SyntaxNode) ed q row ed' res : wf_row (ed_input ed) -> ed_caret ed = collapsed q ->
  row_get (ed_input ed) (mp_row q) = Some row -> mp_offset q <= length row -> get_autocomplete env ed = Ok (ed', res) ->
  forall m, In m (match res with Some r => ar_matches r | None => [] end) <->
    exists rule, In rule (env_rules env) /\ matches_end rule (firstn (mp_offset q) row) m /\ 2 <= m_input_match_length m.
Proof.
  intros Hwf Hc Hrow Ho H m.
  destruct (@collapsed_caret (ed_input ed) q) as (p&Gp&Mp&Hcar); auto. { now exists row. }
  assert (Hprow : fr_row (pos_focus p) = row /\ pos_offset p = mp_offset q).
  { destruct Gp as [Gp _]. apply canonical_row in Gp. rewrite <- Mp in *. cbn in *. split; auto. unfold pos_indices in *. congruence. }
  destruct Hprow as [Hr Hoff]. unfold get_autocomplete in H. rewrite Hc, Hcar in H. cbn [bind c_selection] in H.
  replace (rg_is_collapsed (range_of_pos p)) with true in H by (unfold rg_is_collapsed, range_of_pos; cbn; symmetry; apply Nat.eqb_refl).
  cbv zeta in H. change (pos_focus (rg_start_position (range_of_pos p))) with (pos_focus p) in H.
  change (pos_offset (rg_start_position (range_of_pos p))) with (pos_offset p) in H. rewrite Hr, Hoff in H.
  apply bind_ok in H as (ms&Hms&H). apply bind_ok in H as ([cur res']&Hst&H). inv H. rewrite <- (rules_matches_in m Hms).
  destruct (popup_total (ed_autocomplete ed) ms (pos_to_minimal (rg_start_position (range_of_pos p)))) as (cur'&res'&Hst'&Hnone).
  rewrite Hst in Hst'. inv Hst'. destruct res' as [r|]; [|now rewrite (proj1 Hnone eq_refl)].
  destruct (popup_shown Hst) as (Hperm&_). split; intros; eapply Permutation_in; [exact Hperm|assumption|symmetry; exact Hperm|assumption].
Qed.
