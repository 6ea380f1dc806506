(** A click gives the closest caret position of the element that was hit. *)
From Coq Require Import String.
From Verif Require Import Base Str Grid Node Focus Autocomplete Spec NameMap Syntax Pratt Grammar SyntaxFind Render Layout SpecSyntax SpecPratt SpecRender SpecClick BaseFacts TreeFacts ParseFacts ParseTotal GrammarFacts FindFacts ShapeFacts RenderFacts LayoutFacts ClickFacts.
Open Scope list_scope.
Open Scope nat_scope.
Set Implicit Arguments.
Unset Strict Implicit.

Lemma within_path c d : within c d -> exists q, snd (fst d) = snd (fst c) ++ q.
Proof.
  induction 1 as [c|x path indices k c d _ _ [q E]]; [exists []; now rewrite app_nil_r|]. cbn [fst snd] in *. exists (k :: q). now rewrite E, <- app_assoc.
Qed.
Lemma within_trans a b c : within a b -> within b c -> within a c.
Proof. induction 1; auto. intros. econstructor; eauto. Qed.

Section Closest.
Variable g : Grammar.
Hypothesis Ht : no_empty_tokens g.
Hypothesis Hc : all_containers g.
Variable rs : Renderers.
(** The element draws a part of a row. *)
Definition placed (x : Element) : Prop := exists row s e o ri, wf_row row /\ gtree (P g) row s e (el_tree x) /\ mirror rs o (el_tree x) ri x /\ leaves (fun _ _ l => l <> []) (el_tree x).
Lemma placed_child x c : placed x -> In c (get_children x) -> placed c.
Proof.
  intros (row&s&e&o&ri&Hw&T&M&L) Hin. destruct (mirror_cases M) as [E0|[(name&l&s0&e0&o'&E0&ML&_)|(name&l&w&s0&E0&MR)]].
  - rewrite E0 in Hin. easy.
  - destruct (mirror_list_in ML Hin) as (m&Hm&Mc). rewrite E0 in T, L. apply gtree_children_inv in T as T'. destruct (gtiles_in T' Hm) as (s'&e'&Tm&He').
    exists row, s', e', o', None. rewrite (mirror_tree Mc). repeat split; auto. now apply (all_leaves_in L).
  - destruct (mirror_rows_in MR Hin) as (k&m&Em&Mc). rewrite E0 in T, L. apply gtree_rows_inv in T as (->&->&v&cells&En&F2). destruct (Forall2_nth_r F2 Em) as (cell&Ecell&HP).
    assert (Hwc : wf_row cell). { pose proof (wf_row_nth Hw En) as Hn. apply wf_container_inv in Hn as (_&_&_&Hx). apply Hx. eapply nth_error_In; eauto. }
    pose proof (P_parse Ht Hc Hwc HP) as Ep. destruct (parse_gtree Ht Hc Hwc) as (m'&Em'&Tm). rewrite Ep in Em'. inv Em'.
    exists cell, 0, (List.length cell), None, (Some (s, k)). rewrite (mirror_tree Mc). repeat split; auto. apply (all_leaves_in L). eapply nth_error_In; eauto.
Qed.
Lemma placed_root doc n x : wf_row doc -> parse g doc = Ok n -> render_all rs n = Ok x -> placed x.
Proof.
  intros Hwf En Hx. apply render_all_mirror in Hx. destruct (parse_gtree Ht Hc Hwf) as (n'&En'&T). rewrite En in En'. inv En'.
  exists doc, 0, (List.length doc), None, None. rewrite (mirror_tree Hx). repeat split; auto. eapply parse_leaves; eauto.
Qed.
Lemma placed_within c d : within c d -> placed (fst (fst c)) -> placed (fst (fst d)).
Proof. induction 1 as [c|x path indices k c d E _ IH]; auto. intros H. apply IH. cbn [fst] in *. eapply placed_child; eauto. eapply nth_error_In; eauto. Qed.

Variable to_bounds : list nat -> nat.
Variable to_place : Place -> nat.
Hypothesis Hbox : boxes to_bounds to_place.

(** The closest position of a row *)
Lemma closest_scan x path n : forall i c, (forall j, i <= j < i + n -> exists p, get_caret_position x path j = Ok p) ->
  exists o, closest_position_in_row to_place x path i n c = Ok o /\
    (forall j d, o = Some (j, d) -> (c = Some (j, d) \/ i <= j < i + n /\ exists p, get_caret_position x path j = Ok p /\ d = to_place p) /\
      (forall j' d', c = Some (j', d') -> d <= d') /\ (forall j' p, i <= j' < i + n -> get_caret_position x path j' = Ok p -> d <= to_place p)) /\
    (o = None -> c = None /\ n = 0).
Proof.
  induction n as [|n IH]; intros i c H; cbn [closest_position_in_row].
  - exists c. split; [reflexivity|]. split; [|auto]. intros j d E. split; [now left|]. split; [|intros; lia]. intros j' d' E'. rewrite E in E'. inv E'. lia.
  - destruct (H i) as (p&Ep); [lia|]. rewrite Ep. cbn [bind].
    edestruct IH as (o&E&H1&H2); [|exists o; split; [exact E|]].
    + intros j Hj. apply H. lia.
    + split.
      * intros j d Ed. apply H1 in Ed as (Hs&Hl&Hall). split; [|split].
        -- destruct Hs as [Hs|[Hj Hs]]; [|right; split; [lia|exact Hs]]. destruct c as [[j' d']|].
           ++ destruct (_ <? _); [right; inv Hs; split; [lia|eauto]|now left].
           ++ right. inv Hs. split; [lia|eauto].
        -- intros j' d' ->. destruct (to_place p <? d') eqn:El; [|eapply Hl; reflexivity]. apply Nat.ltb_lt in El. specialize (Hl _ _ eq_refl). lia.
        -- intros j' p' Hj' Ep'. destruct (Nat.eq_dec j' i) as [->|Hne]; [|apply (Hall j'); [lia|exact Ep']]. rewrite Ep in Ep'. inv Ep'.
           destruct c as [[jc dc]|]; [destruct (to_place p' <? dc) eqn:El|]; specialize (Hl _ _ eq_refl); [exact Hl| |exact Hl]. apply Nat.ltb_ge in El. lia.
      * intros Eo. apply H2 in Eo as [Eo _]. destruct c as [[j' d']|]; [destruct (_ <? _); discriminate|discriminate].
Qed.
Lemma placed_closest x path : placed x -> exists offset p, get_closest_position_in_row to_place x path = Ok (Some (offset, to_place p)) /\ has_caret x path offset p /\
  forall j p', has_caret x path j p' -> to_place p <= to_place p'.
Proof.
  intros (row&s&e&o&ri&_&T&M&L). unfold get_closest_position_in_row, has_caret. rewrite (gtree_range T). cbn [fst snd]. pose proof (gtree_le T).
  destruct (@closest_scan x path (S e - s) s None) as (res&E&H1&H2).
  - intros j Hj. apply (proj1 (caret_total rs (P g)) _ _ _ _ M _ _ _ T L). lia.
  - rewrite E. destruct res as [[offset d]|].
    + destruct (H1 _ _ eq_refl) as ([Hs|[Hj (p&Ep&->)]]&_&Hall); [discriminate|]. exists offset, p. split; [reflexivity|]. split; [split; [lia|exact Ep]|].
      intros j p' [Hr Ep']. apply (Hall j); [lia|exact Ep'].
    + destruct (H2 eq_refl). lia.
Qed.

(** The rows in an element *)
Lemma rows_within : forall k x path indices, element_size x < k ->
  forall c p, In (c, p) (get_new_rows_children x path) -> el_row_index c <> None /\ within (x, path, indices) (c, p, add_row_index indices (el_row_index c)).
Proof.
  induction k as [|k IH]; intros x path indices Hk; [lia|]. destruct x as [class n r xs]. cbn [get_new_rows_children get_children element_size] in *. fold (go_rows path).
  assert (G : forall l i, (forall j c, nth_error l j = Some c -> nth_error xs (i + j) = Some c) -> list_sum (map element_size l) < k ->
    forall c p, In (c, p) (go_rows path i l) -> el_row_index c <> None /\ within (mkElement class n r xs, path, indices) (c, p, add_row_index indices (el_row_index c))).
  { induction l as [|c l IHl]; intros i Hin Hs c' p' H; cbn [go_rows] in H; [easy|]. cbn [map list_sum fold_right] in Hs.
    assert (E0 : nth_error (get_children (mkElement class n r xs)) i = Some c) by (specialize (Hin 0 c eq_refl); now rewrite Nat.add_0_r in Hin).
    apply in_app_iff in H as [H|H].
    - destruct (el_row_index c) eqn:Ei.
      + destruct H as [E|[]]. inv E. rewrite Ei. split; [discriminate|]. econstructor; [exact E0|]. rewrite Ei. constructor.
      + apply (@IH c (path ++ [i]) indices) in H as [H1 H2]; [|lia]. split; [exact H1|]. econstructor; [exact E0|]. rewrite Ei. exact H2.
    - apply (IHl (S i)); auto; [|unfold list_sum; lia]. intros j c0 E. replace (S i + j) with (i + S j) by lia. now apply Hin. }
  apply G; [auto|lia].
Qed.
Lemma within_rows c d : within c d -> forall x path indices, c = (x, path, indices) ->
  forall y p i, d = (y, p, i) -> el_row_index y <> None -> d = c \/
  exists r q, In (r, q) (get_new_rows_children x path) /\ within (r, q, add_row_index indices (el_row_index r)) d.
Proof.
  induction 1 as [c|x path indices k c d E W IH]; intros x' path' indices' Ec y p i Ed Hy; [now left|]. inv Ec. right.
  assert (G : forall r q, In (r, q) match el_row_index c with Some _ => [(c, path' ++ [k])] | None => get_new_rows_children c (path' ++ [k]) end -> In (r, q) (get_new_rows_children x' path')).
  { destruct x' as [class n ri xs]. cbn [get_new_rows_children get_children] in *. fold (go_rows path').
    assert (Gg : forall l i0 k, nth_error l k = Some c -> forall r q, In (r, q) match el_row_index c with Some _ => [(c, path' ++ [i0 + k])] | None => get_new_rows_children c (path' ++ [i0 + k]) end -> In (r, q) (go_rows path' i0 l)).
    { clear. induction l as [|a l IHl]; intros i0 k E r q H; [destruct k; discriminate|]. cbn [go_rows]. apply in_app_iff. destruct k as [|k].
      - inv E. rewrite Nat.add_0_r in H. now left.
      - right. apply (IHl _ _ E). now replace (S i0 + k) with (i0 + S k) by lia. }
    exact (Gg xs 0 k E). }
  destruct (el_row_index c) as [rj|] eqn:Ei.
  - exists c, (path' ++ [k]). split; [apply G; now left|]. rewrite Ei. exact W.
  - cbn [add_row_index] in W, IH. destruct (IH _ _ _ eq_refl _ _ _ eq_refl Hy) as [E'|(r&q&Hr&W')].
    + inv E'. contradiction.
    + exists r, q. split; [now apply G|exact W'].
Qed.
Lemma rows_size : forall k x path, element_size x < k -> list_sum (map (fun cp => element_size (fst cp)) (get_new_rows_children x path)) < element_size x.
Proof.
  induction k as [|k IH]; intros x path Hk; [lia|]. destruct x as [class n r xs]. cbn [get_new_rows_children get_children element_size] in *. fold (go_rows path).
  assert (G : forall l i, list_sum (map element_size l) < k -> list_sum (map (fun cp => element_size (fst cp)) (go_rows path i l)) <= list_sum (map element_size l)).
  { induction l as [|c l IHl]; intros i Hs; cbn [go_rows map list_sum fold_right]; [lia|]. cbn [map list_sum fold_right] in Hs. specialize (IHl (S i)).
    rewrite map_app, list_sum_app. unfold list_sum in *. destruct (el_row_index c).
    - cbn. lia.
    - specialize (IH c (path ++ [i])). lia. }
  specialize (G xs 0). unfold list_sum in *. lia.
Qed.

Lemma offers_far c i j pl : offers c i j pl -> to_bounds (snd (fst c)) <= to_place pl.
Proof.
  intros (x&path&W&_&_&E). apply within_path in W as [q Eq]. cbn [fst snd] in Eq. apply caret_path in E as [q' E]. destruct pl as [pp spot]. cbn [fst] in E. subst pp path. rewrite <- app_assoc. apply Hbox.
Qed.
Lemma offers_cases x path indices i j pl : offers (x, path, indices) i j pl -> (i = indices /\ has_caret x path j pl) \/
  exists r q, In (r, q) (get_new_rows_children x path) /\ offers (r, q, add_row_index indices (el_row_index r)) i j pl.
Proof.
  intros (y&p&W&Hy&H). destruct Hy as [E|Hy]; [inv E; now left|].
  destruct (within_rows W eq_refl eq_refl Hy) as [E|(r&q&Hr&W')]; [inv E; now left|]. right. exists r, q. split; [exact Hr|]. exists y, p. repeat split; auto; apply H.
Qed.
Lemma offers_row x path indices r q i j pl : In (r, q) (get_new_rows_children x path) -> offers (r, q, add_row_index indices (el_row_index r)) i j pl -> offers (x, path, indices) i j pl.
Proof.
  intros Hr (y&p&W&Hy&H). destruct (@rows_within (S (element_size x)) x path indices (Nat.lt_succ_diag_r _) _ _ Hr) as [Hn W'].
  exists y, p. split; [eapply within_trans; eauto|]. split; [|exact H]. right. destruct Hy as [E|Hy]; [inv E; exact Hn|exact Hy].
Qed.
Lemma loop_closest : forall fuel roots closest, stack_size roots <= fuel -> (forall c, In c roots -> placed (fst (fst c))) ->
  exists o, layout_position_loop to_bounds to_place fuel roots closest = Ok o /\
    (o = None -> closest = None /\ roots = []) /\
    (forall i j d, o = Some (i, j, d) ->
      (closest = o \/ exists c pl, In c roots /\ offers c i j pl /\ d = to_place pl) /\
      (forall i' j' d', closest = Some (i', j', d') -> d <= d') /\
      (forall c i' j' pl, In c roots -> offers c i' j' pl -> d <= to_place pl)).
Proof.
  induction fuel as [|fuel IH]; intros roots closest Hf Hr.
  - destruct roots as [|[[x path] indices] roots].
    + exists closest. cbn. repeat split; auto. intros i' j' d' E. rewrite H in E. inv E. lia. easy.
    + exfalso. unfold stack_size in Hf. cbn in Hf. destruct x. cbn in Hf. lia.
  - destruct roots as [|[[x path] indices] roots].
    + exists closest. cbn. repeat split; auto. intros i' j' d' E. rewrite H in E. inv E. lia. easy.
    + cbn [layout_position_loop]. assert (Px : placed x) by (apply (Hr (x, path, indices)); now left).
      assert (Sz : stack_size roots + element_size x <= S fuel) by (unfold stack_size in *; cbn in Hf; unfold list_sum in *; lia). assert (0 < element_size x) by (destruct x; cbn; lia).
      destruct (match closest with Some (_, d) => d <? to_bounds path | None => false end) eqn:Eskip.
      * destruct (IH roots closest) as (o&E&H1&H2); [lia|intros; apply Hr; now right|]. exists o. split; [exact E|]. split.
        -- intros Eo. destruct (H1 Eo) as [-> _]. discriminate.
        -- intros i j d Eo. destruct (H2 _ _ _ Eo) as (Hs&Hl&Hall). split; [|split].
           ++ destruct Hs as [Hs|(c&pl&Hin&Hs)]; [now left|]. right. exists c, pl. split; [now right|exact Hs].
           ++ exact Hl.
           ++ intros c i' j' pl [<-|Hin] Ho; [|eapply Hall; eauto]. apply offers_far in Ho. cbn [fst snd] in Ho. destruct closest as [[[ci cj] cd]|]; [|discriminate].
              apply Nat.ltb_lt in Eskip. specialize (Hl _ _ _ eq_refl). lia.
      * destruct (@placed_closest x path Px) as (offset&p&E&Hp&Hmin). rewrite E. cbn [bind].
        pose proof (@rows_size (S (element_size x)) x path (Nat.lt_succ_diag_r _)) as Rs.
        set (new := map (fun '(c, path0) => (c, path0, add_row_index indices (el_row_index c))) (get_new_rows_children x path)).
        set (closest' := match closest with Some (_, d') => if to_place p <? d' then Some (indices, offset, to_place p) else closest | None => Some (indices, offset, to_place p) end).
        assert (Hnew : forall c, In c new -> exists r q, c = (r, q, add_row_index indices (el_row_index r)) /\ In (r, q) (get_new_rows_children x path)).
        { intros c Hin. apply in_map_iff in Hin as ([r q]&Er&Hin). subst c. eauto. }
        destruct (IH (rev new ++ roots) closest') as (o&Eo&H1&H2).
        { unfold stack_size in *. rewrite map_app, list_sum_app, map_rev, list_sum_rev. unfold new. rewrite map_map.
          erewrite (map_ext _ (fun cp => element_size (fst cp))) by (intros [? ?]; reflexivity). unfold list_sum in *. lia. }
        { intros c Hin. apply in_app_iff in Hin as [Hin|Hin]; [|apply Hr; now right]. apply in_rev in Hin. destruct (Hnew _ Hin) as (r&q&->&Hrq).
          destruct (@rows_within (S (element_size x)) x path indices (Nat.lt_succ_diag_r _) _ _ Hrq) as [_ W]. apply (placed_within W). exact Px. }
        assert (Hcl : exists i' j' d', closest' = Some (i', j', d') /\ d' <= to_place p /\ (forall i j d, closest = Some (i, j, d) -> d' <= d)).
        { unfold closest'. destruct closest as [[[ci cj] cd]|].
          - destruct (to_place p <? cd) eqn:El; [apply Nat.ltb_lt in El|apply Nat.ltb_ge in El]; do 3 eexists; (split; [reflexivity|]); (split; [lia|]); intros ? ? ? E0; inv E0; lia.
          - do 3 eexists. split; [reflexivity|]. split; [lia|]. discriminate. }
        exists o. split; [exact Eo|]. split.
        -- intros En. destruct (H1 En) as [Ec _]. destruct Hcl as (?&?&?&Ecl&_). rewrite Ec in Ecl. discriminate.
        -- intros i j d Ed. destruct (H2 _ _ _ Ed) as (Hs&Hl&Hall). destruct Hcl as (ci&cj&cd&Ecl&Hcd&Hcc). specialize (Hl _ _ _ Ecl). split; [|split].
           ++ assert (Here : offers (x, path, indices) indices offset p). { exists x, path. split; [constructor|]. split; [now left|exact Hp]. }
              destruct Hs as [Hs|(c&pl&Hin&Ho&Edp)].
              ** rewrite Ed in Hs. unfold closest' in Hs. destruct closest as [[[ci' cj'] cd']|].
                 --- destruct (to_place p <? cd'); [|left; congruence]. assert (i = indices /\ j = offset /\ d = to_place p) as (->&->&->) by (repeat split; congruence). right. exists (x, path, indices), p. split; [now left|]. split; [exact Here|reflexivity].
                 --- assert (i = indices /\ j = offset /\ d = to_place p) as (->&->&->) by (repeat split; congruence). right. exists (x, path, indices), p. split; [now left|]. split; [exact Here|reflexivity].
              ** right. apply in_app_iff in Hin as [Hin|Hin]; [|exists c, pl; split; [now right|auto]]. apply in_rev in Hin. destruct (Hnew _ Hin) as (r&q&->&Hrq).
                 exists (x, path, indices), pl. split; [now left|]. split; [|exact Edp]. eapply offers_row; eauto.
           ++ intros i' j' d' E'. specialize (Hcc _ _ _ E'). lia.
           ++ intros c i' j' pl [<-|Hin] Ho; [|eapply Hall; [apply in_app_iff; right; exact Hin|exact Ho]]. apply offers_cases in Ho as [[-> Ho]|(r&q&Hrq&Ho)].
              ** specialize (Hmin _ _ Ho). lia.
              ** eapply Hall; [|exact Ho]. apply in_app_iff. left. apply -> in_rev. apply in_map_iff. exists (r, q). auto.
Qed.
Lemma layout_within : forall k x path indices c, element_size x < k -> layout_element_containing to_bounds x path indices = Some c ->
  within (x, path, indices) c /\ element_size (fst (fst c)) <= element_size x /\ to_bounds (snd (fst c)) = 0.
Proof.
  induction k as [|k IH]; intros x path indices v Hk H; [lia|]. destruct x as [class n r xs]. cbn [layout_element_containing] in H.
  destruct (0 <? to_bounds path) eqn:E0; [discriminate|]. apply Nat.ltb_ge in E0. cbn [get_children] in H. fold (go_layout to_bounds path indices) in H.
  assert (G : forall l i v, (forall j c, nth_error l j = Some c -> nth_error xs (i + j) = Some c) -> go_layout to_bounds path indices i l = Some v ->
    exists i c, nth_error xs i = Some c /\ layout_element_containing to_bounds c (path ++ [i]) (add_row_index indices (el_row_index c)) = Some v).
  { clear H. induction l as [|c l IHl]; intros i v' Hl Hv; cbn [go_layout] in Hv; [discriminate|]. destruct (layout_element_containing _ c _ _) as [v''|] eqn:E.
    - inv Hv. exists i, c. split; [|exact E]. rewrite <- (Hl 0 c eq_refl), Nat.add_0_r. reflexivity.
    - apply (IHl (S i)); auto. intros j c' Hc'. replace (S i + j) with (i + S j) by lia. now apply Hl. }
  destruct (go_layout to_bounds path indices 0 xs) as [v'|] eqn:E.
  - inv H. apply G in E as (i&c&Hin&E); [|auto]. assert (S : element_size c <= list_sum (map element_size xs)).
    { apply nth_error_In in Hin. clear - Hin. induction xs as [|a l IHl]; [easy|]. cbn. destruct Hin as [<-|Hin]; [lia|]. apply IHl in Hin. unfold list_sum in *. lia. }
    cbn [element_size get_children] in *. apply IH in E as (E1&E2&E3); [|lia]. split; [|split; [lia|exact E3]]. econstructor; [|exact E1]. exact Hin.
  - inv H. split; [constructor|]. cbn [fst snd]. split; [lia|lia].
Qed.
Lemma hit_within x : within (x, [], []) (get_layout_element to_bounds x) /\ element_size (fst (fst (get_layout_element to_bounds x))) <= element_size x.
Proof.
  unfold get_layout_element. destruct (layout_element_containing to_bounds x [] []) as [c|] eqn:E; [|split; [constructor|cbn; lia]].
  destruct (layout_within (Nat.lt_succ_diag_r _) E) as (H1&H2&_). auto.
Qed.
Theorem click_closest doc n x : wf_row doc -> parse g doc = Ok n -> render_all rs n = Ok x ->
  exists i j pl, get_layout_position to_bounds to_place x = Ok (i, j) /\ offers (get_layout_element to_bounds x) i j pl /\
    forall i' j' pl', offers (get_layout_element to_bounds x) i' j' pl' -> to_place pl <= to_place pl'.
Proof.
  intros Hwf En Hx. pose proof (placed_root Hwf En Hx) as Px. destruct (hit_within x) as [W S]. unfold get_layout_position.
  destruct (@loop_closest (element_size x) [get_layout_element to_bounds x] None) as (o&E&H1&H2).
  - unfold stack_size. cbn. unfold list_sum. cbn. lia.
  - intros c [<-|[]]. now apply (placed_within W).
  - rewrite E. cbn [bind]. destruct o as [[[i j] d]|]; [|destruct (H1 eq_refl); discriminate].
    destruct (H2 _ _ _ eq_refl) as ([Hs|(c&pl&[<-|[]]&Ho&->)]&_&Hall); [discriminate|]. exists i, j, pl. split; [reflexivity|]. split; [exact Ho|]. intros. eapply Hall; eauto. now left.
Qed.
End Closest.

(** ** The element that was hit *)
Section Hit.
Variable to_bounds : list nat -> nat.
Lemma containing_none x path indices : layout_element_containing to_bounds x path indices = None -> 0 < to_bounds path.
Proof.
  destruct x as [class n r xs]. cbn [layout_element_containing]. destruct (0 <? to_bounds path) eqn:E; [intros _; now apply Nat.ltb_lt|]. cbn [get_children]. fold (go_layout to_bounds path indices).
  destruct (go_layout to_bounds path indices 0 xs); discriminate.
Qed.
Lemma containing_children : forall m x path indices c path' indices', element_size x < m -> layout_element_containing to_bounds x path indices = Some (c, path', indices') ->
  forall k, k < List.length (get_children c) -> 0 < to_bounds (path' ++ [k]).
Proof.
  induction m as [|m IH]; intros x path indices c path' indices' Hm H; [lia|]. destruct x as [class n r xs]. cbn [layout_element_containing] in H.
  destruct (0 <? to_bounds path) eqn:E0; [discriminate|]. cbn [get_children] in H. fold (go_layout to_bounds path indices) in H. cbn [element_size get_children] in Hm.
  assert (G : forall l i, list_sum (map element_size l) < m -> match go_layout to_bounds path indices i l with
    | Some (c, path', _) => forall k, k < List.length (get_children c) -> 0 < to_bounds (path' ++ [k])
    | None => forall k, k < List.length l -> 0 < to_bounds (path ++ [i + k])
    end).
  { clear H. induction l as [|a l IHl]; intros i Hs; cbn [go_layout]; [cbn; lia|]. cbn [map list_sum fold_right] in Hs. destruct (layout_element_containing to_bounds a (path ++ [i]) (add_row_index indices (el_row_index a))) as [[[c1 p1] i1]|] eqn:E.
    - eapply IH; [|exact E]. lia.
    - apply containing_none in E. specialize (IHl (S i)). destruct (go_layout to_bounds path indices (S i) l) as [[[c1 p1] i1]|]; [apply IHl; unfold list_sum; lia|].
      intros [|k] Hk; [now rewrite Nat.add_0_r|]. replace (i + S k) with (S i + k) by lia. apply IHl; [unfold list_sum; lia|]. cbn in Hk. lia. }
  specialize (G xs 0). destruct (go_layout to_bounds path indices 0 xs) as [[[c1 p1] i1]|]; inv H; apply G; lia.
Qed.
Theorem hit_spec x c path indices : get_layout_element to_bounds x = (c, path, indices) ->
  within (x, [], []) (c, path, indices) /\ (to_bounds [] = 0 -> to_bounds path = 0 /\ forall k, k < List.length (get_children c) -> 0 < to_bounds (path ++ [k])).
Proof.
  intros H. unfold get_layout_element in H. destruct (layout_element_containing to_bounds x [] []) as [c'|] eqn:E.
  - subst c'. destruct (layout_within (Nat.lt_succ_diag_r _) E) as (H1&_&H3). split; [exact H1|]. intros _. split; [exact H3|]. exact (containing_children (Nat.lt_succ_diag_r _) E).
  - inv H. split; [constructor|]. apply containing_none in E. lia.
Qed.
Lemma outside_hit x : 0 < to_bounds [] -> get_layout_element to_bounds x = (x, [], []).
Proof. intros H. apply Nat.ltb_lt in H. unfold get_layout_element. destruct x as [class n r xs]. cbn [layout_element_containing]. rewrite H. reflexivity. Qed.
End Hit.

(** ** The rows of the document *)
Section Rows.
Variable g : Grammar.
Hypothesis Ht : no_empty_tokens g.
Hypothesis Hc : all_containers g.
Variable rs : Renderers.
Variable doc : InputRow.
Hypothesis Hwf : wf_row doc.
Hypothesis Hcalm : forall p row n, p <> [] -> row_get doc p = Some row -> parse g row = Ok n -> ~ script_named rs n.
Notation here := (located g rs doc).
(** A child is on the same row, or starts a row of the container that the element draws. *)
Lemma located_index indices x c : here indices x -> In c (get_children x) ->
  (el_row_index c = None /\ exists l, syn_children (el_tree x) = Children l) \/ (exists s j gr, el_row_index c = Some (s, j) /\ syn_range (el_tree x) = (s, S s) /\ syn_children (el_tree x) = NewRows gr).
Proof.
  intros (row&s&e&o&ri&Er&T&He&M&Ho&Hr&L) Hin. destruct (mirror_cases M) as [E0|[(name&l&s0&e0&o'&E0&ML&Ho')|(name&l&w&s0&E0&MR)]].
  - rewrite E0 in Hin. easy.
  - left. destruct (mirror_list_in ML Hin) as (m&Hm&Mc).
    assert (Co : calm o'). { destruct Ho' as [->|[->|[-> Hn]]]; [now left|exact Ho|]. destruct Hr as [->|Hr]; [now right|contradiction]. }
    split; [|rewrite E0; cbn; eauto]. destruct (mirror_row_index Mc) as [E|E]; [exact E|]. destruct Co as [->| ->]; congruence.
  - right. destruct (mirror_rows_in MR Hin) as (k&m&Em&Mc). exists s0, k, (mkGrid l w). rewrite E0. split; [|auto]. destruct (mirror_row_index Mc) as [E|E]; [exact E|discriminate].
Qed.
Lemma container_within : forall m x path indices k, element_size x < m -> here indices x -> in_range (el_tree x) k = true ->
  exists path', within (x, path, indices) (get_child_with_container_index x k, path', indices) /\ here indices (get_child_with_container_index x k) /\ in_range (el_tree (get_child_with_container_index x k)) k = true.
Proof.
  induction m as [|m IH]; intros x path indices k Hm L Hk; [lia|].
  pose proof (fun c => @located_index indices x c L) as Hi. pose proof (fun c => @located_child _ Ht Hc _ _ Hwf Hcalm indices x c L) as Hl.
  destruct x as [class n r xs]. cbn [get_child_with_container_index]. destruct (syn_children n) as [gr|l|ty l] eqn:En; [exists path; repeat split; auto; constructor| |exists path; repeat split; auto; constructor].
  fold (go_element (mkElement class n r xs) k). cbn [get_children element_size] in *.
  assert (G : forall ys i, (forall j c, nth_error ys j = Some c -> nth_error xs (i + j) = Some c) ->
    exists path', within (mkElement class n r xs, path, indices) (go_element (mkElement class n r xs) k ys, path', indices) /\ here indices (go_element (mkElement class n r xs) k ys) /\ in_range (el_tree (go_element (mkElement class n r xs) k ys)) k = true).
  { induction ys as [|c ys IHy]; intros i Hin; cbn [go_element]; [exists path; repeat split; auto; constructor|]. destruct (in_range (el_tree c) k) eqn:Ec.
    - assert (Ein : nth_error xs i = Some c) by (rewrite <- (Hin 0 c eq_refl), Nat.add_0_r; reflexivity). assert (Hx : In c xs) by (eapply nth_error_In; eauto).
      assert (Ei : el_row_index c = None).
      { destruct (Hi c Hx) as [[E _]|(s&j&gr&_&_&Eg)]; [exact E|]. cbn [el_tree] in Eg. rewrite En in Eg. discriminate Eg. }
      specialize (Hl c Hx). rewrite Ei in Hl. cbn [add_row_index] in Hl.
      destruct (IH c (path ++ [i]) indices k) as (path'&W&L'&R); auto.
      { assert (element_size c <= list_sum (map element_size xs)); [|unfold list_sum in *; lia]. clear - Hx. induction xs as [|a l0 IHl]; [easy|]. cbn. destruct Hx as [<-|Hx]; [lia|]. apply IHl in Hx. unfold list_sum in *. lia. }
      exists path'. split; [|auto]. econstructor; [exact Ein|]. rewrite Ei. exact W.
    - apply (IHy (S i)). intros j c' E. replace (S i + j) with (i + S j) by lia. now apply Hin. }
  apply (G xs 0). auto.
Qed.
Lemma element_within p : forall indices x path y, here indices x -> get_element x p = Ok y ->
  exists path', within (x, path, indices) (y, path', indices ++ p) /\ here (indices ++ p) y /\ ((p = [] /\ y = x /\ path' = path) \/ el_row_index y <> None).
Proof.
  induction p as [|[k j] p IH]; intros indices x path y L H; cbn [get_element] in H.
  - inv H. exists path. rewrite app_nil_r. repeat split; auto; constructor.
  - apply bind_ok in H as ([]&E&H). apply assert_inv in E. destruct (@container_within _ x path indices k (Nat.lt_succ_diag_r _) L E) as (path1&W1&L1&R1).
    set (z := get_child_with_container_index x k) in *. destruct (List.find (has_row j) (get_children z)) as [c|] eqn:Ef; [|discriminate].
    apply find_some in Ef as [Hin Hj]. destruct (In_nth_error _ _ Hin) as [i Ei]. pose proof (@located_child _ Ht Hc _ _ Hwf Hcalm indices z c L1 Hin) as Lc.
    assert (Ek : el_row_index c = Some (k, j)).
    { unfold has_row in Hj. destruct (located_index L1 Hin) as [[En _]|(s&j'&gr&En&Er&_)]; rewrite En in Hj; [discriminate|]. apply Nat.eqb_eq in Hj. subst j'.
      unfold in_range in R1. rewrite Er in R1. rewrite En. f_equal. f_equal. cbn in R1. lia. }
    rewrite Ek in Lc. cbn [add_row_index] in Lc. destruct (IH _ _ (path1 ++ [i]) _ Lc H) as (path2&W2&L2&Hy).
    exists path2. rewrite <- app_assoc in W2, L2. cbn [app] in W2, L2. split; [|split].
    + eapply within_trans; [exact W1|]. econstructor; [exact Ei|]. rewrite Ek. exact W2.
    + exact L2.
    + right. destruct Hy as [(_&->&_)|Hy]; [congruence|exact Hy].
Qed.
Lemma located_within c d : within c d -> here (snd c) (fst (fst c)) -> here (snd d) (fst (fst d)).
Proof. induction 1 as [c|x path indices k c d E _ IH]; auto. intros H. apply IH. cbn [fst snd] in *. apply nth_error_In in E. exact (@located_child _ Ht Hc _ _ Hwf Hcalm indices x c H E). Qed.
Theorem positions n x : parse g doc = Ok n -> render_all rs n = Ok x ->
  forall p j, (exists place, offers (x, [], []) p j place) <-> exists row, row_get doc p = Some row /\ j <= List.length row.
Proof.
  intros En Hx p j. pose proof (located_root Ht Hc Hwf En Hx) as L. split.
  - intros (pl&y&path&W&_&Hr&_). apply (located_within W) in L. cbn [fst snd] in L. destruct L as (row&s&e&o&ri&Er&T&He&_). exists row. split; [exact Er|]. rewrite (gtree_range T) in Hr. cbn in Hr. lia.
  - intros (row&Er&Hj). destruct (find_parsed Ht Hc Hwf En Er) as (n'&En'&Ep). destruct (get_element_mirror (render_all_mirror Hx) En') as (x'&o'&ri'&Ex&M).
    destruct (@element_within p [] x [] x' L Ex) as (path&W&_&Hy). cbn [app] in W. pose proof (row_get_wf Hwf Er) as Hwr. destruct (parse_gtree Ht Hc Hwr) as (n2&En2&T). rewrite Ep in En2. inv En2.
    destruct (proj1 (caret_total rs (P g)) _ _ _ _ M _ _ _ T (parse_leaves Ht Ep) path j) as (place&E); [lia|]. exists place, x', path. split; [exact W|]. split.
    + destruct Hy as [(->&->&->)|Hy]; [now left|now right].
    + split; [|exact E]. rewrite (mirror_tree M), (gtree_range T). cbn. lia.
Qed.
End Rows.
