(** Typing and deleting next to a completely typed token: the token is not corrected. *)
From Coq Require Import Permutation.
From Verif Require Import Base Str Grid Node Focus Edit Caret Autocomplete Editor Spec SpecAuto SpecEditor SpecMove BaseFacts
  TreeFacts OrderFacts EditFacts TreeProofs MoveFacts MoveProofs SpecTrack TrackFacts AutoFacts PopupFacts EditorFacts HistoryFacts
  OpFacts SpliceFacts.
Set Implicit Arguments.
Unset Strict Implicit.

Lemma pos_le_row p a b : a <= b -> pos_le (mkMinPos p a) (mkMinPos p b).
Proof.
  intros H. induction p as [|x p IH]; [now apply (pos_le_here a b)|].
  apply (proj2 (pos_le_below x (mkMinPos p a) (mkMinPos p b)) IH).
Qed.

Section Ed.
Context {SyntaxNode : Type}.
Variable env : Env SyntaxNode.
Implicit Type ed : MathEditor SyntaxNode.
Let cfg := env_cfg env.

Lemma apply_within ed rule p s e t : wf_row (ed_input ed) -> valid_range (ed_input ed) (mkMinRange p s e) ->
  ed_caret ed = collapsed (mkMinPos p t) -> Nat.min s e <= t -> t <= Nat.max s e ->
  apply_autocorrect env ed (Some (mkAutocorrect rule (mkMinRange p s e))) = Ok ed.
Proof.
  intros Hwf Hv Hc H1 H2. unfold apply_autocorrect. rewrite Hc.
  destruct (@collapsed_caret (ed_input ed) (mkMinPos p t) Hwf) as (q&Gq&Eq&Ec).
  { destruct Hv as (row&Hr&Ho). exists row. cbn in *. split; auto. lia. }
  rewrite Ec. cbn [bind c_selection ac_range]. destruct (rg_from_minimal_ok Hwf Hv) as (rg&Hrg). rewrite Hrg. cbn [bind].
  apply rg_from_minimal_inv in Hrg as [_ Erg].
  replace (rg_start_position (range_of_pos q)) with q by (destruct q; reflexivity).
  replace (rg_contains rg q) with true; [reflexivity|]. symmetry. apply rg_contains_iff. rewrite Eq, Erg.
  split; apply pos_le_row; auto.
Qed.

(** What is in front of the caret when an autocorrection is pending. *)
Lemma pending_token ed ed1 act : wf_row (ed_input ed) -> start_autocorrect env ed = Ok (ed1, Some act) ->
  exists q n s, good_pos (ed_input ed) q /\ ed_caret ed = collapsed (pos_to_minimal q) /\ 1 <= n /\ n <= pos_offset q /\
    ac_range act = mkMinRange (pos_indices q) (pos_offset q) (pos_offset q - n) /\
    nth_error (fr_row (pos_focus q)) (pos_offset q - 1) = Some (Symbol s).
Proof.
  intros Hwf H. unfold start_autocorrect in H. apply bind_ok in H as ([ed2 r]&Hg&H). destruct r as [r|]; [|discriminate].
  apply bind_ok in H as (a&Ha&H). inv H. unfold results_start_autocorrect in Ha. apply bind_ok in Ha as (m&Hm&Ha).
  unfold get_selected in Hm. apply unwrap_ok in Hm. destruct (negb (is_complete_match m)); inv Ha. cbn [ac_range].
  destruct (popup_match Hwf Hg (nth_error_In _ _ Hm)) as (q&before&syms&last&rest&[Gc Go]&Hc&Hp&Hf&_&_&_&Em&_).
  assert (Hlen : length before + (length syms + 1) = pos_offset q).
  { apply (f_equal (@length _)) in Hf. rewrite firstn_length, app_length, map_length, app_length in Hf. cbn in Hf. lia. }
  exists q, (length syms + 1), last. split; [split; auto|]. split; auto. split; [lia|]. split; [lia|]. split.
  - unfold get_caret_range. rewrite Hp, Em. reflexivity.
  - rewrite <- (firstn_skipn (pos_offset q) (fr_row (pos_focus q))), Hf. rewrite map_app, app_assoc.
    rewrite nth_error_app1 by (rewrite !app_length, map_length; cbn; lia).
    rewrite nth_error_app2 by (rewrite app_length, map_length; lia).
    replace (pos_offset q - 1 - length (before ++ map Symbol syms)) with 0 by (rewrite app_length, map_length; lia). reflexivity.
Qed.

Lemma get_caret_collapsed ed q m : wf_row (ed_input ed) -> good_pos (ed_input ed) q -> ed_caret ed = collapsed (pos_to_minimal q) ->
  get_caret ed = Ok (MSelRow m) -> m = mkMinRange (pos_indices q) (pos_offset q) (pos_offset q).
Proof.
  intros Hwf [Gc Go] Hc H. unfold get_caret in H. rewrite Hc in H.
  destruct (@collapsed_caret (ed_input ed) (pos_to_minimal q) Hwf) as (q'&_&Eq&Ec).
  { exists (fr_row (pos_focus q)). split; [exact (canonical_row Gc)|exact Go]. }
  rewrite Ec in H. cbn in H. inv H. apply (f_equal (fun x => mkMinRange (mp_row x) (mp_offset x) (mp_offset x))) in Eq. exact Eq.
Qed.

Lemma wf_symbols vs : wf_row (map Symbol vs).
Proof. intros n Hn. apply in_map_iff in Hn as (s&<-&_). constructor. Qed.
Lemma nodes_replaced_wf doc p l r vs doc' : nodes_replaced doc p l r vs doc' -> wf_row doc -> wf_row vs -> wf_row doc'.
Proof.
  intros (row&_&_&H) Hwf Hvs. apply (replaced_wf H Hwf). pose proof (row_get_wf Hwf (replaced_get_old H)).
  apply wf_row_app. split; [now apply wf_row_firstn|]. apply wf_row_app. split; auto. now apply wf_row_skipn.
Qed.

Lemma insert_settles ed a x m vs : wf_row (ed_input ed) -> wf_row vs -> get_caret ed = Ok (MSelRow m) ->
  start_autocorrect env ed = Ok (set_autocomplete ed x, a) ->
  exists ed2 ce, insert_nodes_at_caret env (set_autocomplete ed x) vs = Ok (ed2, Some ce) /\ finish_autocorrect env ed2 a ce = Ok ed2 /\
    nodes_replaced (ed_input ed) (mr_row m) (lo m) (hi m) vs (ed_input ed2) /\
    ed_caret ed2 = collapsed (mkMinPos (mr_row m) (lo m + length vs)) /\
    advanced env ed [ce] ed2 /\ ce_after ce = ed_caret ed2 /\ ce_before ce = ed_caret ed.
Proof.
  intros Hwf Hvs H Ha.
  assert (H' : get_caret (set_autocomplete ed x) = Ok (MSelRow m)) by exact H.
  destruct (insert_nodes_result env vs H') as (ed2&ce&Hi&Hrep&Hc&_&Hadv&Haf&Hbe&old&Hold&Hed). exists ed2, ce. split; [exact Hi|].
  cbn [set_autocomplete ed_input] in Hrep. split; [|repeat split; auto; apply Hadv].
  destruct a as [act|]; [|reflexivity].
  destruct (pending_token Hwf Ha) as (q&n&s&Gq&Hcq&Hn1&Hn2&Hr&_).
  pose proof (get_caret_collapsed Hwf Gq Hcq H) as ->. unfold lo, hi in *. cbn [mr_row mr_start mr_end] in *.
  rewrite Nat.min_id, ?Nat.max_id in *. destruct act as [rule range]. cbn [ac_range] in Hr. subst range.
  unfold finish_autocorrect, autocorrect_finish. rewrite Hed. cbn [ac_range ac_rule]. unfold range_apply_edits. cbn [apply_edits].
  rewrite map_same_row by reflexivity. cbn [mr_start mr_end mr_row]. replace (pos_offset q <=? pos_offset q - n) with false by lia. cbn [bind].
  unfold right_map, left_map, del_pos. cbn [re_type re_pos re_values mp_offset]. rewrite Nat.ltb_irrefl.
  replace (pos_offset q <? pos_offset q - n) with false by lia.
  rewrite map_same_row by reflexivity. cbn [mr_start mr_end mr_row]. replace (pos_offset q <=? pos_offset q - n) with false by lia. cbn [bind].
  unfold right_map, left_map, ins_pos, ins_end. cbn [re_type re_pos re_values mp_offset]. rewrite Nat.leb_refl.
  replace (pos_offset q <? pos_offset q - n) with false by lia.
  apply apply_within with (t := pos_offset q + length vs).
  - exact (nodes_replaced_wf Hrep Hwf Hvs).
  - destruct (@nodes_replaced_valid _ _ _ _ _ _ (pos_offset q + length vs) Hrep) as (row&Hrow&Ho); [lia|].
    exists row. cbn in *. split; auto. lia.
  - exact Hc.
  - lia.
  - lia.
Qed.

Lemma typing_total ed m vs : wf_row (ed_input ed) -> get_caret ed = Ok (MSelRow m) -> (exists x, get_autocomplete env ed = Ok x) ->
  exists ed', step env ed (OpInsertAtCaret vs) = Ok (ed', OutNone _) /\
    nodes_replaced (ed_input ed) (mr_row m) (lo m) (hi m) (map Symbol vs) (ed_input ed') /\
    ed_caret ed' = collapsed (mkMinPos (mr_row m) (lo m + length vs)).
Proof.
  intros Hwf H [[ed1 r] Hg]. destruct (start_autocorrect_ok Hg) as (a&Ha&_).
  apply get_autocomplete_only in Hg as (x&->). cbn [step]. unfold insert_at_caret. rewrite Ha. cbn [bind].
  destruct (insert_settles Hwf (wf_symbols (vs := vs)) H Ha) as (ed2&ce&Hi&Hfin&Hrep&Hc&_). rewrite Hi. cbn [bind].
  rewrite Hfin. cbn [bind]. rewrite map_length in Hc. exists ed2. auto.
Qed.

(** Deleting the symbol next to the caret. *)
Lemma symbol_remove_advanced ed q mode d i s : wf_row (ed_input ed) -> ed_caret ed = collapsed q -> (exists x, get_autocomplete env ed = Ok x) ->
  remove_dir mode = Some d -> match d with HLeft => mp_offset q = S i | HRight => mp_offset q = i end ->
  node_get (ed_input ed) (mp_row q) i = Some (Symbol s) ->
  exists ed' ce, step env ed (OpRemoveAtCaret mode) = Ok (ed', OutNone _) /\
    nodes_replaced (ed_input ed) (mp_row q) i (S i) [] (ed_input ed') /\ ed_caret ed' = collapsed (mkMinPos (mp_row q) i) /\
    advanced env ed [ce] ed' /\ ce_before ce = ed_caret ed /\ ce_after ce = ed_caret ed'.
Proof.
  intros Hwf Hc [[ed1 r] Hg] Hd Hi Hn. destruct (start_autocorrect_ok Hg) as (a&Ha&_).
  apply get_autocomplete_only in Hg as (x&->).
  unfold node_get in Hn. destruct (row_get (ed_input ed) (mp_row q)) as [row|] eqn:Hrow; [|discriminate].
  assert (Hlt : i < length row) by (apply nth_error_Some; congruence).
  destruct (@collapsed_caret (ed_input ed) q Hwf) as (p&[Gc Go]&Ep&Ec).
  { exists row. split; auto. destruct d; lia. }
  assert (Erow : fr_row (pos_focus p) = row).
  { pose proof (canonical_row Gc) as E. rewrite <- Ep in Hrow. cbn in Hrow. unfold pos_indices in Hrow. congruence. }
  assert (Ei : pos_indices p = mp_row q) by (rewrite <- Ep; reflexivity).
  assert (Eo : pos_offset p = mp_offset q) by (rewrite <- Ep; reflexivity).
  set (rg := mkRange (pos_focus p) i (i + 1)).
  assert (G : good_range (ed_input ed) rg) by (split; [exact Gc|]; cbn [rg rg_start rg_end rg_focus]; rewrite Erow; lia).
  assert (El : rg_left rg = i) by (rewrite rg_left_min; cbn; lia).
  assert (Er : rg_right rg = S i) by (rewrite rg_right_max; cbn; lia).
  pose proof (remove_range_eq G) as Hrm. destruct (remove_range_replaces cfg G Hrm) as (doc'&C&Hrep&_&_).
  rewrite El, Er in Hrep. change (rg_indices rg) with (pos_indices p) in *. rewrite Ei in *. rewrite El in *.
  assert (Hrp : remove_at_caret_position cfg p d =
    Ok (Some ([ERow (mkRowEdit Delete (mkMinPos (mp_row q) i) (rg_nodes rg))], mkMinPos (mp_row q) i))).
  { unfold remove_at_caret_position, focus_offset_to_index, row_offset_to_index, focus_node_at. rewrite Erow, Eo.
    replace (match d with HLeft => _ | HRight => _ end) with (Some i)
      by (destruct d; rewrite Hi; [cbn [Nat.ltb Nat.leb Nat.sub]; rewrite ?Nat.sub_0_r|]; repeat match goal with |- context [if ?b then _ else _] => destruct b eqn:? end; auto; lia).
    rewrite Hn. rewrite range_new_ok by (rewrite Erow; lia). cbn [bind]. fold rg. rewrite Hrm. reflexivity. }
  cbn [step]. unfold editor_remove_at_caret. rewrite Ha. cbn [bind set_autocomplete ed_input ed_caret]. rewrite Hc, Ec. cbn [bind c_selection].
  unfold remove_at_caret, rg_is_collapsed. cbn [range_of_pos rg_start rg_end]. rewrite Nat.eqb_refl. cbn [negb].
  replace (rg_start_position (range_of_pos p)) with p by (destruct p; reflexivity).
  assert (Hm : (match mode with RemoveLeft => remove_at_caret_position cfg p HLeft | RemoveRight => remove_at_caret_position cfg p HRight
               | RemoveRange => r <- remove_range (range_of_pos p) ;; Ok (Some r) end) =
               Ok (Some ([ERow (mkRowEdit Delete (mkMinPos (mp_row q) i) (rg_nodes rg))], mkMinPos (mp_row q) i))).
  { destruct mode; try discriminate Hd; injection Hd as Hd; rewrite Hd; exact Hrp. }
  fold cfg. rewrite Hm. cbn [bind]. unfold builder_finish. cbn [set_autocomplete ed_input]. pose proof (chain_apply C) as Hap.
  unfold cfg in Hap. rewrite Hap. cbn [bind].
  set (ed2 := mkEditor doc' None (mkMinCaret (mkMinPos (mp_row q) i) (mkMinPos (mp_row q) i)) _ _ _).
  set (ce := mkCaretEdit _ _ _).
  assert (Hfin : finish_autocorrect env ed2 a ce = Ok ed2).
  { destruct a as [act|]; [|reflexivity].
    destruct (pending_token Hwf Ha) as (q'&n&s'&Gq&Hcq&Hn1&Hn2&Hr&_). rewrite Hc in Hcq.
    assert (Eq : q = pos_to_minimal q') by (inversion Hcq; auto). rewrite Eq in *. cbn [pos_to_minimal mp_row mp_offset] in *.
    destruct act as [rule range]. cbn [ac_range] in Hr. subst range.
    unfold finish_autocorrect, autocorrect_finish, ce. cbn [ac_range ac_rule ce_edits]. unfold range_apply_edits. cbn [apply_edits].
    rewrite map_same_row by (cbn [re_pos mp_row mr_row]; rewrite Eq; reflexivity). cbn [mr_start mr_end mr_row]. replace (pos_offset q' <=? pos_offset q' - n) with false by lia. cbn [bind].
    unfold right_map, left_map, del_pos. cbn [re_type re_pos re_values mp_offset]. rewrite (rg_nodes_length G), El, Er.
    replace (i <? pos_offset q' - n) with false by (destruct d; lia).
    apply apply_within with (t := i).
    - exact (nodes_replaced_wf Hrep Hwf wf_row_nil).
    - destruct Hrep as (row'&H1&H2&Hrep). eexists. split; [exact (replaced_get_new Hrep)|]. cbn [mr_start mr_end].
      pose proof (replaced_get_old Hrep) as Hold. rewrite Hrow in Hold. assert (row' = row) by congruence.
      rewrite !app_length, firstn_length, skipn_length. cbn [length]. destruct (i <? pos_offset q') eqn:E; destruct d; lia.
    - unfold ed2. rewrite Eq. reflexivity.
    - destruct (i <? pos_offset q') eqn:E; destruct d; lia.
    - destruct (i <? pos_offset q') eqn:E; destruct d; lia. }
  rewrite Hfin. cbn [bind]. exists ed2, ce. split; [reflexivity|]. split; [exact Hrep|]. split; [reflexivity|]. split.
  { split; auto. eapply committed_cons; [exact C|constructor]. }
  split; [first [reflexivity|symmetry; exact Hc]|reflexivity].
Qed.
Lemma symbol_remove ed q mode d i s : wf_row (ed_input ed) -> ed_caret ed = collapsed q -> (exists x, get_autocomplete env ed = Ok x) ->
  remove_dir mode = Some d -> match d with HLeft => mp_offset q = S i | HRight => mp_offset q = i end ->
  node_get (ed_input ed) (mp_row q) i = Some (Symbol s) ->
  exists ed', step env ed (OpRemoveAtCaret mode) = Ok (ed', OutNone _) /\
    nodes_replaced (ed_input ed) (mp_row q) i (S i) [] (ed_input ed') /\ ed_caret ed' = collapsed (mkMinPos (mp_row q) i).
Proof. intros. edestruct symbol_remove_advanced as (ed'&ce&?&?&?&_); eauto. Qed.

Lemma pending_start ed : autocorrect_pending env ed -> exists ed1 act, start_autocorrect env ed = Ok (ed1, Some act).
Proof.
  intros (ed1&r&m&Hg&Hm&Hc). unfold start_autocorrect. rewrite Hg. cbn [bind]. unfold results_start_autocorrect, get_selected. rewrite Hm.
  cbn [unwrap bind]. unfold is_complete_match. rewrite Hc, Nat.eqb_refl. cbn. eauto.
Qed.

Lemma remove_effect_any ed q mode d ed' out : wf_row (ed_input ed) -> valid_pos (ed_input ed) q -> ed_caret ed = collapsed q ->
  remove_dir mode = Some d ->
  ~ autocorrect_pending env ed \/ d = HLeft \/ (exists s, node_get (ed_input ed) (mp_row q) (mp_offset q) = Some (Symbol s)) ->
  step env ed (OpRemoveAtCaret mode) = Ok (ed', out) ->
  symbol_removed (ed_input ed) q d (ed_input ed') \/
  (row_symbols (ed_input ed') = row_symbols (ed_input ed) /\
   (ed_input ed' = ed_input ed \/ exists path i content, unwrapped (ed_input ed) q path i content (ed_input ed'))).
Proof.
  intros Hwf Hv Hc Hd Hcase Hs. destruct (collapsed_caret Hwf Hv) as (p&Gp&Ep&Ec).
  assert (Hg : get_caret ed = Ok (MSelRow (mkMinRange (mp_row q) (mp_offset q) (mp_offset q)))).
  { unfold get_caret. rewrite Hc, Ec. cbn. rewrite <- Ep. reflexivity. }
  assert (Eq : q = range_left (mkMinRange (mp_row q) (mp_offset q) (mp_offset q))).
  { unfold range_left. cbn. rewrite Nat.min_id. destruct q; reflexivity. }
  assert (Hok : exists x, get_autocomplete env ed = Ok x).
  { cbn [step] in Hs. apply bind_ok in Hs as (y&Hy&_). unfold editor_remove_at_caret, start_autocorrect in Hy. apply bind_ok in Hy as (z&Hz&_).
    apply bind_ok in Hz as (x&Hx&_). eauto. }
  assert (Hnp : ~ autocorrect_pending env ed -> symbol_removed (ed_input ed) q d (ed_input ed') \/
    (row_symbols (ed_input ed') = row_symbols (ed_input ed) /\
     (ed_input ed' = ed_input ed \/ exists path i content, unwrapped (ed_input ed) q path i content (ed_input ed')))).
  { intros Hp. pose proof (remove_effect Hg eq_refl Hd Hp Hs) as H. rewrite <- Eq in H. exact H. }
  assert (Hsym : forall i s, match d with HLeft => mp_offset q = S i | HRight => mp_offset q = i end ->
    node_get (ed_input ed) (mp_row q) i = Some (Symbol s) -> symbol_removed (ed_input ed) q d (ed_input ed')).
  { intros i s Hi Hn. destruct (symbol_remove Hwf Hc Hok Hd Hi Hn) as (ed2&Hs2&Hrep&_). rewrite Hs in Hs2. inv Hs2. exists i, s. auto. }
  destruct Hcase as [Hp|[->|[s Hn]]]; auto.
  - destruct Hok as [[ed1 r] Hx]. destruct (start_autocorrect_ok Hx) as (a&Ha&Hn). destruct a as [act|].
    + left. destruct (pending_token Hwf Ha) as (q'&n&s&[Gc Go]&Hcq&Hn1&Hn2&_&Hnth).
      assert (E : q = pos_to_minimal q') by (rewrite Hc in Hcq; inversion Hcq; auto). apply (Hsym (pos_offset q' - 1) s).
      * rewrite E. cbn. lia.
      * unfold node_get. rewrite E. cbn [mp_row pos_to_minimal]. pose proof (canonical_row Gc) as Hr. unfold pos_indices. rewrite Hr. exact Hnth.
    + apply Hnp. intros Hp. apply pending_start in Hp as (ed2&act&Hp). rewrite Ha in Hp. discriminate.
  - destruct d.
    + destruct Hok as [[ed1 r] Hx]. destruct (start_autocorrect_ok Hx) as (a&Ha&_). destruct a as [act|].
      * left. destruct (pending_token Hwf Ha) as (q'&n&s'&[Gc Go]&Hcq&Hn1&Hn2&_&Hnth).
        assert (E : q = pos_to_minimal q') by (rewrite Hc in Hcq; inversion Hcq; auto). apply (Hsym (pos_offset q' - 1) s').
        -- rewrite E. cbn. lia.
        -- unfold node_get. rewrite E. cbn [mp_row pos_to_minimal]. pose proof (canonical_row Gc) as Hr. unfold pos_indices. rewrite Hr. exact Hnth.
      * apply Hnp. intros Hp. apply pending_start in Hp as (ed2&act&Hp). rewrite Ha in Hp. discriminate.
    + left. exact (Hsym (mp_offset q) s eq_refl Hn).
Qed.
End Ed.
