(** The steps of the editor with which documents are entered. *)
From Coq Require Import String.
From Verif Require Import Base Str Grid Node Focus Edit Caret Autocomplete Editor Rules Spec SpecAuto SpecMove SpecEditor SpecSelect SpecRemove SpecSafety SpecLeave SpecContent SpecEnter
  BaseFacts TreeFacts EditFacts OrderFacts MoveFacts MoveProofs AutoFacts PopupFacts ExactFacts EditorFacts HistoryFacts OpFacts TypingFacts SafetyFacts SafetyProofs ContentFacts SelectFacts RemoveFacts SpliceFacts LeaveFacts EnterFacts EventFacts.
Open Scope list_scope.
Open Scope nat_scope.
Set Implicit Arguments.
Unset Strict Implicit.

Section Steps.
Context {SyntaxNode : Type}.
Variable env : Env SyntaxNode.
Hypothesis Hdefault : env_rules env = default_rules.
Implicit Type ed : MathEditor SyntaxNode.

Lemma at_position ed q row : wf_row (ed_input ed) -> ed_caret ed = collapsed q -> row_get (ed_input ed) (mp_row q) = Some row -> mp_offset q <= List.length row ->
  get_caret ed = Ok (MSelRow (mkMinRange (mp_row q) (mp_offset q) (mp_offset q))) /\
  get_autocomplete env ed = (ms <- rules_matches default_rules row (mp_offset q) 2 ;; ' (cur, res) <- state_get_autocomplete (ed_autocomplete ed) ms q ;; Ok (set_autocomplete ed cur, res)).
Proof.
  intros Hwf Hc Hrow Ho. destruct (@collapsed_caret (ed_input ed) q Hwf) as (p&G&Ep&E); [exists row; auto|].
  unfold get_caret, get_autocomplete. rewrite Hc, E, Hdefault. cbn [bind c_selection]. split.
  - cbn [sel_to_minimal]. rewrite <- Ep. destruct p; reflexivity.
  - unfold rg_is_collapsed. cbn [range_of_pos rg_start rg_end]. rewrite Nat.eqb_refl. cbv zeta.
    replace (rg_start_position (range_of_pos p)) with p by (destruct p; reflexivity). rewrite Ep.
    assert (Ef : fr_row (pos_focus p) = row).
    { pose proof (canonical_row (proj1 G)) as Hg. change (fr_indices (pos_focus p)) with (mp_row (pos_to_minimal p)) in Hg. rewrite Ep, Hrow in Hg. now injection Hg. }
    rewrite Ef. replace (pos_offset p) with (mp_offset q) by (rewrite <- Ep; reflexivity). reflexivity.
Qed.
Lemma calm_quiet ed q : wf_row (ed_input ed) -> ed_caret ed = collapsed q -> unwatched (ed_input ed) q -> get_autocomplete env ed = Ok (set_autocomplete ed None, None).
Proof. intros Hwf Hc (row&Hrow&Ho&Hm). destruct (at_position Hwf Hc Hrow Ho) as [_ ->]. rewrite Hm. reflexivity. Qed.
Lemma calm_start_autocorrect ed q : wf_row (ed_input ed) -> ed_caret ed = collapsed q -> unwatched (ed_input ed) q -> start_autocorrect env ed = Ok (set_autocomplete ed None, None).
Proof. intros Hwf Hc Hq. unfold start_autocorrect. rewrite (calm_quiet Hwf Hc Hq). reflexivity. Qed.

Definition moved ed ed' : Prop := ed_input ed' = ed_input ed /\ ed_undo ed' = ed_undo ed /\ ed_parsed ed' = ed_parsed ed.
Lemma click_step ed q t mode : wf_row (ed_input ed) -> ed_caret ed = collapsed q -> unwatched (ed_input ed) q ->
  exists ed', step env ed (OpStartSelection t mode) = Ok (ed', OutNone _) /\ ed_caret ed' = collapsed t /\ moved ed ed'.
Proof.
  intros Hwf Hc Hq. cbn [step]. unfold start_selection. cbv zeta. rewrite (@calm_start_autocorrect (set_selection_mode ed (Some mode)) q Hwf Hc Hq). cbn. eexists. split; [reflexivity|]. repeat split.
Qed.
Lemma type_step ed p o vs d' : wf_row (ed_input ed) -> ed_caret ed = collapsed (mkMinPos p o) -> unwatched (ed_input ed) (mkMinPos p o) -> nodes_replaced (ed_input ed) p o o (map Symbol vs) d' ->
  exists ed', step env ed (OpInsertAtCaret vs) = Ok (ed', OutNone _) /\ ed_input ed' = d' /\ ed_caret ed' = collapsed (mkMinPos p (o + List.length vs)).
Proof.
  intros Hwf Hc Hq Hd. pose proof Hq as (row&Hrow&Ho&_). destruct (at_position Hwf Hc Hrow Ho) as [Hg _].
  destruct (@typing _ env ed _ vs Hg) as (ed'&Hs&Hr&Hc'); [rewrite (calm_quiet Hwf Hc Hq); eauto| |].
  { intros (e&r&m&Ha&_). rewrite (calm_quiet Hwf Hc Hq) in Ha. discriminate Ha. }
  unfold lo, hi in *. cbn [mr_start mr_end mr_row mp_row mp_offset] in *. rewrite Nat.min_id, Nat.max_id in *. exists ed'. split; [exact Hs|]. split; [|exact Hc'].
  destruct Hr as (r1&_&_&R1), Hd as (r2&_&_&R2). pose proof (replaced_get_old R1) as E1. rewrite (replaced_get_old R2) in E1. injection E1 as ->. exact (replaced_unique R1 R2).
Qed.
Lemma right_symbol ed p o s : node_get (ed_input ed) p o = Some (Symbol s) -> goes (env_cfg env) (ed_input ed) (mkMinPos p o) (OpMoveCaret DRight MChar) (mkMinPos p (o + 1)).
Proof. intros H. apply goes_next; [|intros (_&E&_); discriminate E]. rewrite Nat.add_1_r. apply right_step_next. rewrite <- Nat.add_1_r. now apply rs_symbol with (s := s). Qed.
Lemma right_step ed p o s : wf_row (ed_input ed) -> ed_caret ed = collapsed (mkMinPos p o) -> unwatched (ed_input ed) (mkMinPos p o) -> node_get (ed_input ed) p o = Some (Symbol s) ->
  exists ed', step env ed (OpMoveCaret DRight MChar) = Ok (ed', OutNone _) /\ ed_caret ed' = collapsed (mkMinPos p (o + 1)) /\ moved ed ed'.
Proof.
  intros Hwf Hc Hq Hn. destruct (@arrow_goes SyntaxNode env (ed_input ed) (mkMinPos p o) DRight (mkMinPos p (o + 1)) Hwf) as (c&c'&E1&E2&E3&_); [|exact (right_symbol Hn)|].
  { destruct Hq as (row&Hrow&Ho&_). exists row. auto. }
  cbn [step]. unfold move_caret. rewrite (calm_start_autocorrect Hwf Hc Hq). cbn [bind set_autocomplete ed_input ed_caret]. rewrite Hc, E1. cbn [bind]. rewrite E2.
  cbn [bind builder_finish]. rewrite finish_autocorrect_none. cbn [bind]. eexists. split; [reflexivity|]. split; [exact E3|repeat split].
Qed.
Lemma backspace_step ed p o s d' : wf_row (ed_input ed) -> ed_caret ed = collapsed (mkMinPos p (S o)) -> unwatched (ed_input ed) (mkMinPos p (S o)) -> node_get (ed_input ed) p o = Some (Symbol s) ->
  nodes_replaced (ed_input ed) p o (S o) [] d' ->
  exists ed', step env ed (OpRemoveAtCaret RemoveLeft) = Ok (ed', OutNone _) /\ ed_input ed' = d' /\ ed_caret ed' = collapsed (mkMinPos p o).
Proof.
  intros Hwf Hc Hq Hn Hd.
  destruct (@symbol_remove _ env ed _ RemoveLeft HLeft o s Hwf Hc) as (ed'&Hs&Hr&Hc'); [rewrite (calm_quiet Hwf Hc Hq); eauto|reflexivity|reflexivity|exact Hn|].
  exists ed'. split; [exact Hs|]. split; [|exact Hc']. cbn [mp_row mp_offset] in Hr.
  destruct Hr as (r1&_&_&R1), Hd as (r2&_&_&R2). pose proof (replaced_get_old R1) as E1. rewrite (replaced_get_old R2) in E1. injection E1 as ->. exact (replaced_unique R1 R2).
Qed.
Lemma correct_step ed p word n rest d' : let k := List.length word in spells word n -> wf_row (ed_input ed) -> ed_caret ed = collapsed (mkMinPos p (k + k)) ->
  row_get (ed_input ed) p = Some (pad k ++ map Symbol (letter_by_letter word) ++ pad k ++ rest) ->
  nodes_replaced (ed_input ed) p k (k + k) [n] d' ->
  exists ed', step env ed (OpMoveCaret DRight MChar) = Ok (ed', OutNone _) /\ ed_input ed' = d' /\ ed_caret ed' = collapsed (mkMinPos p (k + k + 1)).
Proof.
  intros k Hm Hwf Hc Hrow Hd.
  assert (Lk : List.length (pad k) = k /\ List.length (map Symbol (letter_by_letter word)) = k) by (rewrite pad_length, nodes_length; auto). destruct Lk as [L1 L2].
  assert (Hk : 0 < k) by (destruct Hm as [[-> _]|[-> _]]; unfold k; cbn; lia).
  destruct (@at_position ed (mkMinPos p (k + k)) _ Hwf Hc Hrow) as [Hg Ha]; [cbn [mp_offset]; rewrite !app_length; lia|]. cbn [mp_offset] in Ha.
  assert (Hco : completed env ed (mkMinPos p (k + k)) k (mkRule word [n])).
  { assert (E : rules_matches default_rules (pad k ++ map Symbol (letter_by_letter word) ++ pad k ++ rest) (k + k) 2 = Ok [mkMatch (mkRule word [n]) k k]).
    { clear - Hm. subst k. destruct Hm as [[-> ->]|[-> ->]]; vm_compute; reflexivity. }
    rewrite E in Ha. cbn [bind] in Ha. unfold state_get_autocomplete in Ha. cbn [sort_matches fold_right insert_match] in Ha.
    assert (S : match ed_autocomplete ed with Some last_rule => match position (fun m => rule_eqb (m_rule m) last_rule) [mkMatch (mkRule word [n]) k k] with Some i => i | None => 0 end | None => 0 end = 0).
    { destruct (ed_autocomplete ed) as [r|]; [|reflexivity]. cbn [position m_rule option_map]. destruct (rule_eqb _ _); reflexivity. }
    cbv zeta in Ha. rewrite S in Ha. cbn in Ha. eexists _, _, _. split; [exact Ha|]. split; [reflexivity|]. cbn [m_rule m_rule_match_length m_input_match_length rule_parser].
    split; [|auto]. destruct Hm as [[-> _]|[-> _]]; reflexivity. }
  set (q := mkMinPos p (k + k)) in *. set (t := mkMinPos p (k + k + 1)).
  assert (Hgo : goes (env_cfg env) (ed_input ed) q (OpMoveCaret DRight MChar) t).
  { destruct (List.nth_error (pad k) 0) as [[|s]|] eqn:E0.
    - apply nth_error_In, in_map_iff in E0 as (x&E0&_). discriminate E0.
    - apply right_symbol with (s := s). unfold node_get. rewrite Hrow. rewrite nth_error_app2, nth_error_app2 by lia. rewrite L1, L2. replace (k + k - k - k) with 0 by lia. rewrite nth_error_app1 by lia. exact E0.
    - apply nth_error_None in E0. lia. }
  destruct (proj1 (proj2 (leave_step Hwf Hco Hgo))) as (ed'&Hs&Hr&Hc').
  { split; [|split; [unfold token_start, q; cbn; lia|intros E; exact E]]. intros [_ Hle]. unfold token, range_right in Hle. cbn [mr_row mr_start mr_end] in Hle.
    assert (Hge : pos_le q t) by (apply pos_le_row; lia). assert (E : Nat.max (mp_offset q) (mp_offset q - k) = k + k) by (unfold q; cbn; lia). rewrite E in Hle.
    pose proof (pos_le_antisym Hge Hle) as Ht. apply (f_equal mp_offset) in Ht. cbn in Ht. lia. }
  exists ed'. split; [exact Hs|]. split; [|exact Hc']. unfold q in Hr. cbn [mp_row mp_offset rule_result] in Hr. replace (k + k - k) with k in Hr by lia.
  destruct Hr as (r1&_&_&R1), Hd as (r2&_&_&R2). pose proof (replaced_get_old R1) as E1. rewrite (replaced_get_old R2) in E1. injection E1 as ->. exact (replaced_unique R1 R2).
Qed.
End Steps.
