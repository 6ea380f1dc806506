(** What the editor's operations answer. *)
From Coq Require Import Permutation.
From Verif Require Import Base Str Grid Node Focus Edit Caret Autocomplete Editor Spec SpecAuto SpecEditor SpecMove SpecAnswer BaseFacts
  TreeFacts OrderFacts EditFacts TreeProofs MoveFacts MoveProofs SpecTrack TrackFacts AutoFacts PopupFacts EditorFacts HistoryFacts
  OpFacts SpliceFacts.
Open Scope list_scope.
Open Scope nat_scope.
Set Implicit Arguments.
Unset Strict Implicit.
Section Answers.
Variable SyntaxNode : Type.
Variable env : Env SyntaxNode.
Implicit Type ed : MathEditor SyntaxNode.
Lemma autocomplete_offered ed ed' r : wf_row (ed_input ed) -> get_autocomplete env ed = Ok (ed', r) -> (r <> None <-> offered env ed).
Proof.
  intros Hwf H. split.
  - intros Hr. destruct r as [r|]; [|congruence]. destruct (popup_at Hwf H) as (q&ms&[Gc Go]&Hc&Hp&Hms&Hperm).
    destruct (get_autocomplete_inv H) as (ms0&p0&c&Hst&_). destruct (popup_shown Hst) as (_&_&_&_&m&Hm&_).
    assert (Hin : In m ms) by (eapply Permutation_in; [exact Hperm|eapply nth_error_In; eauto]).
    apply (rules_matches_inv Hms) in Hin as (rule&ms'&Hrule&Hms'&Hin).
    exists (pos_to_minimal q), (fr_row (pos_focus q)), rule, ms'. split; auto. split; [exact (canonical_row Gc)|]. split; auto. split; auto. intros ->. destruct Hin.
  - intros (q&row&rule&ms&Hc&Hrow&Hrule&Hms&Hne) ->. destruct ms as [|m ms]; [congruence|].
    pose proof (rule_matches_inv Hms) as [Ho _].
    destruct (@collapsed_caret (ed_input ed) q) as (p&Gp&Mp&Hcar); auto. { exists row. split; auto. }
    assert (Hprow : fr_row (pos_focus p) = row /\ pos_offset p = mp_offset q).
    { destruct Gp as [Gp _]. apply canonical_row in Gp. rewrite <- Mp in *. cbn in *. split; auto. unfold pos_indices in *. congruence. }
    destruct Hprow as [Hr Hoff]. unfold get_autocomplete in H. rewrite Hc, Hcar in H. cbn [bind c_selection] in H.
    replace (rg_is_collapsed (range_of_pos p)) with true in H by (unfold rg_is_collapsed, range_of_pos; cbn; symmetry; apply Nat.eqb_refl).
    cbv zeta in H. change (pos_focus (rg_start_position (range_of_pos p))) with (pos_focus p) in H. change (pos_offset (rg_start_position (range_of_pos p))) with (pos_offset p) in H.
    rewrite Hr, Hoff in H. apply bind_ok in H as (ms1&Hms1&H). apply bind_ok in H as ([cur res]&Hst&H). inv H.
    destruct (popup_total (ed_autocomplete ed) ms1 (pos_to_minimal (rg_start_position (range_of_pos p)))) as (cur'&res&Hst'&Hnone). rewrite Hst in Hst'. inv Hst'.
    assert (ms1 = []) as -> by (apply Hnone; reflexivity). apply (rules_matches_inv Hms1 m). exists rule, (m :: ms). split; auto. split; auto. now left.
Qed.
Lemma popup_answer ed op ed' out : wf_row (ed_input ed) -> In op [OpOpenAutocomplete; OpFinishAutocomplete true; OpMoveInAutocomplete VUp; OpMoveInAutocomplete VDown] ->
  step env ed op = Ok (ed', out) -> (out = OutNone _ /\ offered env ed) \/ (out = OutNo _ /\ ~ offered env ed).
Proof.
  intros Hwf Hop H.
  assert (K : exists ed1 r, get_autocomplete env ed = Ok (ed1, r) /\ out = match r with Some _ => OutNone _ | None => OutNo _ end).
  { destruct Hop as [<-|[<-|[<-|[<-|[]]]]]; cbn [step] in H; apply bind_ok in H as ([ed1 b]&E&H); inv H.
    - unfold open_autocomplete in E. apply bind_ok in E as ([ed2 r]&E&H). inv H. do 2 eexists. split; [exact E|]. now destruct r.
    - unfold finish_autocomplete in E. cbn [negb] in E. apply bind_ok in E as ([ed2 r]&E&H). do 2 eexists. split; [exact E|]. destruct r; [|now inv H]. apply bind_ok in H as (?&_&H). cbv zeta in H. apply bind_ok in H as (?&_&H). now inv H.
    - unfold move_in_autocomplete in E. apply bind_ok in E as ([ed2 r]&E&H). do 2 eexists. split; [exact E|]. destruct r; [|now inv H]. apply bind_ok in H as (?&_&H). now inv H.
    - unfold move_in_autocomplete in E. apply bind_ok in E as ([ed2 r]&E&H). do 2 eexists. split; [exact E|]. destruct r; [|now inv H]. apply bind_ok in H as (?&_&H). now inv H. }
  destruct K as (ed1&r&E&->). pose proof (autocomplete_offered Hwf E) as K. destruct r; [left|right]; (split; [reflexivity|]); [apply K; discriminate|]. intros O. now apply K in O.
Qed.
Lemma nothing_done ed op ed' : step env ed op = Ok (ed', OutNo _) -> exists a, ed' = set_autocomplete ed a.
Proof.
  assert (Hs : exists a, ed = set_autocomplete ed a) by (exists (ed_autocomplete ed); destruct ed; reflexivity).
  destruct op; cbn [step]; intros H; try (apply bind_ok in H as (x&Ex&H)); try destruct x as [ed1 b]; try discriminate H; try (destruct b; [discriminate H|]); inv H; auto.
  - unfold select_with_caret in Ex. apply bind_ok in Ex as ([ed2 a]&E&H). apply start_autocorrect_only in E as (y&->). apply bind_ok in H as (c&_&H). destruct (c_selection c); [|discriminate H]. apply bind_ok in H as (e&_&H). destruct e; [|inv H; eauto].
    apply bind_ok in H as ([? ?]&_&H). apply bind_ok in H as (?&_&H). discriminate H.
  - unfold editor_remove_at_caret in Ex. apply bind_ok in Ex as ([ed2 a]&E&H). apply start_autocorrect_only in E as (y&->). apply bind_ok in H as (c&_&H). destruct (c_selection c); [|discriminate H]. apply bind_ok in H as (e&_&H). destruct e as [[? ?]|]; [|inv H; eauto].
    apply bind_ok in H as ([? ?]&_&H). apply bind_ok in H as (?&_&H). discriminate H.
  - unfold undo in Ex. destruct (undo_undo _ _) as [u [a|]]; [|inv Ex; auto]. apply bind_ok in Ex as (?&_&Ex). discriminate Ex.
  - unfold redo in Ex. destruct (undo_redo _) as [u [a|]]; [|inv Ex; auto]. apply bind_ok in Ex as (?&_&Ex). discriminate Ex.
  - unfold paste in Ex. apply bind_ok in Ex as ([ed2 a]&E&H). apply start_autocorrect_only in E as (y&->). destruct (negb _); [discriminate H|]. destruct (env_deserialize _ _); [|inv H; eauto]. apply bind_ok in H as ([? [?|]]&_&H); [|discriminate H]. apply bind_ok in H as (?&_&H). discriminate H.
  - unfold open_autocomplete in Ex. apply bind_ok in Ex as ([ed2 a]&E&H). apply get_autocomplete_only in E as (y&->). inv H. eauto.
  - unfold finish_autocomplete in Ex. destruct (negb _); [inv Ex; auto|]. apply bind_ok in Ex as ([ed2 r]&E&H). apply get_autocomplete_only in E as (y&->). destruct r; [|inv H; eauto]. apply bind_ok in H as (?&_&H). cbv zeta in H. apply bind_ok in H as (?&_&H). discriminate H.
  - unfold move_in_autocomplete in Ex. apply bind_ok in Ex as ([ed2 r]&E&H). apply get_autocomplete_only in E as (y&->). destruct r; [|inv H; eauto]. apply bind_ok in H as (?&_&H). discriminate H.
Qed.
Lemma history_answer ed : (forall ed' out, step env ed OpUndo = Ok (ed', out) -> out = if can_undo (ed_undo ed) then OutNone _ else OutNo _) /\
  (forall ed' out, step env ed OpRedo = Ok (ed', out) -> out = if can_redo (ed_undo ed) then OutNone _ else OutNo _).
Proof.
  split; intros ed' out H; cbn [step] in H; apply bind_ok in H as ([ed1 b]&E&H); inv H; unfold undo, redo in E; unfold undo_undo, undo_redo in E; unfold can_undo, can_redo.
  - destruct (undo_stack _); [now inv E|]. apply bind_ok in E as (?&_&E). now inv E.
  - destruct (redo_stack _); [now inv E|]. apply bind_ok in E as (?&_&E). now inv E.
Qed.
Lemma paste_answer ed data ed' out : step env ed (OpPaste data true) = Ok (ed', out) -> out = match env_deserialize env data with Some _ => OutNone _ | None => OutNo _ end.
Proof.
  cbn [step]. intros H. apply bind_ok in H as ([ed1 b]&E&H). inv H. unfold paste in E. apply bind_ok in E as ([ed2 a]&_&E). cbn [negb] in E. destruct (env_deserialize _ _); [|now inv E]. apply bind_ok in E as ([? [?|]]&_&E); [|now inv E]. apply bind_ok in E as (?&_&E). now inv E.
Qed.
End Answers.
