(** Undoing any event in a page (C76, all events). *)
From Coq Require Import String.
From Verif Require Import Base Str Grid Node Focus Edit Caret Autocomplete Editor Rules NameMap Syntax Pratt Grammar SyntaxFind Render Layout Json FromMathML
  Spec SpecSyntax SpecMove SpecEditor SpecText SpecSafety SpecRender SpecDom Component SpecComponent SpecPage BaseFacts TreeFacts EditFacts EditorFacts RenderFacts HistoryFacts SafetyFacts TextFacts TypingFacts Samples
  PropsAuto PropsEditor PropsRender PropsSafety PropsImport ComponentFacts ComponentProofs ComponentCheck PropsComponent PageFacts PropsPage.
Open Scope list_scope.
Open Scope nat_scope.

Section Undo.
Variable cfg : Cfg.
Variable xs xc : N -> bool.
Variable normalize : str -> str.
Variable segment : str -> list str.
Notation env := (page cfg xs xc).
Notation Editor := (MathEditor SyntaxNode).
Notation dispatch := (dispatch env default_renderers normalize segment).
Notation run_events := (run_events env default_renderers normalize segment).
(** Proof vocabulary: between the documents [d] and [d'], with [a] to be undone and [b] to be redone *)
Definition between (d d' : InputRow) (stk : list CaretEdit) (a b : list CaretEdit) (ed : Editor) : Prop :=
  committed cfg d a (ed_input ed) /\ committed cfg (ed_input ed) b d' /\ undo_stack (ed_undo ed) = rev a ++ stk /\ exists r, redo_stack (ed_undo ed) = b ++ r.
Lemma between_query d d' stk a b (ed : Editor) op ed' out : op = OpGetCaret \/ op = OpGetSyntaxTree -> between d d' stk a b ed -> step env ed op = Ok (ed', out) -> between d d' stk a b ed'.
Proof.
  intros [->| ->] H E; cbn [step] in E.
  - apply bind_ok in E as (m&_&E). inversion E; subst. exact H.
  - apply bind_ok in E as ([ed1 t]&Ht&E). inversion E; subst. apply parse_step in Ht as (p&->). exact H.
Qed.
Lemma key_moves k op (P P' : Editor -> Prop) c : (k = KeyUndo /\ op = OpUndo \/ k = KeyRedo /\ op = OpRedo) ->
  (forall ed op ed' out, op = OpGetCaret \/ op = OpGetSyntaxTree -> P' ed -> step env ed op = Ok (ed', out) -> P' ed') ->
  (forall ed ed' out, P ed -> step env ed op = Ok (ed', out) -> P' ed') -> on_editor P c -> on_editor P' (fst (dispatch (EvKey k) c)).
Proof.
  intros Hk Hq Hs H. assert (E : dispatch (EvKey k) c = handle (call env op) (fun _ => update_input env default_renderers) c).
  { destruct Hk as [[-> ->]|[-> ->]]; cbn [Component.dispatch]; unfold on_key; rewrite handle_assoc; reflexivity. }
  rewrite E. assert (H1 : on_editor P' (fst (call env op c))).
  { unfold call. destruct (co_editor c) as [ed|] eqn:Ec; [|intros ed Ed; cbn in Ed; congruence]. destruct (step env ed op) as [[ed' out]|e] eqn:Es; intros ed2 E2; cbn in E2; [|discriminate]. inversion E2; subst. exact (Hs _ _ _ (H _ Ec) Es). }
  unfold handle. destruct (call env op c) as [c1 [a|e]]; cbn [fst] in *; [|exact H1]. exact (@keeps_update_input _ _ _ Hq c1 H1).
Qed.
Lemma undo_key d d' stk a ce b c : on_editor (between d d' stk (a ++ [ce]) b) c -> on_editor (between d d' stk a (ce :: b)) (fst (dispatch (EvKey KeyUndo) c)).
Proof.
  apply (@key_moves KeyUndo OpUndo); [auto|exact (@between_query d d' stk a (ce :: b))|]. intros ed ed' out (C1&C2&U&(r&R)) E.
  rewrite rev_app_distr in U. cbn [rev app] in U. destruct (committed_app_inv (env := env) C1) as (d1&C3&C4). inversion C4 as [|? ? d2 ? ? K1 K2]; subst. inversion K2; subst.
  cbn [step] in E. unfold undo, undo_undo in E. rewrite U in E. unfold apply_action in E. cbn [set_undo ed_input caret_edit_inverse ce_edits] in E. change (env_cfg env) with cfg in E. pose proof (chain_inverse K1) as X; change (env_cfg env) with cfg in X; rewrite X in E. cbn [bind] in E. inversion E; subst.
  unfold between. cbn. split; [exact C3|]. split; [econstructor; eauto|]. split; [reflexivity|]. exists r. now rewrite R.
Qed.
Lemma redo_key d d' stk a ce b c : on_editor (between d d' stk a (ce :: b)) c -> on_editor (between d d' stk (a ++ [ce]) b) (fst (dispatch (EvKey KeyRedo) c)).
Proof.
  apply (@key_moves KeyRedo OpRedo); [auto|exact (@between_query d d' stk (a ++ [ce]) b)|]. intros ed ed' out (C1&C2&U&(r&R)) E.
  inversion C2 as [|? ? d2 ? ? K1 K2]; subst. cbn [app] in R.
  cbn [step] in E. unfold redo, undo_redo in E. rewrite R in E. unfold apply_action in E. cbn [set_undo ed_input] in E. change (env_cfg env) with cfg in E. rewrite (chain_apply K1) in E. cbn [bind] in E. inversion E; subst.
  unfold between. cbn. split; [eapply committed_app; [exact C1|]; econstructor; [exact K1|constructor]|]. split; [exact K2|]. split; [rewrite rev_app_distr; cbn; now rewrite U|]. now exists r.
Qed.
Lemma undo_keys_all d d' stk a : forall b c, on_editor (between d d' stk a b) c -> on_editor (between d d' stk [] (a ++ b)) (run_events c (repeat (EvKey KeyUndo) (length a))).
Proof.
  induction a as [|ce a IH] using rev_ind; intros b c H; [exact H|]. rewrite app_length, Nat.add_comm. cbn [length Nat.add repeat Component.run_events]. rewrite <- app_assoc. apply IH. now apply undo_key.
Qed.
Lemma redo_keys_all d d' stk b : forall a c, on_editor (between d d' stk a b) c -> on_editor (between d d' stk (a ++ b) []) (run_events c (repeat (EvKey KeyRedo) (length b))).
Proof.
  induction b as [|ce b IH]; intros a c H; [now rewrite app_nil_r|]. cbn [length repeat Component.run_events]. replace (a ++ ce :: b) with ((a ++ [ce]) ++ b) by now rewrite <- app_assoc. apply IH. now apply redo_key.
Qed.
End Undo.

(** * C76, for all states of a page and all events *)
(** Whatever happened in the page before, whether handlers failed or not: after any event that is not the undo or the redo key, there
    is a number of presses of the undo key, at most the number of steps of the event, after which the document is the one from before
    the event, and as many presses of the redo key give the document from after the event. The only exception is that the
    editor is lost, as in C62. *)
Theorem C76_always : forall cfg xs xc normalize segment c e, let env := page cfg xs xc in undo_keys e = false ->
  let c1 := fst (dispatch env default_renderers normalize segment e c) in
  exists n, n <= steps_of c e /\
    let c2 := run_events env default_renderers normalize segment c1 (repeat (EvKey KeyUndo) n) in
    let c3 := run_events env default_renderers normalize segment c2 (repeat (EvKey KeyRedo) n) in
    (co_editor c2 = None \/ document c2 = document c) /\ (co_editor c3 = None \/ document c3 = document c1).
Proof.
  intros cfg xs xc normalize segment c e env He c1. subst env.
  assert (Lost : forall l c, co_editor c = None -> co_editor (run_events (page cfg xs xc) default_renderers normalize segment c l) = None).
  { intros l. induction l as [|e' l IH]; intros c' E; [exact E|]. cbn [run_events]. apply IH.
    assert (D : on_editor (fun _ => False) c') by (intros ed Ed; congruence). destruct (co_editor (fst (dispatch (page cfg xs xc) default_renderers normalize segment e' c'))) as [ed|] eqn:Ed; [|reflexivity].
    exfalso. refine (@keeps_dispatch (page cfg xs xc) default_renderers normalize segment (fun _ => False) _ e' c' D ed Ed). tauto. }
  destruct (co_editor c1) as [ed1|] eqn:E1.
  2: { exists 0. split; [lia|]. cbn. auto. }
  destruct (co_editor c) as [ed|] eqn:E.
  2: { exfalso. pose proof (Lost [e] c E) as L. cbn [run_events] in L. fold c1 in L. congruence. }
  assert (H0 : on_editor (since cfg (ed_input ed) (undo_stack (ed_undo ed)) 0) c). { intros ed0 E0. rewrite E in E0. inversion E0; subst. exists []. repeat split; auto. constructor. }
  pose proof (@event_since cfg xs xc normalize segment e c _ _ He H0) as H1. destruct (H1 _ E1) as (ces&L&C&U). exists (length ces). split; [exact L|]. intros c2 c3.
  assert (B1 : on_editor (between cfg (ed_input ed) (ed_input ed1) (undo_stack (ed_undo ed)) ces []) c1).
  { intros ed0 E0. rewrite E1 in E0. inversion E0; subst. split; [exact C|]. split; [constructor|]. split; [exact U|]. now exists (redo_stack (ed_undo ed0)). }
  pose proof (@undo_keys_all cfg xs xc normalize segment _ _ _ _ _ _ B1) as B2. fold c2 in B2. rewrite app_nil_r in B2.
  pose proof (@redo_keys_all cfg xs xc normalize segment _ _ _ _ _ _ B2) as B3. fold c3 in B3. cbn [app] in B3. split.
  - destruct (co_editor c2) as [ed2|] eqn:E2; [right|now left]. destruct (B2 _ E2) as (K&_). inversion K; subst. unfold document. rewrite E2, E. cbn. congruence.
  - destruct (co_editor c3) as [ed3|] eqn:E3; [right|now left]. destruct (B3 _ E3) as (_&K&_). inversion K; subst. unfold document. rewrite E3, E1. cbn. congruence.
Qed.
Print Assumptions C76_always.
(** The timer types a space behind x^2 and then throws, as that cannot be drawn (C61). One undo takes the space away, one redo brings it back. *)
Example C76_always_case : forall cfg, let l := at_end ++ map EvBeforeInput inputs in throws cfg l EvTimer /\ undo_keys EvTimer = false /\
  doc_after cfg l = Some [sym "x"; sup [sym "2"]] /\ doc_after cfg (l ++ [EvTimer]) = Some [sym "x"; sup [sym "2"]; sym " "] /\
  doc_after cfg (l ++ [EvTimer; EvKey KeyUndo]) = doc_after cfg l /\ doc_after cfg (l ++ [EvTimer; EvKey KeyUndo; EvKey KeyRedo]) = doc_after cfg (l ++ [EvTimer]).
Proof. intros cfg l. both_profiles; (split; [vm_compute; discriminate|]; repeat split; vm_compute; reflexivity). Qed.
