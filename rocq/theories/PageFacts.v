(** What users do in a page, from the events to the document. *)
From Coq Require Import String.
From Verif Require Import Base Str Grid Node Focus Edit Caret Autocomplete Editor Rules NameMap Syntax Pratt Grammar SyntaxFind Render Layout Json FromMathML
  Spec SpecSyntax SpecMove SpecEditor SpecSafety SpecText SpecRender SpecDom SpecView SpecClick Component SpecComponent SpecPage BaseFacts TreeFacts EditFacts MoveFacts OrderFacts ParseFacts ParseTotal
  GrammarFacts FindFacts RenderFacts EditorFacts HistoryFacts PopupFacts OpFacts SpliceFacts TypingFacts SafetyFacts SafetyProofs TextFacts PropsRender PropsSafety PropsEditor ComponentFacts ComponentProofs.
Open Scope list_scope.
Open Scope nat_scope.
Set Implicit Arguments.
Unset Strict Implicit.

Section Page.
Variable cfg : Cfg.
Variable xs xc : N -> bool.
Variable rs : Renderers.
Variable normalize : str -> str.
Variable segment : str -> list str.
Notation env := (page cfg xs xc).
Notation Editor := (MathEditor SyntaxNode).
Notation dispatch := (dispatch env rs normalize segment).
Notation run_events := (run_events env rs normalize segment).
Notation update_input := (update_input env rs).
Notation render_carets := (render_carets env).
Notation do_task := (do_task env rs segment).
Notation run_tasks := (run_tasks env rs segment).
Notation call := (call env).

(** ** What drawing leaves alone *)
Definition session (c : Component) := (co_pointer_down c, co_tasks c, co_connected c, co_clipboard c).
Lemma session_call s op : keeps (fun c => session c = s) (call op).
Proof. intros c H. unfold Component.call. destruct (co_editor c) as [ed|]; [|exact H]. destruct (step env ed op) as [[ed' out]|k]; exact H. Qed.
Lemma session_modify s f : (forall c, session (f c) = session c) -> keeps (fun c => session c = s) (modify f).
Proof. intros H c Hc. cbn. now rewrite H. Qed.
Ltac sessions := repeat match goal with
  | |- keeps _ (handle _ _) => apply keeps_handle; [|intros]
  | |- keeps _ (Component.call _ _) => apply session_call
  | |- keeps _ (ret _) => apply keeps_ret
  | |- keeps _ (lift _) => apply keeps_lift
  | |- keeps _ get => apply keeps_get
  | |- keeps _ (modify _) => apply session_modify; reflexivity
  | |- keeps _ match ?x with _ => _ end => destruct x
  end.
Lemma session_carets s : keeps (fun c => session c = s) render_carets.
Proof. unfold Component.render_carets, call_get_caret. sessions. Qed.
Lemma session_update s : keeps (fun c => session c = s) update_input.
Proof. unfold Component.update_input, call_get_syntax_tree. sessions; apply session_carets. Qed.
Lemma same_carets c : session (fst (render_carets c)) = session c.
Proof. apply (@session_carets (session c)). reflexivity. Qed.
Lemma same_update c : session (fst (update_input c)) = session c.
Proof. apply (@session_update (session c)). reflexivity. Qed.

(** A document that is well-formed can be parsed, and a valid caret can be shown. *)
Definition lively (ed : Editor) : Prop := wf_row (ed_input ed) /\ valid_caret (ed_input ed) (ed_caret ed).
Lemma lively_caret ed : lively ed -> exists sel, get_caret ed = Ok sel.
Proof. intros [Hwf [V1 V2]]. destruct (caret_from_minimal_ok Hwf V1 V2) as (c&Hc&_). unfold get_caret. rewrite Hc. cbn. eauto. Qed.
Lemma lively_parse ed : lively ed -> exists t, get_syntax_tree env ed = Ok (set_parsed ed (Some t), t).
Proof.
  intros [Hwf _]. destruct (parse_gtree (@default_no_empty_tokens xs xc) (@default_all_containers xs xc) Hwf) as (t&Et&_). unfold get_syntax_tree. destruct (ed_parsed ed) as [t0|] eqn:Ep.
  - exists t0. destruct ed. cbn in *. now rewrite Ep.
  - exists t. cbn [env_parse page]. rewrite Et. reflexivity.
Qed.
(** Drawing keeps the editor, even if it throws. *)
Lemma settled c ed : co_editor c = Some ed -> lively ed -> exists t, co_editor (fst (update_input c)) = Some (set_parsed ed (Some t)).
Proof.
  intros E L. destruct (lively_parse L) as (t&Et). destruct (lively_caret L) as (sel&Es). exists t. eapply update_alive; eauto.
Qed.
Lemma settled_carets c ed : co_editor c = Some ed -> lively ed -> co_editor (fst (render_carets c)) = Some ed.
Proof. intros E L. destruct (lively_caret L) as (sel&Es). eapply carets_alive; eauto. Qed.
(** A handler of one operation, after which everything is drawn. *)
Lemma call_eq op c ed ed' out : co_editor c = Some ed -> step env ed op = Ok (ed', out) -> call op c = (set_editor (Some ed') c, Ok out).
Proof. intros E H. unfold Component.call. now rewrite E, H. Qed.
Lemma then_update op c ed ed' out : co_editor c = Some ed -> step env ed op = Ok (ed', out) -> lively ed' ->
  exists t, co_editor (fst (handle (call op) (fun _ => update_input) c)) = Some (set_parsed ed' (Some t)) /\
    session (fst (handle (call op) (fun _ => update_input) c)) = session c.
Proof.
  intros E H L. rewrite (handle_eq _ (call_eq E H)). destruct (@settled (set_editor (Some ed') c) ed' eq_refl L) as (t&Et). exists t. split; [exact Et|]. now rewrite same_update.
Qed.

(** ** Copying, cutting, pasting *)
Lemma copy_event c ed m : co_editor c = Some ed -> get_caret ed = Ok (MSelRow m) ->
  exists vs, nodes_in (ed_input ed) m vs /\ dispatch (EvCopy true) c = (set_clipboard (Some (serialize_input_nodes vs)) c, Ok tt).
Proof.
  intros E H. destruct (copied env H) as (vs&Hv&Hc). exists vs. split; [exact Hv|]. cbn [Component.dispatch]. unfold handle_copy. rewrite (handle_eq _ (call_eq E Hc)), set_editor_same by exact E. reflexivity.
Qed.
Lemma replaced_lively doc p l r vs (ed : Editor) o : wf_row doc -> wf_row vs -> nodes_replaced doc p l r vs (ed_input ed) -> ed_caret ed = collapsed (mkMinPos p o) -> o <= l + List.length vs -> lively ed.
Proof.
  intros Hw Hv R Hc Ho. split; [exact (nodes_replaced_wf R Hw Hv)|]. rewrite Hc. split; cbn; exact (nodes_replaced_valid R Ho).
Qed.
Lemma cut_event c ed m : co_editor c = Some ed -> wf_row (ed_input ed) -> get_caret ed = Ok (MSelRow m) -> mr_start m <> mr_end m ->
  exists vs ed', nodes_in (ed_input ed) m vs /\ session (fst (dispatch (EvCut true) c)) = (co_pointer_down c, co_tasks c, co_connected c, Some (serialize_input_nodes vs)) /\
    co_editor (fst (dispatch (EvCut true) c)) = Some ed' /\
    nodes_replaced (ed_input ed) (mr_row m) (lo m) (hi m) [] (ed_input ed') /\ ed_caret ed' = collapsed (mkMinPos (mr_row m) (lo m)).
Proof.
  intros E Hwf H L. destruct (copied env H) as (vs&Hv&Hcopy). destruct (remove_selection env RemoveRange H L) as (ed1&Hs&R&Hc). exists vs.
  cbn [Component.dispatch]. unfold handle_copy. rewrite handle_assoc, (handle_eq _ (call_eq E Hcopy)), set_editor_same, handle_modify by exact E.
  destruct (@then_update (OpRemoveAtCaret RemoveRange) (set_clipboard (Some (serialize_input_nodes vs)) c) ed ed1 _ E Hs) as (t&Et&Es).
  - eapply replaced_lively with (vs := []); [exact Hwf|intros n []|exact R|exact Hc|cbn; lia].
  - exists (set_parsed ed1 (Some t)). split; [exact Hv|]. split; [exact Es|]. split; [exact Et|]. split; [exact R|exact Hc].
Qed.
(** What was removed, inserted where it was, gives what there was. *)
Lemma put_back doc m vs doc1 doc2 : nodes_in doc m vs -> nodes_replaced doc (mr_row m) (lo m) (hi m) [] doc1 -> nodes_replaced doc1 (mr_row m) (lo m) (lo m) vs doc2 -> doc2 = doc.
Proof.
  intros (row&Hr&Hh&->) (row1&L1&L2&R1) (row2&_&L4&R2). pose proof (replaced_get_old R1) as G1. rewrite Hr in G1. inv G1.
  pose proof (replaced_get_new R1) as G2. rewrite (replaced_get_old R2) in G2. inv G2. cbn [app] in *.
  assert (Ho : List.length (firstn (lo m) row1) = lo m) by (rewrite firstn_length; lia).
  rewrite firstn_app, firstn_firstn, Ho, Nat.sub_diag, Nat.min_id in R2. cbn [firstn] in R2. rewrite app_nil_r in R2.
  rewrite skipn_app, Ho, Nat.sub_diag in R2. cbn [skipn] in R2. rewrite (skipn_all2 (firstn (lo m) row1)) in R2 by lia. cbn [app] in R2.
  assert (Er : firstn (lo m) row1 ++ firstn (hi m - lo m) (skipn (lo m) row1) ++ skipn (hi m) row1 = row1).
  { replace (skipn (hi m) row1) with (skipn (hi m - lo m) (skipn (lo m) row1)); [now rewrite !firstn_skipn|]. clear - L1. revert row1 L1. generalize (hi m), (lo m). intros h l. revert h.
    induction l as [|l IH]; intros h row1 L; [now rewrite Nat.sub_0_r|]. destruct h as [|h]; [lia|]. destruct row1 as [|n row1]; [now rewrite !skipn_nil|]. cbn [skipn Nat.sub]. apply IH. lia. }
  rewrite Er in R2. exact (replaced_unique R2 (replaced_sym R1)).
Qed.
(** The matcher does not panic in documents without empty symbols. *)
Lemma completions_ok (ed : Editor) : proper nonempty (ed_input ed) -> valid_caret (ed_input ed) (ed_caret ed) -> exists x, get_autocomplete env ed = Ok x.
Proof.
  intros Hp Hc. set (ed0 := mkEditor (ed_input ed) None (ed_caret ed) None (ed_autocomplete ed) undo_new : Editor).
  assert (S : sound env nonempty ed0) by (split; [exact Hp|exact Hc|constructor|constructor]).
  destruct (autocomplete_ok S (fun s h => h) (proj1 C20_default_rules)) as ([ed1 r]&H). unfold get_autocomplete in *. cbn [ed0 ed_input ed_caret ed_autocomplete] in H.
  apply bind_ok in H as (c&Hc'&H). rewrite Hc'. cbn [bind]. destruct (c_selection c) as [range|g]; [|eauto]. destruct (rg_is_collapsed range); [|eauto]. cbv zeta in *.
  apply bind_ok in H as (ms&Hms&H). rewrite Hms. cbn [bind]. apply bind_ok in H as ([cur res]&Hst&H). rewrite Hst. cbn. eauto.
Qed.
Lemma paste_event c ed m text other vs : co_editor c = Some ed -> lively ed -> get_caret ed = Ok (MSelRow m) -> (exists x, get_autocomplete env ed = Ok x) ->
  text <> [] -> deserialize_input_nodes 4294967295 text = Some vs -> wf_row vs ->
  exists ed', co_editor (fst (dispatch (EvPaste (Some (text, other))) c)) = Some ed' /\ session (fst (dispatch (EvPaste (Some (text, other))) c)) = session c /\
    nodes_replaced (ed_input ed) (mr_row m) (lo m) (hi m) vs (ed_input ed') /\ ed_caret ed' = collapsed (mkMinPos (mr_row m) (lo m + List.length vs)).
Proof.
  intros E [Hwf Hval] Hc Ha Hne Hd Hvs. destruct (@pasted_wf _ env ed m text vs Hc Ha Hwf Hvs Hd) as (ed1&ce&Hs&R&Hc1&_). cbn [Component.dispatch]. unfold call_paste.
  destruct text as [|n text]; [contradiction|]. rewrite handle_assoc, (handle_eq _ (call_eq E Hs)), handle_ret.
  destruct (@settled (set_editor (Some ed1) c) ed1 eq_refl) as (t&Et).
  - eapply replaced_lively; [exact Hwf|exact Hvs|exact R|exact Hc1|lia].
  - exists (set_parsed ed1 (Some t)). split; [exact Et|]. split; [now rewrite same_update|]. split; [exact R|exact Hc1].
Qed.
Lemma text_nonempty nodes : serialize_input_nodes nodes <> [].
Proof. discriminate. Qed.
Lemma caret_at (ed : Editor) q : wf_row (ed_input ed) -> valid_pos (ed_input ed) q -> ed_caret ed = collapsed q -> get_caret ed = Ok (MSelRow (mkMinRange (mp_row q) (mp_offset q) (mp_offset q))).
Proof.
  intros Hwf V Hc. destruct (@collapsed_caret (ed_input ed) q Hwf V) as (q'&G&Eq&Ec). unfold get_caret. rewrite Hc, Ec. cbn. rewrite <- Eq. reflexivity.
Qed.
Lemma shared_same p : get_shared p p = p.
Proof. induction p as [|x p IH]; [reflexivity|]. cbn. replace (rowindex_eqb x x) with true by (symmetry; now apply rowindex_eqb_eq). now rewrite IH. Qed.
Lemma caret_between (ed : Editor) : wf_row (ed_input ed) -> valid_pos (ed_input ed) (mc_start (ed_caret ed)) -> valid_pos (ed_input ed) (mc_end (ed_caret ed)) ->
  mp_row (mc_start (ed_caret ed)) = mp_row (mc_end (ed_caret ed)) ->
  get_caret ed = Ok (MSelRow (mkMinRange (mp_row (mc_start (ed_caret ed))) (mp_offset (mc_start (ed_caret ed))) (mp_offset (mc_end (ed_caret ed))))).
Proof.
  intros Hwf V1 V2 Hr. destruct (caret_from_minimal_ok Hwf V1 V2) as (c&Hc&_&_&_&Hsel). unfold get_caret. rewrite Hc. cbn [bind]. destruct (c_selection c) as [r|r]; cbn [sel_to_minimal].
  - destruct Hsel as (_&_&Hs). rewrite Hs. unfold OrderFacts.span. rewrite <- Hr, shared_same. rewrite (proj2 (nth_error_None _ _) (Nat.le_refl _)). reflexivity.
  - destruct Hsel as (p&i&g&j&j'&(_&Hj&(q1&P1)&(q2&P2))&_). exfalso. rewrite Hr, P2, <- !app_assoc in P1. apply app_inv_head in P1. cbn in P1. inv P1. now apply Hj.
Qed.
Lemma lo_same p i : lo (mkMinRange p i i) = i. Proof. apply Nat.min_id. Qed.
Lemma hi_same p i : hi (mkMinRange p i i) = i. Proof. apply Nat.max_id. Qed.
Lemma cut_paste c ed m vs other : co_editor c = Some ed -> proper nonempty (ed_input ed) -> get_caret ed = Ok (MSelRow m) -> mr_start m <> mr_end m ->
  nodes_in (ed_input ed) m vs -> fits_row 4294967295 vs -> row_nesting vs <= 20 ->
  exists text, co_clipboard (fst (dispatch (EvCut true) c)) = Some text /\
  exists ed', co_editor (run_events c [EvCut true; EvPaste (Some (text, other))]) = Some ed' /\ ed_input ed' = ed_input ed /\ ed_caret ed' = collapsed (mkMinPos (mr_row m) (hi m)).
Proof.
  intros E Hp Hc L Hv Hf Hn. pose proof (proj1 Hp) as Hwf. destruct (cut_event E Hwf Hc L) as (vs'&ed1&Hv'&Hs&E1&R1&Hc1). rewrite (nodes_in_fun Hv' Hv) in Hs. exists (serialize_input_nodes vs).
  split; [now apply (f_equal snd) in Hs|]. cbn [Component.run_events]. set (c1 := fst (dispatch (EvCut true) c)) in *.
  assert (Hwv : wf_row vs) by exact (nodes_in_wf Hwf Hv). assert (Hp1 : proper nonempty (ed_input ed1)) by (eapply proper_nodes_replaced; [exact R1|exact Hp|apply proper_nil]).
  assert (V1 : valid_pos (ed_input ed1) (mkMinPos (mr_row m) (lo m))) by (apply (nodes_replaced_valid R1); lia).
  assert (L1 : lively ed1) by (split; [apply Hp1|rewrite Hc1; split; exact V1]).
  destruct (@paste_event c1 ed1 _ (serialize_input_nodes vs) other vs E1 L1 (caret_at (proj1 L1) V1 Hc1)) as (ed2&E2&_&R2&Hc2); auto.
  - apply completions_ok; [exact Hp1|apply L1].
  - apply text_nonempty.
  - now apply deserialize_shallow.
  - exists ed2. split; [exact E2|]. rewrite lo_same, hi_same in R2. rewrite lo_same in Hc2. cbn [mr_row mp_row mp_offset] in *. split; [exact (put_back Hv R1 R2)|].
    rewrite Hc2. do 2 f_equal.
    destruct Hv as (row&_&Hh&->). rewrite firstn_length, skipn_length. unfold lo, hi in *. lia.
Qed.

(** ** Typing, undoing and redoing *)
Lemma typing_advanced (ed : Editor) m vs : wf_row (ed_input ed) -> get_caret ed = Ok (MSelRow m) -> (exists x, get_autocomplete env ed = Ok x) ->
  exists ed' ce, step env ed (OpInsertAtCaret vs) = Ok (ed', OutNone _) /\
    nodes_replaced (ed_input ed) (mr_row m) (lo m) (hi m) (map Symbol vs) (ed_input ed') /\
    ed_caret ed' = collapsed (mkMinPos (mr_row m) (lo m + List.length vs)) /\
    advanced env ed [ce] ed' /\ ce_after ce = ed_caret ed' /\ ce_before ce = ed_caret ed.
Proof.
  intros Hwf H [[ed1 r] Hg]. destruct (start_autocorrect_ok Hg) as (a&Ha&_).
  apply get_autocomplete_only in Hg as (x&->). cbn [step]. unfold insert_at_caret. rewrite Ha. cbn [bind].
  destruct (insert_settles Hwf (wf_symbols (vs := vs)) H Ha) as (ed2&ce&Hi&Hfin&Hrep&Hc&A). rewrite Hi. cbn [bind].
  rewrite Hfin. cbn [bind]. rewrite map_length in Hc. exists ed2, ce. auto.
Qed.
Lemma type_event c ed m data : co_editor c = Some ed -> lively ed -> co_tasks c = [] -> get_caret ed = Ok (MSelRow m) -> (exists x, get_autocomplete env ed = Ok x) ->
  exists ed' ce, co_editor (run_events c (type_events data)) = Some ed' /\ session (run_events c (type_events data)) = session c /\
    nodes_replaced (ed_input ed) (mr_row m) (lo m) (hi m) (map Symbol (segment data)) (ed_input ed') /\
    ed_caret ed' = collapsed (mkMinPos (mr_row m) (lo m + List.length (segment data))) /\
    committed cfg (ed_input ed) [ce] (ed_input ed') /\ undo_stack (ed_undo ed') = ce :: undo_stack (ed_undo ed) /\ ce_after ce = ed_caret ed' /\ ce_before ce = ed_caret ed.
Proof.
  intros E [Hwf Hval] Ht Hc Ha. destruct (typing_advanced (segment data) Hwf Hc Ha) as (ed1&ce&Hs&R&Hc1&A&Ha1&Hb1).
  assert (L1 : lively ed1) by (eapply replaced_lively; [exact Hwf|apply wf_symbols|exact R|exact Hc1|rewrite map_length; lia]).
  assert (Er : run_events c (type_events data) = fst (handle (handle (call (OpInsertAtCaret (segment data))) (fun _ => update_input)) (fun _ => ret tt) (set_tasks [] (set_tasks [InsertText (Some data)] c)))).
  { cbn [type_events Component.run_events]. f_equal. unfold Component.dispatch at 2. rewrite handle_get. unfold modify. cbn [fst]. rewrite Ht. reflexivity. }
  rewrite Er. set (c1 := set_tasks [] _).
  destruct (@then_update _ c1 ed ed1 _ E Hs L1) as (t&Et&Es).
  assert (Ec : co_editor (fst (handle (handle (call (OpInsertAtCaret (segment data))) (fun _ => update_input)) (fun _ => ret tt) c1)) = Some (set_parsed ed1 (Some t)) /\
    session (fst (handle (handle (call (OpInsertAtCaret (segment data))) (fun _ => update_input)) (fun _ => ret tt) c1)) = session c).
  { unfold handle at 1 3. destruct (handle (call _) _ c1) as [c2 [[]|k]]; cbn [fst ret] in *; (split; [exact Et|]); rewrite Es; unfold session, c1; cbn; now rewrite Ht. }
  destruct Ec as [Ec Es']. exists (set_parsed ed1 (Some t)), ce. repeat (split; [assumption|]). destruct A as [A1 A2 _ _]. repeat split; auto.
Qed.
(** The key for undo, and the one for redo *)
Lemma key_undo c ed ce us d : co_editor c = Some ed -> undo_stack (ed_undo ed) = ce :: us -> chain cfg d (ce_edits ce) (ed_input ed) -> wf_row d -> valid_caret d (ce_before ce) ->
  exists ed', co_editor (fst (dispatch (EvKey KeyUndo) c)) = Some ed' /\ session (fst (dispatch (EvKey KeyUndo) c)) = session c /\ ed_input ed' = d /\ ed_caret ed' = ce_before ce /\
    ed_undo ed' = mkUndo us (ce :: redo_stack (ed_undo ed)).
Proof.
  intros E U C Hwf V. set (ed1 := mkEditor d None (ce_before ce) (ed_selection_mode ed) (ed_autocomplete ed) (mkUndo us (ce :: redo_stack (ed_undo ed))) : Editor).
  assert (Hs : step env ed OpUndo = Ok (ed1, OutNone _)).
  { cbn [step]. unfold undo, undo_undo. rewrite U. unfold apply_action. cbn [set_undo ed_input caret_edit_inverse ce_edits]. change (env_cfg env) with cfg. rewrite (chain_inverse C). reflexivity. }
  destruct (then_update (c := c) E Hs) as (t&Et&Es); [split; [exact Hwf|exact V]|].
  cbn [Component.dispatch on_key]. unfold on_key. rewrite handle_assoc. exists (set_parsed ed1 (Some t)). 
  assert (Eq : handle (call OpUndo) (fun a => handle (ret tt) (fun _ => update_input)) c = handle (call OpUndo) (fun _ => update_input) c) by reflexivity.
  rewrite Eq. repeat split; auto.
Qed.
Lemma key_redo c ed ce rstack d : co_editor c = Some ed -> redo_stack (ed_undo ed) = ce :: rstack -> chain cfg (ed_input ed) (ce_edits ce) d -> wf_row d -> valid_caret d (ce_after ce) ->
  exists ed', co_editor (fst (dispatch (EvKey KeyRedo) c)) = Some ed' /\ session (fst (dispatch (EvKey KeyRedo) c)) = session c /\ ed_input ed' = d /\ ed_caret ed' = ce_after ce /\
    ed_undo ed' = mkUndo (ce :: undo_stack (ed_undo ed)) rstack.
Proof.
  intros E U C Hwf V. set (ed1 := mkEditor d None (ce_after ce) (ed_selection_mode ed) (ed_autocomplete ed) (mkUndo (ce :: undo_stack (ed_undo ed)) rstack) : Editor).
  assert (Hs : step env ed OpRedo = Ok (ed1, OutNone _)).
  { cbn [step]. unfold redo, undo_redo. rewrite U. unfold apply_action. cbn [set_undo ed_input]. change (env_cfg env) with cfg. rewrite (chain_apply C). reflexivity. }
  destruct (then_update (c := c) E Hs) as (t&Et&Es); [split; [exact Hwf|exact V]|].
  cbn [Component.dispatch on_key]. unfold on_key. rewrite handle_assoc. exists (set_parsed ed1 (Some t)). 
  assert (Eq : handle (call OpRedo) (fun a => handle (ret tt) (fun _ => update_input)) c = handle (call OpRedo) (fun _ => update_input) c) by reflexivity.
  rewrite Eq. repeat split; auto.
Qed.
End Page.

(** ** Every event can be undone *)
Section Undo.
Variable cfg : Cfg.
Variable xs xc : N -> bool.
Variable normalize : str -> str.
Variable segment : str -> list str.
Notation env := (page cfg xs xc).
Notation rs := default_renderers.
Notation Editor := (MathEditor SyntaxNode).
Notation dispatch := (dispatch env rs normalize segment).
Notation run_events := (run_events env rs normalize segment).
Notation update_input := (update_input env rs).
Notation render_carets := (render_carets env).
Notation do_task := (do_task env rs segment).
Notation run_tasks := (run_tasks env rs segment).
Notation call := (call env).
(** At most [k] steps were recorded since the document was [d] and the past [stk]. *)
Definition since (d : InputRow) (stk : list CaretEdit) (k : nat) (ed : Editor) : Prop :=
  exists ces, List.length ces <= k /\ committed cfg d ces (ed_input ed) /\ undo_stack (ed_undo ed) = rev ces ++ stk.
Definition grows A (k : nat) (h : Handler A) : Prop := forall d stk j c, on_editor (since d stk j) c -> on_editor (since d stk (j + k)) (fst (h c)).
Lemma since_le d stk j k ed : j <= k -> since d stk j ed -> since d stk k ed.
Proof. intros L (ces&H1&H2). exists ces. split; [lia|exact H2]. Qed.
Definition cost (op : Op) : nat :=
  match op with
  | OpInsertAtCaret _ | OpRemoveAtCaret _ | OpPaste _ _ => 2
  | OpGetCaret | OpGetSyntaxTree | OpCopy | OpFinishSelection => 0
  | _ => 1
  end.
Lemma step_since d stk j ed op ed' out : is_undo_redo op = false -> since d stk j ed -> step env ed op = Ok (ed', out) -> since d stk (j + cost op) ed'.
Proof.
  intros Hop (ces&L&C&U) H. assert (D : op = OpGetSyntaxTree \/ op <> OpGetSyntaxTree) by (destruct op; (now left) || (right; discriminate)). destruct D as [->|D].
  - cbn [step] in H. apply bind_ok in H as ([ed1 t]&Ht&H). inv H. apply parse_step in Ht as (p&->). exists ces. split; [lia|]. auto.
  - destruct (step_advanced H Hop D) as (ces'&[A1 A2 _ _]&Ha&_). exists (ces ++ ces'). split; [|split].
    + rewrite app_length. assert (List.length ces' <= cost op); [|lia]. destruct op; cbn in *; try lia. destruct accept; lia.
    + eapply committed_app; [exact C|exact A1].
    + rewrite A2, U, rev_app_distr, app_assoc. reflexivity.
Qed.
Lemma grows_call op : is_undo_redo op = false -> grows (cost op) (call op).
Proof.
  intros Hop d stk j c H. unfold Component.call. destruct (co_editor c) as [ed|] eqn:E; [|intros ed E2; cbn in E2; congruence].
  destruct (step env ed op) as [[ed' out]|k] eqn:Es; intros ed2 E2; cbn in E2; [|discriminate]. inv E2. eapply step_since; eauto.
Qed.
Lemma grows_handle A B k k' (h : Handler A) (f : A -> Handler B) : grows k h -> (forall a, grows k' (f a)) -> grows (k + k') (handle h f).
Proof.
  intros Hh Hf d stk j c H. specialize (Hh d stk j c H). unfold handle. destruct (h c) as [c1 [a|e]]; cbn [fst] in *.
  - rewrite Nat.add_assoc. now apply Hf.
  - intros ed E. eapply since_le; [|exact (Hh ed E)]. lia.
Qed.
Lemma grows_quiet A k (h : Handler A) : (forall P : Editor -> Prop, (forall ed op ed' out, op = OpGetCaret \/ op = OpGetSyntaxTree -> P ed -> step env ed op = Ok (ed', out) -> P ed') -> keeps (on_editor P) h) -> grows k h.
Proof.
  intros K d stk j c H ed E. eapply since_le with (j := j); [lia|]. revert ed E. apply (K (since d stk j)); [|exact H]. intros ed op ed' out Hop Hs Hst.
  rewrite <- (Nat.add_0_r j). replace 0 with (cost op) by (destruct Hop as [->| ->]; reflexivity). eapply step_since; eauto. destruct Hop as [->| ->]; reflexivity.
Qed.
Lemma grows_carets k : grows k render_carets.
Proof. apply grows_quiet. intros P HP. now apply keeps_render_carets. Qed.
Lemma grows_update k : grows k update_input.
Proof. apply grows_quiet. intros P HP. now apply keeps_update_input. Qed.
Lemma grows_ret A k (a : A) : grows k (ret a).
Proof. apply grows_quiet. intros P _. apply keeps_ret. Qed.
Lemma grows_lift A k (a : Res A) : grows k (lift a).
Proof. apply grows_quiet. intros P _. apply keeps_lift. Qed.
Lemma grows_get k : grows k get.
Proof. apply grows_quiet. intros P _. apply keeps_get. Qed.
Lemma grows_modify k f : (forall c, co_editor (f c) = co_editor c) -> grows k (modify f).
Proof. intros H. apply grows_quiet. intros P _. now apply keeps_modify. Qed.
Lemma grows_le A j k (h : Handler A) : j <= k -> grows j h -> grows k h.
Proof. intros L H d stk i c Hc ed E. eapply since_le; [|exact (H d stk i c Hc ed E)]. lia. Qed.
Lemma grows_task t : grows 2 (do_task t).
Proof.
  destruct t as [| |[data|]|]; cbn [Component.do_task]; try apply grows_ret; change 2 with (2 + 0); (apply grows_handle; [|intros a; apply grows_update]).
  - now apply (@grows_call (OpRemoveAtCaret RemoveLeft)).
  - now apply (@grows_call (OpRemoveAtCaret RemoveRight)).
  - now apply (@grows_call (OpInsertAtCaret (segment data))).
Qed.
Lemma grows_tasks l : grows (2 * List.length l) (run_tasks l).
Proof.
  induction l as [|t l IH]; [apply grows_ret|]. cbn [Component.run_tasks List.length]. replace (2 * S (List.length l)) with (0 + (2 + 2 * List.length l)) by lia.
  apply grows_handle; [now apply grows_modify|intros _]. apply grows_handle; [apply grows_task|intros _; exact IH].
Qed.
Lemma grows_pointer p : grows 0 (pointer_position p).
Proof. apply grows_quiet. intros P _. apply keeps_handle; [apply keeps_get|intros]. apply keeps_handle; [apply keeps_lift|intros; apply keeps_ret]. Qed.
Lemma grows_mathml m : grows 2 (set_mathml env rs normalize segment m).
Proof.
  destruct m as [m|]; cbn [set_mathml]; [|apply grows_lift]. change 2 with (0 + (0 + (1 + 1))). apply grows_handle; [apply grows_lift|intros]. apply grows_handle; [apply grows_get|intros c0].
  apply grows_handle; [now apply (@grows_call (OpSpliceAtRange (mkMinRange [] (fst (syn_range (co_tree c0))) (snd (syn_range (co_tree c0)))) (fst a)))|intros; apply grows_update].
Qed.
Lemma grows_copy : grows 0 (handle_copy env).
Proof. change 0 with (0 + 0). apply grows_handle; [now apply (@grows_call OpCopy)|intros out]. destruct out; try apply grows_lift. now apply grows_modify. Qed.
Lemma event_since e c d stk : undo_keys e = false -> on_editor (since d stk 0) c -> on_editor (since d stk (steps_of c e)) (fst (dispatch e c)).
Proof.
  intros He H. assert (T : forall h : Handler unit, grows 2 h -> on_editor (since d stk 2) (fst (h c))) by (intros h Hg; exact (Hg d stk 0 c H)).
  assert (M : forall op, is_undo_redo op = false -> cost op <= 2 -> grows 2 (call op)) by (intros op Ho L; eapply grows_le; [exact L|now apply grows_call]).
  assert (M1 : forall op, is_undo_redo op = false -> cost op = 1 -> grows 1 (call op)) by (intros op Ho L; rewrite <- L; now apply grows_call).
  destruct e as [k|t| |[]|[]|[[json text]|]|[] p|[] p|dt p|[] p|m| |m]; cbn [steps_of]; cbn [Component.dispatch]; try (apply T; apply grows_ret).
  - apply T. unfold on_key. change 2 with (2 + 0). apply grows_handle; [|intros; apply grows_update]. destruct k; try discriminate; try apply grows_ret; change 2 with (2 + 0); (apply grows_handle; [apply M; [reflexivity|cbn; lia]|intros; apply grows_ret]).
  - apply T. change 2 with (0 + 2). apply grows_handle; [apply grows_get|intros]. now apply grows_modify.
  - rewrite handle_get. exact (@grows_tasks (co_tasks c) d stk 0 c H).
  - apply T. eapply grows_le; [|apply grows_copy]. lia.
  - apply T. change 2 with (0 + (2 + 0)). apply grows_handle; [apply grows_copy|intros]. apply grows_handle; [apply M; [reflexivity|cbn; lia]|intros; apply grows_update].
  - apply T. unfold call_paste. change 2 with (2 + 0). apply grows_handle; [|intros; apply grows_update]. change 2 with (2 + 0). apply grows_handle; [apply M; [reflexivity|cbn; lia]|]. intros out. destruct out; try apply grows_ret; apply grows_lift.
  - apply T. change 2 with (0 + (0 + (1 + 1))). apply grows_handle; [apply grows_pointer|intros]. apply grows_handle; [now apply grows_modify|intros]. apply grows_handle; [now apply M1|intros; apply grows_update].
  - apply T. change 2 with (0 + (0 + (1 + (1 + 0)))). apply grows_handle; [now apply grows_modify|intros]. apply grows_handle; [apply grows_pointer|intros]. apply grows_handle; [now apply M1|intros].
    apply grows_handle; [eapply grows_le; [|now apply grows_call]; cbn; lia|intros; apply grows_carets].
  - apply T. apply (@grows_handle _ _ 0 2); [apply grows_get|intros c0]. destruct (co_pointer_down c0); [|apply grows_ret]. apply (@grows_handle _ _ 0 2); [apply grows_pointer|intros].
    destruct (dt =? 2); [|destruct (dt =? 3); [|apply grows_ret]]; (apply (@grows_handle _ _ 1 1); [now apply M1|intros; apply grows_carets]).
  - apply T. change 2 with (0 + 2). apply grows_handle; [apply grows_get|intros c0]. destruct (true && co_pointer_down c0); [|apply grows_ret]. change 2 with (0 + (1 + 1)). apply grows_handle; [apply grows_pointer|intros].
    apply grows_handle; [now apply M1|intros; apply grows_carets].
  - apply T. change 2 with (0 + 2). apply grows_handle; [now apply grows_modify|intros]. apply grows_mathml.
  - apply T. now apply grows_modify.
  - apply T. apply grows_mathml.
Qed.
Variable Q : Part -> Prop.
Notation sound := (sound env Q).
Variable fine : Editor -> Op -> Prop.
Hypothesis Hrules : forall rule, In rule default_rules -> proper Q (rule_result rule).
Hypothesis Hnonempty : forall s, Q (PartSymbol s) -> s <> [].
Hypothesis fine_safe : forall ed op, sound ed -> fine ed op -> safe_op env Q ed op.
Hypothesis fine_drawn : forall ed op ed' out, sound ed -> fine ed op -> step env ed op = Ok (ed', out) -> sound ed' -> exists x, draw xs xc (ed_input ed') = Ok x.
Lemma undo_all stk ces : forall d c ed, co_editor c = Some ed -> sound ed -> committed cfg d ces (ed_input ed) -> undo_stack (ed_undo ed) = rev ces ++ stk ->
  exists ed', co_editor (run_events c (repeat (EvKey KeyUndo) (List.length ces))) = Some ed' /\ session (run_events c (repeat (EvKey KeyUndo) (List.length ces))) = session c /\
    sound ed' /\ ed_input ed' = d /\ ed_undo ed' = mkUndo stk (ces ++ redo_stack (ed_undo ed)) /\ (forall ce ces', ces = ce :: ces' -> ed_caret ed' = ce_before ce).
Proof.
  induction ces as [|ce ces IH] using rev_ind; intros d c ed E S C U.
  - inversion C; subst. cbn. exists ed. cbn in U. repeat split; auto; try apply S; try discriminate. rewrite <- U. now destruct (ed_undo ed).
  - rewrite rev_app_distr in U. cbn in U. destruct (committed_app_inv (env := env) C) as (d1&C1&C2). inversion C2 as [|? ? d2 ? ? K1 K2]; subst. inversion K2; subst.
    pose proof (so_past S) as P. rewrite U in P. inversion P as [|p ce0 d0 stk0 K Pp V1 V2 P']; subst. assert (p = d1) by (pose proof (chain_inverse K); pose proof (chain_inverse K1); congruence). subst p.
    destruct (@key_undo cfg xs xc rs normalize segment c ed ce _ d1 E U K1 (proj1 Pp) V1) as (ed1&E1&Es1&I1&Ca1&U1).
    assert (S1 : sound ed1).
    { split; [now rewrite I1|now rewrite I1, Ca1|rewrite I1, U1; exact P'|]. rewrite I1, U1. cbn [redo_stack]. eapply good_future_cons; [exact K1|apply S|exact V1|exact V2|apply S]. }
    rewrite app_length, Nat.add_comm. cbn [List.length Nat.add repeat Component.run_events]. rewrite <- I1 in C1.
    destruct (IH d _ ed1 E1 S1 C1) as (ed2&E2&Es2&S2&I2&U2&Ca2); [now rewrite U1|]. exists ed2. split; [exact E2|]. split; [congruence|]. split; [exact S2|]. split; [exact I2|].
    split; [rewrite U2, U1; cbn [redo_stack]; now rewrite <- app_assoc|]. intros ce1 ces1 Hces. destruct ces as [|ce2 ces2]; cbn in Hces; inv Hces.
    + change (co_editor (fst (dispatch (EvKey KeyUndo) c)) = Some ed2) in E2. rewrite E1 in E2. inv E2. exact Ca1.
    + eapply Ca2. reflexivity.
Qed.
Lemma redo_all rstack ces : forall d c ed, co_editor c = Some ed -> sound ed -> committed cfg (ed_input ed) ces d -> redo_stack (ed_undo ed) = ces ++ rstack ->
  exists ed', co_editor (run_events c (repeat (EvKey KeyRedo) (List.length ces))) = Some ed' /\ session (run_events c (repeat (EvKey KeyRedo) (List.length ces))) = session c /\
    sound ed' /\ ed_input ed' = d /\ ed_undo ed' = mkUndo (rev ces ++ undo_stack (ed_undo ed)) rstack /\ (forall ce ces', ces = ces' ++ [ce] -> ed_caret ed' = ce_after ce).
Proof.
  induction ces as [|ce ces IH]; intros d c ed E S C U.
  - inversion C; subst. cbn. exists ed. cbn in U. repeat split; auto; try apply S; [rewrite <- U; now destruct (ed_undo ed)|]. intros ce ces' H. destruct ces'; discriminate.
  - cbn in U. inversion C as [|? ? d1 ? ? K1 K2]; subst.
    pose proof (so_future S) as P. rewrite U in P. inversion P as [|d0 ce0 f stk0 K Pp V1 V2 P']; subst. assert (f = d1) by (pose proof (chain_apply K) as X; pose proof (chain_apply K1) as Y; change (env_cfg env) with cfg in X; rewrite X in Y; inv Y; reflexivity). subst f.
    destruct (@key_redo cfg xs xc rs normalize segment c ed ce _ d1 E U K1 (proj1 Pp) V2) as (ed1&E1&Es1&I1&Ca1&U1).
    assert (S1 : sound ed1).
    { split; [now rewrite I1|now rewrite I1, Ca1| |rewrite I1, U1; exact P']. rewrite I1, U1. cbn [undo_stack]. eapply good_past_cons; [exact K1|apply S|exact V1|exact V2|apply S]. }
    cbn [List.length Nat.add repeat Component.run_events]. rewrite <- I1 in K2.
    destruct (IH d _ ed1 E1 S1 K2) as (ed2&E2&Es2&S2&I2&U2&Ca2); [now rewrite U1|]. exists ed2. split; [exact E2|]. split; [congruence|]. split; [exact S2|]. split; [exact I2|].
    split; [rewrite U2, U1; cbn [undo_stack rev]; now rewrite <- app_assoc|]. intros ce1 ces1 Hces. destruct ces1 as [|ce2 ces2]; cbn in Hces; inv Hces.
    + change (co_editor (fst (dispatch (EvKey KeyRedo) c)) = Some ed2) in E2. rewrite E1 in E2. inv E2. exact Ca1.
    + eapply Ca2. reflexivity.
Qed.
(** Every event that is not undo or redo can be undone, and that can be redone. *)
Lemma event_undone c e : healthy cfg xs xc Q c -> fine_event env rs normalize segment fine c e -> undo_keys e = false ->
  let c1 := fst (dispatch e c) in exists n, n <= steps_of c e /\ document (run_events c1 (repeat (EvKey KeyUndo) n)) = document c /\
    document (run_events c1 (repeat (EvKey KeyUndo) n ++ repeat (EvKey KeyRedo) n)) = document c1.
Proof.
  intros Hh Hf He. destruct (event_total Hrules Hnonempty fine_safe fine_drawn Hh Hf) as (c1&Hd&Hh1). rewrite Hd. cbn [fst]. pose proof Hh as (_&ed&E&S&_). pose proof Hh1 as (_&ed1&E1&S1&_).
  assert (H0 : on_editor (since (ed_input ed) (undo_stack (ed_undo ed)) 0) c). { intros ed0 E0. rewrite E in E0. inv E0. exists []. repeat split; auto. constructor. }
  pose proof (event_since He H0) as H1. rewrite Hd in H1. destruct (H1 _ E1) as (ces&L&C&U). exists (List.length ces). split; [exact L|].
  destruct (undo_all E1 S1 C U) as (ed2&E2&_&S2&I2&U2&_). split; [unfold document; rewrite E2, E; cbn; congruence|]. rewrite run_events_app. rewrite <- I2 in C.
  destruct (@redo_all (redo_stack (ed_undo ed1)) ces _ _ ed2 E2 S2 C) as (ed3&E3&_&S3&I3&_); [now rewrite U2|]. unfold document. rewrite E3, E1. cbn. congruence.
Qed.

(** ** Clicking and dragging *)
Lemma start_caret (ed : Editor) p mode ed' out : step env ed (OpStartSelection p mode) = Ok (ed', out) -> ed_caret ed' = collapsed p.
Proof.
  intros H. cbn [step] in H. apply bind_ok in H as (ed1&H&E). inv E. unfold start_selection in H. apply bind_ok in H as ([ed1 a]&_&H). apply bind_ok in H as ([ed2 ce]&Hb&H).
  destruct (move_advanced Hb H) as (_&_&_&_&Hc). exact Hc.
Qed.
Lemma extend_caret (ed : Editor) p ed' out : step env ed (OpExtendSelection p) = Ok (ed', out) -> ed_caret ed' = mkMinCaret (mc_start (ed_caret ed)) p.
Proof.
  intros H. cbn [step] in H. apply bind_ok in H as (ed1&H&E). inv E. unfold extend_selection in H. apply bind_ok in H as ([ed1 a]&Ha&H). apply bind_ok in H as ([ed2 ce]&Hb&H).
  destruct (move_advanced Hb H) as (_&_&_&_&Hc). apply start_autocorrect_only in Ha as (x&->). exact Hc.
Qed.
Lemma calm_selection doc pos (ed : Editor) : wf_row doc -> calm env doc pos -> ed_input ed = doc -> mc_start (ed_caret ed) = pos -> ~ autocorrect_pending env ed.
Proof.
  intros Hwf Hcalm <- Hs Hp. apply (Hcalm ed eq_refl); [|exact Hp]. destruct Hp as (ed1&r&m&Hg&_). destruct (popup_at Hwf Hg) as (q&_&_&Hc&_). rewrite Hc in Hs |- *. cbn in Hs. now subst.
Qed.
Lemma hits_fun doc p pos pos' : hits xs xc doc p pos -> hits xs xc doc p pos' -> pos = pos'.
Proof. intros (x&D&H) (x'&D'&H'). assert (x' = x) by congruence. subst. rewrite H in H'. injection H' as E1 E2. clear D D' H. destruct pos, pos'. cbn in E1, E2. now subst. Qed.
(** The mouse button was pressed at [pos], the pointer is at [cur], or was when it was last moved. *)
Record dragging (doc : InputRow) (pos cur : MinPos) (c : Component) : Prop := mkDragging {
  dr_healthy : healthy cfg xs xc Q c;
  dr_editor : exists ed, co_editor c = Some ed /\ ed_input ed = doc /\ ed_caret ed = mkMinCaret pos cur }.
Lemma dragging_wf doc pos cur c : dragging doc pos cur c -> wf_row doc.
Proof. intros [(_&ed&E&S&_) (ed0&E0&<-&_)]. rewrite E in E0. inv E0. apply S. Qed.
Lemma hit doc pos cur c p : dragging doc pos cur c -> clickable env doc -> exists pos', pointer_position p c = (c, Ok pos') /\ hits xs xc doc p pos' /\ valid_pos doc pos'.
Proof.
  intros [((ed&E&Sh&_)&ed1&E1&S1&_) (ed0&E0&<-&_)] Hcl. rewrite E in E0, E1. inv E0. inv E1. destruct (position_total p E S1 Sh Hcl) as (pos'&Hp&V). exists pos'. split; [exact Hp|]. split; [|exact V].
  apply shows_draw in Sh as (x&D&Ex). apply position_ok in Hp as (_&Hp). rewrite Ex in Hp. exists x. auto.
Qed.
Lemma pressed c ed p : healthy cfg xs xc Q c -> co_editor c = Some ed -> ~ autocorrect_pending env ed -> clickable env (ed_input ed) ->
  let c' := fst (dispatch (EvPointerDown true p) c) in exists pos, hits xs xc (ed_input ed) p pos /\ valid_pos (ed_input ed) pos /\ dragging (ed_input ed) pos pos c' /\
    session c' = (true, co_tasks c, co_connected c, co_clipboard c).
Proof.
  intros Hh E Ha Hcl c'. assert (D : dragging (ed_input ed) (mc_start (ed_caret ed)) (mc_end (ed_caret ed)) c). { split; [exact Hh|]. exists ed. repeat split; auto. now destruct (ed_caret ed). }
  destruct (hit p D Hcl) as (pos&Hp&Hhit&V). exists pos. split; [exact Hhit|]. split; [exact V|]. pose proof Hh as ((ed0&E0&Sh&_)&ed1&E1&S&F). rewrite E in E0, E1. inv E0. inv E1.
  destruct (click_total Hrules Hnonempty (c := set_pointer_down true c) (op := OpStartSelection pos MChar) E S F Sh (conj Ha Hcl)) as (ed'&out&Hc&S'&F'&Ei&_); [eauto|].
  unfold c'. cbn [Component.dispatch]. rewrite (handle_eq _ Hp), handle_modify, (handle_eq _ Hc). pose proof Hc as Hc'. apply call_ok in Hc' as (ed2&ed3&E2&Hs&Eq). change (co_editor c = Some ed2) in E2. rewrite E in E2. inv E2.
  assert (ed' = ed3) by (injection Eq as ->; reflexivity). subst ed3. apply start_caret in Hs.
  destruct (@update_healthy cfg xs xc Q Hrules (set_editor (Some ed') (set_pointer_down true c)) ed' eq_refl S' F') as (c2&Hu&Hh2).
  { apply shows_draw in Sh as (x&Dx&_). exists x. rewrite Ei. exact Dx. }
  destruct (@settled cfg xs xc rs (set_editor (Some ed') (set_pointer_down true c)) ed' eq_refl) as (t&Et); [split; apply S'|].
  pose proof (same_update cfg xs xc rs (set_editor (Some ed') (set_pointer_down true c))) as Es. rewrite Hu in *. cbn [fst] in *. split; [|exact Es].
  split; [exact Hh2|]. exists (set_parsed ed' (Some t)). split; [exact Et|]. split; [exact Ei|exact Hs].
Qed.
Lemma drag_to doc pos cur c p : dragging doc pos cur c -> clickable env doc -> calm env doc pos -> co_pointer_down c = true ->
  let c' := fst (dispatch (EvPointerMove true p) c) in exists cur', hits xs xc doc p cur' /\ valid_pos doc cur' /\ dragging doc pos cur' c' /\ session c' = session c.
Proof.
  intros D Hcl Hcalm Hd c'. destruct (hit p D Hcl) as (cur'&Hp&Hhit&V). exists cur'. split; [exact Hhit|]. split; [exact V|]. pose proof (dragging_wf D) as Hwf. destruct D as [Hh (ed&E&Ei&Hc)].
  pose proof Hh as ((ed0&E0&Sh&_)&ed1&E1&S&F). rewrite E in E0, E1. inv E0. inv E1.
  assert (Ha : ~ autocorrect_pending env ed1) by (eapply calm_selection; eauto; now rewrite Hc).
  destruct (click_total Hrules Hnonempty (c := c) (op := OpExtendSelection cur') E S F Sh (conj Ha Hcl)) as (ed'&out&Hcall&S'&F'&Ei'&_); [eauto|].
  unfold c'. cbn [Component.dispatch]. rewrite handle_get, Hd. cbn [andb]. rewrite (handle_eq _ Hp), (handle_eq _ Hcall). pose proof Hcall as Hc'. apply call_ok in Hc' as (ed2&ed3&E2&Hs&Eq). rewrite E in E2. inv E2.
  assert (ed' = ed3) by (injection Eq as ->; reflexivity). subst ed3. apply extend_caret in Hs. rewrite Hc in Hs. cbn [mc_start] in Hs.
  destruct (@carets_healthy cfg xs xc Q (set_editor (Some ed') c) ed' eq_refl S' F') as (c2&Hu&Hh2); [now rewrite Ei'|].
  pose proof (@settled_carets cfg xs xc (set_editor (Some ed') c) ed' eq_refl) as Et. pose proof (same_carets cfg xs xc (set_editor (Some ed') c)) as Es. rewrite Hu in *. cbn [fst] in *. split; [|exact Es].
  split; [exact Hh2|]. exists ed'. split; [apply Et; split; apply S'|]. auto.
Qed.
Lemma release doc pos cur c p : dragging doc pos cur c -> clickable env doc -> calm env doc pos ->
  let c' := fst (dispatch (EvPointerUp true p) c) in exists cur', hits xs xc doc p cur' /\ valid_pos doc cur' /\ dragging doc pos cur' c' /\ session c' = (false, co_tasks c, co_connected c, co_clipboard c).
Proof.
  intros D Hcl Hcalm c'. assert (D' : dragging doc pos cur (set_pointer_down false c)) by (destruct D as [Hh He]; split; [destruct c; exact Hh|destruct c; exact He]).
  destruct (hit p D' Hcl) as (cur'&Hp&Hhit&V). exists cur'. split; [exact Hhit|]. split; [exact V|]. pose proof (dragging_wf D) as Hwf. destruct D' as [Hh (ed&E&Ei&Hc)].
  pose proof Hh as ((ed0&E0&Sh&_)&ed1&E1&S&F). rewrite E in E0, E1. inv E0. inv E1.
  assert (Ha : ~ autocorrect_pending env ed1) by (eapply calm_selection; eauto; now rewrite Hc).
  destruct (click_total Hrules Hnonempty (c := set_pointer_down false c) (op := OpExtendSelection cur') E S F Sh (conj Ha Hcl)) as (ed'&out&Hcall&S'&F'&Ei'&_); [eauto|].
  unfold c'. cbn [Component.dispatch]. rewrite handle_modify. rewrite (handle_eq _ Hp), (handle_eq _ Hcall). pose proof Hcall as Hc'. apply call_ok in Hc' as (ed2&ed3&E2&Hs&Eq). rewrite E in E2. inv E2.
  assert (ed' = ed3) by (injection Eq as ->; reflexivity). subst ed3. apply extend_caret in Hs. rewrite Hc in Hs. cbn [mc_start] in Hs.
  set (c1 := set_editor (Some ed') (set_pointer_down false c)). rewrite (handle_eq _ (@call_eq cfg xs xc OpFinishSelection c1 ed' (finish_selection ed') _ eq_refl eq_refl)).
  assert (S2 : sound (finish_selection ed')) by (apply (sound_moved S'); auto; apply S').
  destruct (@carets_healthy cfg xs xc Q (set_editor (Some (finish_selection ed')) c1) (finish_selection ed') eq_refl S2 F') as (c2&Hu&Hh2).
  { change (ed_input (finish_selection ed')) with (ed_input ed'). rewrite Ei'. exact Sh. }
  pose proof (@settled_carets cfg xs xc (set_editor (Some (finish_selection ed')) c1) (finish_selection ed') eq_refl) as Et.
  pose proof (same_carets cfg xs xc (set_editor (Some (finish_selection ed')) c1)) as Es. rewrite Hu in *. cbn [fst] in *. split; [|exact Es].
  split; [exact Hh2|]. exists (finish_selection ed'). split; [apply Et; split; apply S2|]. auto.
Qed.
Lemma drag_along doc pos ps : forall cur c, dragging doc pos cur c -> clickable env doc -> calm env doc pos -> co_pointer_down c = true ->
  let c' := run_events c (map (EvPointerMove true) ps) in exists cur', dragging doc pos cur' c' /\ session c' = session c.
Proof.
  induction ps as [|p ps IH]; intros cur c D Hcl Hcalm Hd; [exists cur; auto|]. cbn [map Component.run_events]. destruct (drag_to p D Hcl Hcalm Hd) as (cur1&_&_&D1&S1).
  destruct (IH cur1 _ D1 Hcl Hcalm) as (cur2&D2&S2); [apply (f_equal (fun s => fst (fst (fst s)))) in S1; exact (eq_trans S1 Hd)|]. exists cur2. split; [exact D2|]. congruence.
Qed.
Lemma drag c ed p ps p' : healthy cfg xs xc Q c -> co_editor c = Some ed -> ~ autocorrect_pending env ed -> clickable env (ed_input ed) ->
  (forall pos, hits xs xc (ed_input ed) p pos -> calm env (ed_input ed) pos) ->
  let c' := run_events c (drag_events p ps p') in exists pos pos', hits xs xc (ed_input ed) p pos /\ hits xs xc (ed_input ed) p' pos' /\ valid_pos (ed_input ed) pos /\ valid_pos (ed_input ed) pos' /\
    dragging (ed_input ed) pos pos' c' /\ session c' = (false, co_tasks c, co_connected c, co_clipboard c).
Proof.
  intros Hh E Ha Hcl Hcalm. cbn zeta. unfold drag_events. cbn [Component.run_events]. destruct (pressed p Hh E Ha Hcl) as (pos&H1&V1&D1&S1). set (c1 := fst (dispatch _ c)) in *.
  rewrite run_events_app. destruct (@drag_along _ pos ps pos c1 D1 Hcl (Hcalm _ H1)) as (cur&D2&S2); [now apply (f_equal (fun s => fst (fst (fst s)))) in S1|]. set (c2 := run_events c1 _) in *.
  cbn [Component.run_events]. destruct (release p' D2 Hcl (Hcalm _ H1)) as (pos'&H3&V3&D3&S3). exists pos, pos'. repeat (split; [assumption|]). rewrite S3. unfold session in *. rewrite S1 in S2. inv S2. reflexivity.
Qed.
Lemma sound_nonempty ed : sound ed -> proper nonempty (ed_input ed).
Proof. intros S. destruct (so_doc S) as [Hw Hq]. split; [exact Hw|]. intros [s|v n w] Hx; [exact (Hnonempty (Hq _ Hx))|exact I]. Qed.
Lemma drag_type c ed p ps p' data : healthy cfg xs xc Q c -> co_editor c = Some ed -> co_tasks c = [] -> ~ autocorrect_pending env ed -> clickable env (ed_input ed) ->
  (forall pos, hits xs xc (ed_input ed) p pos -> calm env (ed_input ed) pos) ->
  exists pos pos', hits xs xc (ed_input ed) p pos /\ hits xs xc (ed_input ed) p' pos' /\
  (mp_row pos = mp_row pos' -> let c' := run_events c (drag_events p ps p' ++ type_events data) in exists ed', co_editor c' = Some ed' /\
    nodes_replaced (ed_input ed) (mp_row pos) (Nat.min (mp_offset pos) (mp_offset pos')) (Nat.max (mp_offset pos) (mp_offset pos')) (map Symbol (segment data)) (ed_input ed') /\
    ed_caret ed' = collapsed (mkMinPos (mp_row pos) (Nat.min (mp_offset pos) (mp_offset pos') + List.length (segment data)))).
Proof.
  intros Hh E Ht Ha Hcl Hcalm. destruct (drag ps p' Hh E Ha Hcl Hcalm) as (pos&pos'&H1&H2&V1&V2&[Hh' (ed1&E1&I1&C1)]&Se). exists pos, pos'. split; [exact H1|]. split; [exact H2|].
  intros Hrow. cbn zeta. rewrite run_events_app. set (c1 := run_events c _) in *. destruct Hh' as (_&ed0&E0&S&_). rewrite E1 in E0. inv E0.
  assert (L : lively ed0) by (split; apply S). pose proof (caret_between (proj1 L) (proj1 (proj2 L)) (proj2 (proj2 L))) as Hg. rewrite C1 in Hg. cbn [mc_start mc_end] in Hg. specialize (Hg Hrow).
  destruct (@type_event cfg xs xc rs normalize segment c1 ed0 (mkMinRange (mp_row pos) (mp_offset pos) (mp_offset pos')) data E1 L) as (ed'&ce&E'&_&R&C'&_); [|exact Hg| |].
  - apply (f_equal (fun s => snd (fst (fst s)))) in Se. exact (eq_trans Se Ht).
  - apply completions_ok; [now apply sound_nonempty|apply L].
  - exists ed'. split; [exact E'|]. unfold lo, hi in *. cbn [mr_row mr_start mr_end] in *. rewrite I1 in R. auto.
Qed.
End Undo.
