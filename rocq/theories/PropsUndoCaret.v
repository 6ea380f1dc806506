(** Undo brings the selection back, too (C76, selections). *)
From Coq Require Import String.
From Verif Require Import Base Str Grid Node Focus Edit Caret Autocomplete Editor Rules NameMap Syntax Pratt Grammar SyntaxFind Render Layout Json FromMathML
  Spec SpecSyntax SpecMove SpecEditor SpecText SpecSafety SpecRender SpecDom Component SpecComponent SpecPage BaseFacts TreeFacts EditFacts EditorFacts RenderFacts HistoryFacts SafetyFacts TextFacts TypingFacts Samples
  PropsAuto PropsEditor PropsRender PropsSafety PropsImport ComponentFacts ComponentProofs ComponentCheck PropsComponent PageFacts PropsPage PropsUndoPage.
Open Scope list_scope.
Open Scope nat_scope.

(** The event enters something: the queued inputs start with text, or something is pasted, or the attribute is set. Specification only; math-editor.ts:163-220, 308-335. *)
Definition enters (c : Component) (e : Event) : bool :=
  match e with
  | EvTimer => match co_tasks c with InsertText (Some _) :: _ => true | _ => false end
  | EvPaste (Some _) | EvAttribute _ | EvConnect _ => true
  | _ => false
  end.

Section Undo.
Variable cfg : Cfg.
Variable xs xc : N -> bool.
Variable normalize : str -> str.
Variable segment : str -> list str.
Notation env := (page cfg xs xc).
Notation Editor := (MathEditor SyntaxNode).
Notation dispatch := (dispatch env default_renderers normalize segment).
Notation run_events := (run_events env default_renderers normalize segment).
Notation call := (call env).
Notation grows := (@grows cfg _).
(** Proof vocabulary: what was recorded since the editor was [ed], the first of it with the caret of [ed] *)
Definition entered (ed : Editor) (k : nat) (first : bool) (ed' : Editor) : Prop :=
  exists ces, List.length ces <= k /\ committed cfg (ed_input ed) ces (ed_input ed') /\ undo_stack (ed_undo ed') = rev ces ++ undo_stack (ed_undo ed) /\
    first_before ces (ed_caret ed) /\ (first = true -> ces <> []).
Lemma entered_nothing ed k : entered ed k false ed.
Proof. exists []. repeat split; [cbn; lia|constructor|discriminate]. Qed.
Lemma direct_first A op (f : Out SyntaxNode -> Handler A) k (first : bool) ed c : is_direct op = true -> op <> OpGetSyntaxTree -> (forall out, grows k (f out)) ->
  (if first then forall n, appends op n -> 0 < n else k = 0) -> co_editor c = Some ed -> on_editor (entered ed (cost op + k) first) (fst (handle (call op) f c)).
Proof.
  intros Hd Hs Hf Hk E. assert (Hu : is_undo_redo op = false) by (destruct op; cbn in Hd; congruence || reflexivity).
  unfold handle. unfold Component.call at 1. rewrite E. destruct (step env ed op) as [[ed1 out]|p] eqn:S; [|intros ed' E'; cbn in E'; discriminate].
  destruct (step_advanced S Hu Hs) as (ces&[C U _ _]&Ha&_&Hb). specialize (Hb (or_intror (or_intror Hd))).
  assert (L : List.length ces <= cost op). { destruct op; cbn in *; try lia; try discriminate. destruct accept; lia. }
  assert (H0 : on_editor (since cfg (ed_input ed1) (undo_stack (ed_undo ed1)) 0) (set_editor (Some ed1) c)).
  { intros ed2 E2. cbn in E2. inversion E2; subst. exists []. repeat split; auto. constructor. }
  pose proof (Hf out _ _ 0 _ H0) as H1. intros ed' E'. destruct (H1 ed' E') as (ces'&L'&C'&U'). exists (ces ++ ces').
  split; [rewrite app_length; cbn in L'; lia|]. split; [exact (committed_app C C')|]. split; [rewrite U', U, rev_app_distr, app_assoc; reflexivity|].
  destruct first.
  - specialize (Hk _ Ha). destruct ces; [cbn in Hk; lia|]. split; [exact Hb|]. intros _ X. discriminate X.
  - subst k. cbn in L'. destruct ces'; [|cbn in L'; lia]. rewrite app_nil_r. split; [exact Hb|discriminate].
Qed.
(** Proof vocabulary *)
Definition is_timer (e : Event) : bool := match e with EvTimer => true | _ => false end.
Lemma mathml_entered m c ed : co_editor c = Some ed -> on_editor (entered ed 2 false) (fst (set_mathml env default_renderers normalize segment m c)).
Proof.
  intros E. destruct m as [m|]; cbn [set_mathml].
  2: { intros ed' E'. cbn in E'. rewrite E in E'. inversion E'; subst. apply entered_nothing. }
  unfold handle at 1, lift at 1. destruct (from_element normalize segment m) as [p|k]; [|intros ed' E'; cbn in E'; rewrite E in E'; inversion E'; subst; apply entered_nothing].
  rewrite handle_get. intros ed' E'. cbv zeta in E'. 
  assert (X : on_editor (entered ed (1 + 0) false) (fst (handle (call (OpSpliceAtRange (mkMinRange [] (fst (syn_range (co_tree c))) (snd (syn_range (co_tree c)))) (fst p))) (fun _ => update_input env default_renderers) c))).
  { apply direct_first; auto; [discriminate|]. intros out. apply grows_update. }
  destruct (X ed' E') as (ces&L&R). exists ces. split; [lia|exact R].
Qed.
Lemma event_entered e c ed : enters c e = true -> co_editor c = Some ed -> on_editor (entered ed (steps_of c e) (is_timer e)) (fst (dispatch e c)).
Proof.
  intros He E. destruct e as [k|t| |[]|[]|[[json text]|]|[] p|[] p|dt p|[] p|m| |m]; cbn [enters steps_of is_timer] in *; try discriminate; cbn [Component.dispatch].
  - rewrite handle_get. destruct (co_tasks c) as [|[| |[data|]|] l]; try discriminate. cbn [run_tasks do_task].
    rewrite handle_modify, handle_assoc.
    intros ed' E'. assert (X : on_editor (entered ed (2 + (0 + 2 * List.length l)) true) (fst (handle (call (OpInsertAtCaret (segment data))) (fun _ => handle (update_input env default_renderers) (fun _ => run_tasks env default_renderers segment l)) (set_tasks l c)))).
    { apply (@direct_first _ (OpInsertAtCaret (segment data))); auto; [discriminate| |intros n [-> | ->]; lia]. intros out. apply grows_handle; [apply grows_update|intros _; apply grows_tasks]. }
    destruct (X ed' E') as (ces&L&R). exists ces. split; [cbn [List.length]; lia|exact R].
  - unfold call_paste. rewrite handle_assoc.
    change 2 with (cost (OpPaste match json with [] => text | _ => json end true) + 0). apply direct_first; auto; [discriminate|].
    intros out. change 0 with (0 + 0). apply grows_handle; [|intros _; apply grows_update]. destruct out; try apply (@grows_ret cfg xs xc); apply (@grows_lift cfg xs xc).
  - rewrite handle_modify. now apply mathml_entered.
  - now apply mathml_entered.
Qed.
Lemma undo_keys_some d d' stk p a : forall b c, on_editor (between cfg d d' stk (p ++ a) b) c -> on_editor (between cfg d d' stk p (a ++ b)) (run_events c (repeat (EvKey KeyUndo) (List.length a))).
Proof.
  induction a as [|ce a IH] using rev_ind; intros b c H; [now rewrite app_nil_r in H|]. rewrite app_length, Nat.add_comm. cbn [List.length Nat.add repeat Component.run_events]. rewrite <- app_assoc. apply IH. apply undo_key. now rewrite <- app_assoc.
Qed.
Lemma undo_key_caret d d' stk ce b c : on_editor (between cfg d d' stk [ce] b) c -> on_editor (fun ed => ed_caret ed = ce_before ce) (fst (dispatch (EvKey KeyUndo) c)).
Proof.
  apply (@key_moves cfg xs xc normalize segment KeyUndo OpUndo); [auto| |].
  - intros ed op ed' out [->| ->] H E; cbn [step] in E.
    + apply bind_ok in E as (m&_&E). inversion E; subst. exact H.
    + apply bind_ok in E as ([ed1 t]&Ht&E). inversion E; subst. apply parse_step in Ht as (p&->). exact H.
  - intros ed ed' out (C1&C2&U&(r&R)) E. cbn [rev app] in U. inversion C1 as [|? ? d2 ? ? K1 K2]; subst. inversion K2; subst.
    cbn [step] in E. unfold undo, undo_undo in E. rewrite U in E. unfold apply_action in E. cbn [set_undo ed_input caret_edit_inverse ce_edits] in E. change (env_cfg env) with cfg in E. pose proof (chain_inverse K1) as X; change (env_cfg env) with cfg in X; rewrite X in E. cbn [bind] in E. inversion E; subst. reflexivity.
Qed.
Lemma redo_key_caret d d' stk ce b c : on_editor (between cfg d d' stk [] (ce :: b)) c -> on_editor (fun ed => ed_caret ed = ce_after ce) (fst (dispatch (EvKey KeyRedo) c)).
Proof.
  apply (@key_moves cfg xs xc normalize segment KeyRedo OpRedo); [auto| |].
  - intros ed op ed' out [->| ->] H E; cbn [step] in E.
    + apply bind_ok in E as (m&_&E). inversion E; subst. exact H.
    + apply bind_ok in E as ([ed1 t]&Ht&E). inversion E; subst. apply parse_step in Ht as (p&->). exact H.
  - intros ed ed' out (C1&C2&U&(r&R)) E. inversion C2 as [|? ? d2 ? ? K1 K2]; subst. cbn [app] in R.
    cbn [step] in E. unfold redo, undo_redo in E. rewrite R in E. unfold apply_action in E. cbn [set_undo ed_input] in E. change (env_cfg env) with cfg in E. rewrite (chain_apply K1) in E. cbn [bind] in E. inversion E; subst. reflexivity.
Qed.
(** Proof vocabulary: if one step was recorded since the editor was [ed], then with the caret of [ed'] *)
Definition ends_there (ed ed' : Editor) : Prop :=
  List.length (undo_stack (ed_undo ed')) = S (List.length (undo_stack (ed_undo ed))) -> exists ce stk, undo_stack (ed_undo ed') = ce :: stk /\ ed_caret ed' = ce_after ce.
Lemma nodes_end ed0 ed x a vs ed2 ce ed' : ed0 = set_autocomplete ed x -> insert_nodes_at_caret env ed0 vs = Ok (ed2, Some ce) -> finish_autocorrect env ed2 a ce = Ok ed' -> ends_there ed ed'.
Proof.
  intros -> Hi Hf L. apply insert_nodes_advanced in Hi as (ce'&E&[_ U _ _]&_&Hc). inversion E; subst ce'. cbn [rev app set_autocomplete ed_undo] in U.
  apply finish_autocorrect_advanced in Hf as [->|(_&ce2&[_ U2 _ _]&_)]; [exists ce, (undo_stack (ed_undo ed)); auto|]. rewrite U2, U in L. cbn in L. lia.
Qed.
Lemma insert_end ed vs ed' out : step env ed (OpInsertAtCaret vs) = Ok (ed', out) -> ends_there ed ed'.
Proof.
  cbn [step]. intros H. apply bind_ok in H as (ed1&H&E). inversion E; subst. unfold insert_at_caret in H. apply bind_ok in H as ([ed0 a]&Ha&H). destruct (start_autocorrect_only Ha) as (x&Ex).
  apply bind_ok in H as ([ed2 act]&Hi&H). pose proof (insert_nodes_advanced Hi) as (ce&->&_). eapply nodes_end; [exact Ex|exact Hi|exact H].
Qed.
Lemma paste_end ed data ed' out : step env ed (OpPaste data true) = Ok (ed', out) -> ends_there ed ed'.
Proof.
  cbn [step]. intros H. apply bind_ok in H as ([ed1 b]&H&E). assert (ed1 = ed') by (destruct b; inversion E; reflexivity). subst ed1. clear E. unfold paste in H. apply bind_ok in H as ([ed0 a]&Ha&H). destruct (start_autocorrect_only Ha) as (x&Ex).
  cbn [negb] in H. destruct (env_deserialize env data) as [nodes|] eqn:Ed.
  2:{ inversion H; subst. intros L. cbn in L. lia. }
  apply bind_ok in H as ([ed2 act]&Hi&H). pose proof (insert_nodes_advanced Hi) as (ce&->&_). cbn beta iota in H. apply bind_ok in H as (ed3&H&E). inversion E; subst. eapply nodes_end; [reflexivity|exact Hi|exact H].
Qed.
Lemma ends_query ed ed1 op ed2 out : op = OpGetCaret \/ op = OpGetSyntaxTree -> ends_there ed ed1 -> step env ed1 op = Ok (ed2, out) -> ends_there ed ed2.
Proof.
  intros [->| ->] H E; cbn [step] in E.
  - apply bind_ok in E as (m&_&E). inversion E; subst. exact H.
  - apply bind_ok in E as ([ed3 t]&Ht&E). inversion E; subst. apply parse_step in Ht as (p&->). exact H.
Qed.
(** Only one text is in the queue, or something is pasted. Specification only; math-editor.ts:163-220. *)
Definition enters_once (c : Component) (e : Event) : bool :=
  match e with EvTimer => match co_tasks c with [InsertText (Some _)] => true | _ => false end | EvPaste (Some _) => true | _ => false end.
Lemma enters_one c e : enters_once c e = true -> enters c e = true.
Proof.
  destruct e as [k|t| |[]|[]|[[json text]|]|[] p|[] p|dt p|[] p|m| |m]; cbn; try discriminate; auto. destruct (co_tasks c) as [|[| |[data|]|] [|]]; congruence.
Qed.
Lemma event_ends e c ed : enters_once c e = true -> co_editor c = Some ed -> on_editor (ends_there ed) (fst (dispatch e c)).
Proof.
  intros He E. assert (T : forall A op (f : Out SyntaxNode -> Handler A) c, co_editor c = Some ed -> (forall ed' out, step env ed op = Ok (ed', out) -> ends_there ed ed') -> (forall out, keeps (on_editor (ends_there ed)) (f out)) -> on_editor (ends_there ed) (fst (handle (call op) f c))).
  { intros A op f c0 E0 Hs Hf. unfold handle, Component.call. rewrite E0. destruct (step env ed op) as [[ed1 out]|k] eqn:S; [|intros ed' E'; cbn in E'; discriminate].
    apply Hf. intros ed' E'. cbn in E'. inversion E'; subst. eauto. }
  assert (Q : forall ed1 op ed2 out, op = OpGetCaret \/ op = OpGetSyntaxTree -> ends_there ed ed1 -> step env ed1 op = Ok (ed2, out) -> ends_there ed ed2) by (intros; eapply ends_query; eauto).
  destruct e as [k|t| |[]|[]|[[json text]|]|[] p|[] p|dt p|[] p|m| |m]; cbn [enters_once] in He; try discriminate; cbn [Component.dispatch].
  - rewrite handle_get. destruct (co_tasks c) as [|[| |[data|]|] [|]]; try discriminate. cbn [run_tasks do_task]. rewrite handle_modify, handle_assoc. apply T; [exact E|intros ed' out; apply insert_end|].
    intros out. apply keeps_handle; [exact (@keeps_update_input _ _ _ Q)|intros; apply keeps_ret].
  - unfold call_paste. rewrite handle_assoc. apply T; [exact E|intros ed' out; apply paste_end|]. intros out. apply keeps_handle; [destruct out; try apply keeps_ret; apply keeps_lift|intros; exact (@keeps_update_input _ _ _ Q)].
Qed.
End Undo.

(** * C76, selections *)
(** After entering something, whether the handler fails or not: as many presses of the undo key as steps were recorded give back not only the document but, if there
    was a step, also the selection with its direction, and as many presses of the redo key what was entered. When text is typed there is at least one step.
    The only exception is that the editor is lost, as in C62. *)
Theorem C76_selection : forall cfg xs xc normalize segment c ed e, let env := page cfg xs xc in co_editor c = Some ed -> enters c e = true ->
  let c1 := fst (dispatch env default_renderers normalize segment e c) in
  co_editor c1 = None \/ exists ed1 n, co_editor c1 = Some ed1 /\ List.length (undo_stack (ed_undo ed1)) = n + List.length (undo_stack (ed_undo ed)) /\ n <= steps_of c e /\ (e = EvTimer -> 0 < n) /\
    let c2 := run_events env default_renderers normalize segment c1 (repeat (EvKey KeyUndo) n) in
    let c3 := run_events env default_renderers normalize segment c2 (repeat (EvKey KeyRedo) n) in
    (forall ed2, co_editor c2 = Some ed2 -> ed_input ed2 = ed_input ed /\ undo_stack (ed_undo ed2) = undo_stack (ed_undo ed) /\ (0 < n -> ed_caret ed2 = ed_caret ed)) /\
    (forall ed3, co_editor c3 = Some ed3 -> ed_input ed3 = ed_input ed1 /\ undo_stack (ed_undo ed3) = undo_stack (ed_undo ed1)).
Proof.
  intros cfg xs xc normalize segment c ed e env E He c1. subst env. pose proof (@event_entered cfg xs xc normalize segment e c ed He E) as H. fold c1 in H.
  destruct (co_editor c1) as [ed1|] eqn:E1; [right|now left]. destruct (H ed1 E1) as (ces&L&C&U&F&N). exists ed1, (List.length ces). split; [reflexivity|].
  split; [rewrite U, app_length, rev_length; reflexivity|]. split; [exact L|]. split; [intros ->; specialize (N eq_refl); destruct ces; [congruence|cbn; lia]|]. intros c2 c3.
  assert (B1 : on_editor (between cfg (ed_input ed) (ed_input ed1) (undo_stack (ed_undo ed)) ces []) c1).
  { intros ed0 E0. rewrite E1 in E0. inversion E0; subst. split; [exact C|]. split; [constructor|]. split; [exact U|]. now exists (redo_stack (ed_undo ed0)). }
  pose proof (@undo_keys_all cfg xs xc normalize segment _ _ _ _ _ _ B1) as B2. fold c2 in B2. rewrite app_nil_r in B2.
  pose proof (@redo_keys_all cfg xs xc normalize segment _ _ _ _ _ _ B2) as B3. fold c3 in B3. cbn [app] in B3. split.
  - intros ed2 E2. destruct (B2 _ E2) as (K&_&U2&_). inversion K; subst. split; [congruence|]. split; [exact U2|]. intros Hn.
    destruct ces as [|ce ces]; [cbn in Hn; lia|]. cbn in F. rewrite <- F.
    pose proof (@undo_keys_some cfg xs xc normalize segment (ed_input ed) (ed_input ed1) (undo_stack (ed_undo ed)) [ce] ces [] c1 B1) as B4.
    refine (@undo_key_caret cfg xs xc normalize segment _ _ _ ce _ _ B4 ed2 _). rewrite <- E2. subst c2. cbn [List.length]. replace (S (List.length ces)) with (List.length ces + 1) by lia.
    rewrite repeat_app, run_events_app. reflexivity.
  - intros ed3 E3. destruct (B3 _ E3) as (_&K&U3&_). inversion K; subst. split; [congruence|]. rewrite U3, U. reflexivity.
Qed.
Print Assumptions C76_selection.
(** The + in 1/2+a is selected from right to left and a superscript pasted over it; undo brings back the + and the selection with its direction. *)
Example C76_selection_case : forall cfg, let l := load [halves 1; token "mo" "+"; token "mi" "a"] :: drag_events (point [2] AtLeft) [] (point [1] AtLeft) in
  let e := EvPaste (Some (serialize_input_nodes [sup [sym "2"]], [])) in
  exists c ed c2 ed2, after cfg l = Some c /\ co_editor c = Some ed /\ enters c e = true /\ ed_caret ed = mkMinCaret (mkMinPos [] 2) (mkMinPos [] 1) /\
    doc_after cfg (l ++ [e]) <> doc_after cfg l /\ after cfg (l ++ [e; EvKey KeyUndo]) = Some c2 /\ co_editor c2 = Some ed2 /\ ed_input ed2 = ed_input ed /\ ed_caret ed2 = ed_caret ed.
Proof. intros cfg l e. both_profiles; (do 4 eexists; split; [vm_compute; reflexivity|]; split; [reflexivity|]; split; [reflexivity|]; split; [vm_compute; reflexivity|]; split; [vm_compute; discriminate|]; split; [vm_compute; reflexivity|]; split; [reflexivity|]; split; reflexivity). Qed.

(** If one step was recorded, and the caret was in a well-formed document before (as in all runs in which nothing is thrown, C19), then the undo key certainly
    works, even if the handler of the event failed: the editor is not lost. *)
Theorem C76_one_step : forall cfg xs xc normalize segment c ed e ed1, let env := page cfg xs xc in co_editor c = Some ed -> enters c e = true ->
  wf_row (ed_input ed) -> valid_caret (ed_input ed) (ed_caret ed) ->
  let c1 := fst (dispatch env default_renderers normalize segment e c) in co_editor c1 = Some ed1 -> List.length (undo_stack (ed_undo ed1)) = S (List.length (undo_stack (ed_undo ed))) ->
  exists ed2, co_editor (fst (dispatch env default_renderers normalize segment (EvKey KeyUndo) c1)) = Some ed2 /\ ed_input ed2 = ed_input ed /\ ed_caret ed2 = ed_caret ed /\
    undo_stack (ed_undo ed2) = undo_stack (ed_undo ed).
Proof.
  intros cfg xs xc normalize segment c ed e ed1 env E He Hwf Hv c1 E1 Hl. subst env. pose proof (@event_entered cfg xs xc normalize segment e c ed He E) as H. fold c1 in H.
  destruct (H ed1 E1) as (ces&L&C&U&F&N). rewrite U, app_length, rev_length in Hl. destruct ces as [|ce [|ce' ces]]; cbn in Hl; try lia. cbn in F, U.
  inversion C as [|? ? d2 ? ? K1 K2]; subst. inversion K2; subst.
  assert (S : exists ed2, step (page cfg xs xc) ed1 OpUndo = Ok ed2 /\ ed_input (fst ed2) = ed_input ed /\ ed_caret (fst ed2) = ed_caret ed /\ undo_stack (ed_undo (fst ed2)) = undo_stack (ed_undo ed)).
  { cbn [step]. unfold undo, undo_undo. rewrite U. unfold apply_action. cbn [set_undo ed_input caret_edit_inverse ce_edits]. change (env_cfg (page cfg xs xc)) with cfg.
    pose proof (chain_inverse K1) as X. change (env_cfg (page cfg xs xc)) with cfg in X. rewrite X. cbn [bind]. eexists. split; [reflexivity|]. cbn. auto. }
  destruct S as ([ed2 out]&S&I2&C2&U2). cbn [fst] in *.
  assert (Lv : lively ed2) by (unfold lively; rewrite I2, C2; now split).
  assert (D : dispatch (page cfg xs xc) default_renderers normalize segment (EvKey KeyUndo) c1 = handle (call (page cfg xs xc) OpUndo) (fun _ => update_input (page cfg xs xc) default_renderers) c1).
  { cbn [dispatch]. unfold on_key. rewrite handle_assoc. reflexivity. }
  rewrite D. destruct (@then_update cfg xs xc default_renderers OpUndo c1 ed1 ed2 out E1 S Lv) as (t&Et&_). rewrite Et. eexists. split; [reflexivity|]. cbn. auto.
Qed.
Print Assumptions C76_one_step.
(** The timer types a space behind x^2 and throws. *)
Example C76_one_step_case : forall cfg, let l := at_end ++ map EvBeforeInput inputs in exists c ed c1 ed1, after cfg l = Some c /\ co_editor c = Some ed /\ enters c EvTimer = true /\
  wf_row (ed_input ed) /\ valid_caret (ed_input ed) (ed_caret ed) /\ throws cfg l EvTimer /\ after cfg (l ++ [EvTimer]) = Some c1 /\ co_editor c1 = Some ed1 /\ List.length (undo_stack (ed_undo ed1)) = S (List.length (undo_stack (ed_undo ed))).
Proof.
  intros cfg l. both_profiles; (do 4 eexists; split; [vm_compute; reflexivity|]; split; [reflexivity|]; split; [reflexivity|]; split; [apply wf_rowb_ok; reflexivity|]; split; [split; (eexists; split; [reflexivity|cbn; lia])|];
    split; [vm_compute; discriminate|]; split; [vm_compute; reflexivity|]; split; reflexivity).
Qed.

(** After typing one text or pasting, if one step was recorded, the redo key gives back the selection from after the event. *)
Theorem C76_redo_selection : forall cfg xs xc normalize segment c ed e ed1 ed3, let env := page cfg xs xc in co_editor c = Some ed -> enters_once c e = true ->
  let c1 := fst (dispatch env default_renderers normalize segment e c) in co_editor c1 = Some ed1 -> List.length (undo_stack (ed_undo ed1)) = S (List.length (undo_stack (ed_undo ed))) ->
  co_editor (run_events env default_renderers normalize segment c1 [EvKey KeyUndo; EvKey KeyRedo]) = Some ed3 -> ed_input ed3 = ed_input ed1 /\ ed_caret ed3 = ed_caret ed1.
Proof.
  intros cfg xs xc normalize segment c ed e ed1 ed3 env E He c1 E1 Hl E3. subst env.
  assert (He' := enters_one c e He).
  pose proof (@event_entered cfg xs xc normalize segment e c ed He' E) as H. fold c1 in H. pose proof (@event_ends cfg xs xc normalize segment e c ed He E ed1 E1 Hl) as (ce&stk&U1&Hc).
  destruct (H ed1 E1) as (ces&L&C&U&F&N). assert (Hl2 := Hl). rewrite U, app_length, rev_length in Hl2. destruct ces as [|ce' [|ce2 ces]]; cbn in Hl2; try lia. cbn [rev app] in U. rewrite U in U1. inversion U1; subst ce' stk.
  assert (B1 : on_editor (between cfg (ed_input ed) (ed_input ed1) (undo_stack (ed_undo ed)) [ce] []) c1).
  { intros ed0 E0. rewrite E1 in E0. inversion E0; subst. split; [exact C|]. split; [constructor|]. split; [exact U|]. now exists (redo_stack (ed_undo ed0)). }
  pose proof (@undo_key cfg xs xc normalize segment _ _ _ [] ce [] c1 B1) as B2. pose proof (@redo_key cfg xs xc normalize segment _ _ _ [] ce [] _ B2) as B3. cbn [run_events] in E3.
  split; [destruct (B3 _ E3) as (_&K&_); inversion K; subst; congruence|]. rewrite Hc. exact (@redo_key_caret cfg xs xc normalize segment _ _ _ ce [] _ B2 ed3 E3).
Qed.
Print Assumptions C76_redo_selection.
(** As in [C76_selection_case] *)
Example C76_redo_selection_case : forall cfg, let l := load [halves 1; token "mo" "+"; token "mi" "a"] :: drag_events (point [2] AtLeft) [] (point [1] AtLeft) in
  let e := EvPaste (Some (serialize_input_nodes [sup [sym "2"]], [])) in
  exists c ed c1 ed1 c3 ed3, after cfg l = Some c /\ co_editor c = Some ed /\ enters_once c e = true /\ after cfg (l ++ [e]) = Some c1 /\ co_editor c1 = Some ed1 /\
    List.length (undo_stack (ed_undo ed1)) = S (List.length (undo_stack (ed_undo ed))) /\ after cfg (l ++ [e; EvKey KeyUndo; EvKey KeyRedo]) = Some c3 /\ co_editor c3 = Some ed3 /\ ed_caret ed1 <> ed_caret ed.
Proof. intros cfg l e. both_profiles; (do 6 eexists; split; [vm_compute; reflexivity|]; split; [reflexivity|]; split; [reflexivity|]; split; [vm_compute; reflexivity|]; split; [reflexivity|]; split; [reflexivity|]; split; [vm_compute; reflexivity|]; split; [reflexivity|discriminate]). Qed.

(** The redo key does not always give back the selection from after the event (it does after typing and pasting, as above): with the caret between "a" and "b" the attribute is
    set to "xyz", which leaves the caret behind the "x". After undo and redo it is in front of the "x": what is recorded is not the caret that was set. *)
Theorem C76_redo_selection_refuted : forall cfg, exists l e c1 ed1 c3 ed3, after cfg (l ++ [e]) = Some c1 /\ co_editor c1 = Some ed1 /\
  after cfg (l ++ [e; EvKey KeyUndo; EvKey KeyRedo]) = Some c3 /\ co_editor c3 = Some ed3 /\ ed_input ed3 = ed_input ed1 /\
  ed_caret ed1 = collapsed (here 1) /\ ed_caret ed3 = collapsed (here 0).
Proof.
  intros cfg. exists (typing "ab" ++ [EvKey KeyLeft]), (EvAttribute (Some (tag "math" [token "mi" "x"; token "mi" "y"; token "mi" "z"]))).
  both_profiles; (do 4 eexists; split; [vm_compute; reflexivity|]; split; [reflexivity|]; split; [vm_compute; reflexivity|]; split; [reflexivity|]; repeat split; vm_compute; reflexivity).
Qed.
Print Assumptions C76_redo_selection_refuted.
