(** What happens if the caret is not in the document, and that it is in a page (C19). *)
From Coq Require Import String.
From Verif Require Import Base Str Grid Node Focus Edit Caret Autocomplete Editor Rules NameMap Syntax Pratt Grammar SyntaxFind Render Layout Json FromMathML
  Spec SpecMove SpecEditor SpecSafety Component SpecComponent SpecEvent SpecPageField SpecLost BaseFacts TreeFacts MoveFacts EditorFacts Samples RenderFacts PropsAuto PropsEditor PropsSafety
  PropsImport PropsComponent ComponentFacts EventFacts PropsEvent.
Open Scope list_scope.
Open Scope nat_scope.

Lemma caret_valid doc m c : caret_from_minimal doc m = Ok c -> valid_caret doc m.
Proof.
  intros H. apply caret_from_minimal_inv in H as (G1&G2&E). subst m. split; cbn [caret_to_minimal mc_start mc_end]; now apply good_pos_valid.
Qed.
(** * C19: a caret that is not in the document *)
(** Asking for the caret works exactly if it is in the document. If not, all operations panic but selecting all, undo, redo, and those that
    do not look at the caret; selecting all puts it back. *)
Theorem C19_lost : forall (SyntaxNode : Type) (env : Env SyntaxNode) ed, wf_row (ed_input ed) ->
  ((exists sel, get_caret ed = Ok sel) <-> valid_caret (ed_input ed) (ed_caret ed)) /\
  (~ valid_caret (ed_input ed) (ed_caret ed) -> forall op, needs_caret op = true -> exists k, step env ed op = Panic k) /\
  (exists ed', step env ed OpSelectAll = Ok (ed', OutNone _) /\ ed_input ed' = ed_input ed /\ valid_caret (ed_input ed') (ed_caret ed')).
Proof.
  intros SyntaxNode env ed Hwf. split; [|split].
  - split.
    + intros (sel&H). unfold get_caret in H. apply bind_ok in H as (c&Hc&_). exact (caret_valid _ _ _ Hc).
    + intros [V1 V2]. destruct (caret_from_minimal_ok Hwf V1 V2) as (c&Hc&_). unfold get_caret. rewrite Hc. cbn. eauto.
  - intros Hn op Hop. assert (Hp : exists k, caret_from_minimal (ed_input ed) (ed_caret ed) = Panic k).
    { destruct (caret_from_minimal (ed_input ed) (ed_caret ed)) as [c|k] eqn:E; [|eauto]. elim Hn. exact (caret_valid _ _ _ E). }
    destruct Hp as (k&Hp). exists k.
    assert (Hg : get_autocomplete env ed = Panic k) by (unfold get_autocomplete; rewrite Hp; reflexivity).
    assert (Hs : start_autocorrect env ed = Panic k) by (unfold start_autocorrect; rewrite Hg; reflexivity).
    destruct op as [d mode|d mode|mode|vs| | | |p mode|p| | |data json| |[]|d| | |range vs]; cbn [needs_caret] in Hop; try discriminate Hop; cbn [step].
    + unfold move_caret. rewrite Hs. reflexivity.
    + unfold select_with_caret. rewrite Hs. reflexivity.
    + unfold editor_remove_at_caret. rewrite Hs. reflexivity.
    + unfold insert_at_caret. rewrite Hs. reflexivity.
    + unfold start_selection. replace (start_autocorrect env (set_selection_mode ed (Some mode))) with (Panic k : Res (MathEditor SyntaxNode * option AutocorrectAction)); [reflexivity|].
      unfold start_autocorrect, get_autocomplete. cbn [set_selection_mode ed_input ed_caret]. rewrite Hp. reflexivity.
    + unfold extend_selection. rewrite Hs. reflexivity.
    + unfold copy. rewrite Hp. reflexivity.
    + unfold paste. rewrite Hs. reflexivity.
    + unfold open_autocomplete. rewrite Hg. reflexivity.
    + unfold finish_autocomplete. cbn [negb]. rewrite Hg. reflexivity.
    + unfold move_in_autocomplete. rewrite Hg. reflexivity.
    + unfold get_caret. rewrite Hp. reflexivity.
  - eexists. split; [reflexivity|]. split; [reflexivity|]. cbn. split; (exists (ed_input ed); split; [reflexivity|cbn; lia]).
Qed.
Print Assumptions C19_lost.
(** Typing "sum" and accepting the completion *)
Example C19_lost_case : let env := default_env debug_profile in exists ed, run env (editor_new _) (type_text "sum" ++ [OpFinishAutocomplete true]) = Ok ed /\ wf_row (ed_input ed) /\ ~ valid_caret (ed_input ed) (ed_caret ed).
Proof.
  destruct (C19_refuted debug_profile) as ((ed&H&Hn&_)&_). exists ed. split; [exact H|]. split; [|intros [V _]; exact (Hn V)]. vm_compute in H. injection H as <-. apply wf_rowb_ok. reflexivity.
Qed.

(** In a page, as long as nothing is thrown, the caret of an element that is connected is in the document: after every operation it is asked
    for, and this fails otherwise. No condition on the rules, the renderers, the documents or the operations is needed. *)
Theorem C19_page : forall env renderers normalize segment connected c l, component_new env renderers connected = Ok c ->
  events_quiet env renderers normalize segment c l -> let c' := run_events env renderers normalize segment c l in co_connected c' = true ->
  exists ed, co_editor c' = Some ed /\ valid_caret (ed_input ed) (ed_caret ed).
Proof.
  intros env renderers normalize segment connected c l Hn Hq. cbv zeta.
  assert (I0 : exists ed, co_editor c = Some ed /\ (co_connected c = true -> valid_caret (ed_input ed) (ed_caret ed))).
  { destruct (new_ok Hn) as ((ed&E&_&K)&_). exists ed. split; [exact E|]. intros Hc. destruct (K Hc) as (sel&Hs&_). unfold get_caret in Hs. apply bind_ok in Hs as (x&Hx&_). exact (caret_valid _ _ _ Hx). }
  clear Hn. revert c I0 Hq. induction l as [|e l IH]; intros c (ed&E&V) Hq; cbn [run_events events_quiet] in *; [intros Hc; exists ed; auto|].
  destruct Hq as [Hq Hl]. destruct (dispatch env renderers normalize segment e c) as [c1 r] eqn:D. cbn [fst snd] in *. subst r.
  refine (IH c1 _ Hl). clear IH Hl. pose proof (C84_calls _ _ _ _ _ _ _ _ _ E D) as O. inversion O as [ed' Hrun E1 E2| |]; subst. exists ed'. split; [reflexivity|]. intros Hc.
  destruct (C84_memory _ _ _ _ _ _ _ _ D) as (_&Hc'&_). rewrite Hc in Hc'.
  (* the caret is asked for last *)
  assert (G : forall ops ed ed', run env ed (ops ++ [OpGetCaret]) = Ok ed' -> valid_caret (ed_input ed') (ed_caret ed')).
  { clear. induction ops as [|op ops IH]; intros ed ed' H; cbn [app run] in H; apply bind_ok in H as ([ed1 out]&Hs&H).
    - cbn [step] in Hs. apply bind_ok in Hs as (sel&Hs&E). inv E. inv H. unfold get_caret in Hs. apply bind_ok in Hs as (x&Hx&_). exact (caret_valid _ _ _ Hx).
    - exact (IH _ _ H). }
  assert (G' : forall ops, run env ed (ops ++ redraw_calls true) = Ok ed' -> valid_caret (ed_input ed') (ed_caret ed')).
  { intros ops H. apply (G (ops ++ [OpGetSyntaxTree; OpGetCaret]) ed). rewrite <- app_assoc. exact H. }
  assert (N : run env ed [] = Ok ed' -> co_connected c = true -> valid_caret (ed_input ed') (ed_caret ed')) by (intros H Hcc; cbn in H; inv H; exact (V Hcc)).
  assert (M : forall m c0 c2, set_mathml env renderers normalize segment m c0 = (c2, Ok tt) -> run env ed (load_calls normalize segment c true m) = Ok ed' -> valid_caret (ed_input ed') (ed_caret ed')).
  { intros m c0 c2 Hm Hr. apply mathml_ok in Hm as (math&root&errors&_&_&_&->&Ef&_). cbn [load_calls] in Hr. rewrite Ef in Hr. exact (G' [_] Hr). }
  destruct e as [k|t| |[]|[]|[[json text]|]|[] p|[] p|d p|[] p|m| |m]; cbn [connected_after event_calls] in *; try discriminate Hc'; try rewrite <- Hc' in Hrun; try (apply N; [exact Hrun|now symmetry]).
  - destruct k; cbn [key_op] in Hrun; try (exact (G' [_] Hrun)). exact (G' [] Hrun).
  - clear D O. assert (T : forall tasks ed ed', valid_caret (ed_input ed) (ed_caret ed) -> run env ed (flat_map (fun t => match task_op segment t with Some op => op :: redraw_calls true | None => [] end) tasks) = Ok ed' -> valid_caret (ed_input ed') (ed_caret ed')).
    { clear -G. induction tasks as [|t tasks IH]; intros ed ed' V H; cbn [flat_map] in H; [inv H; exact V|]. destruct (task_op segment t) as [op|]; [|exact (IH _ _ V H)].
      rewrite run_app in H. apply bind_ok in H as (ed1&H1&H2). refine (IH ed1 _ _ H2). exact (G [op; OpGetSyntaxTree; OpGetCaret] ed ed1 H1). }
    exact (T _ _ _ (V (eq_sym Hc')) Hrun).
  - cbn [run step] in Hrun. apply bind_ok in Hrun as ([ed1 out]&Hs&Hrun). apply bind_ok in Hs as (s&_&Hs). inv Hs. inv Hrun. exact (V (eq_sym Hc')).
  - exact (G' [_; _] Hrun).
  - exact (G' [_] Hrun).
  - unfold at_point in Hrun. destruct (shown_at c p); [exact (G' [_] Hrun)|apply N; [exact Hrun|now symmetry]].
  - unfold at_point in Hrun. destruct (shown_at c p); [exact (G [_; _] ed _ Hrun)|apply N; [exact Hrun|now symmetry]].
  - unfold at_point in Hrun. destruct (co_pointer_down c); [|apply N; [exact Hrun|now symmetry]]. destruct (shown_at c p); [|apply N; [exact Hrun|now symmetry]].
    destruct d as [|[|[|[|d]]]]; try (apply N; [exact Hrun|now symmetry]); exact (G [_] ed _ Hrun).
  - unfold at_point in Hrun. destruct (co_pointer_down c); [|apply N; [exact Hrun|now symmetry]]. destruct (shown_at c p); [exact (G [_] ed _ Hrun)|apply N; [exact Hrun|now symmetry]].
  - cbn [dispatch] in D. rewrite handle_modify in D. exact (M _ _ _ D Hrun).
  - cbn [dispatch] in D. exact (M _ _ _ D Hrun).
Qed.
Print Assumptions C19_page.
(** The session of C61 does not throw. *)
Example C19_page_case : exists c, component_new (ascii_page debug_profile) default_renderers true = Ok c /\ events_quiet (ascii_page debug_profile) default_renderers as_is by_character c more /\
  co_connected (run_events (ascii_page debug_profile) default_renderers as_is by_character c more) = true.
Proof.
  assert (H : match component_new (ascii_page debug_profile) default_renderers true with Ok c =>
      (fix quiet c l := match l with [] => co_connected c | e :: l => match dispatch (ascii_page debug_profile) default_renderers as_is by_character e c with (c', Ok tt) => quiet c' l | _ => false end end) c more
    | Panic _ => false end = true) by (vm_compute; reflexivity).
  destruct (component_new (ascii_page debug_profile) default_renderers true) as [c|k] eqn:E; [|discriminate H]. exists c. split; [reflexivity|]. clear E. revert c H. generalize more as l.
  induction l as [|e l IH]; intros c H; [split; [exact I|exact H]|]. cbn [events_quiet run_events]. destruct (dispatch (ascii_page debug_profile) default_renderers as_is by_character e c) as [c' [[]|]]; [|discriminate H].
  cbn [fst snd]. destruct (IH c' H) as [H1 H2]. split; [split; [reflexivity|exact H1]|exact H2].
Qed.
