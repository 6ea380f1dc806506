(** What the editor's operations answer (C79). *)
From Coq Require Import String.
From Verif Require Import Base Str Grid Node Focus Edit Caret Autocomplete Editor Rules Spec SpecAuto SpecEditor SpecMove SpecSafety SpecSelect SpecAnswer
  BaseFacts SelectFacts AnswerFacts Samples PropsAuto PropsEditor PropsSafety.
Open Scope list_scope.
Open Scope nat_scope.

(** * C79: the answers of the editor *)
(** An operation that returns None or an error has changed nothing but the remembered completion. *)
Theorem C79_nothing_done : forall (SyntaxNode : Type) (env : Env SyntaxNode) ed op ed', step env ed op = Ok (ed', OutNo _) -> exists a, ed' = set_autocomplete ed a.
Proof. exact @nothing_done. Qed.
Print Assumptions C79_nothing_done.
(** Opening the popup, moving in it and accepting succeed exactly when there is a completion. *)
Theorem C79_popup : forall (SyntaxNode : Type) (env : Env SyntaxNode) ed op ed' out, wf_row (ed_input ed) ->
  In op [OpOpenAutocomplete; OpFinishAutocomplete true; OpMoveInAutocomplete VUp; OpMoveInAutocomplete VDown] -> step env ed op = Ok (ed', out) ->
  (out = OutNone _ /\ offered env ed) \/ (out = OutNo _ /\ ~ offered env ed).
Proof. exact @popup_answer. Qed.
Print Assumptions C79_popup.
(** Opening the popup remembers the entry that is selected in it and changes nothing else. *)
Theorem C79_opened : forall (SyntaxNode : Type) (env : Env SyntaxNode) ed ed', step env ed OpOpenAutocomplete = Ok (ed', OutNone _) ->
  exists ed1 r m, get_autocomplete env ed = Ok (ed1, Some r) /\ nth_error (ar_matches r) (ar_selected r) = Some m /\ ed' = set_autocomplete ed (Some (m_rule m)).
Proof.
  intros SyntaxNode env ed ed' H. cbn [step] in H. apply bind_ok in H as ([ed2 b]&E&H). unfold open_autocomplete in E. apply bind_ok in E as ([ed3 r]&E&H'). injection H' as <- <-.
  destruct r as [r|]; [|discriminate H]. injection H as <-. pose proof E as G. unfold get_autocomplete in G. apply bind_ok in G as (c&_&G). destruct (c_selection c) as [range|]; [|discriminate G].
  destruct (rg_is_collapsed range); [|discriminate G]. cbv zeta in G. apply bind_ok in G as (ms&_&G). apply bind_ok in G as ([cur res]&Hst&G). injection G as <- ->.
  unfold state_get_autocomplete in Hst. destruct ms as [|m0 ms]; [discriminate Hst|]. cbv zeta in Hst. apply bind_ok in Hst as (r'&Hr&Hst). injection Hst as <- <-.
  unfold results_new in Hr. apply bind_ok in Hr as (?&Ha&Hr). injection Hr as <-. apply assert_ok, Nat.ltb_lt in Ha. cbn [ar_matches ar_selected].
  match type of Ha with ?k < List.length ?l => destruct (nth_error l k) as [m|] eqn:Em; [|apply nth_error_None in Em; lia] end. do 3 eexists. split; [exact E|]. split; [exact Em|].
  f_equal. change (insert_match m0 (sort_matches ms)) with (sort_matches (m0 :: ms)). now rewrite Em.
Qed.
Print Assumptions C79_opened.
Theorem C79_declined : forall (SyntaxNode : Type) (env : Env SyntaxNode) ed, step env ed (OpFinishAutocomplete false) = Ok (ed, OutNo _).
Proof. reflexivity. Qed.
Print Assumptions C79_declined.
Theorem C79_history : forall (SyntaxNode : Type) (env : Env SyntaxNode) ed,
  (forall ed' out, step env ed OpUndo = Ok (ed', out) -> out = if can_undo (ed_undo ed) then OutNone _ else OutNo _) /\
  (forall ed' out, step env ed OpRedo = Ok (ed', out) -> out = if can_redo (ed_undo ed) then OutNone _ else OutNo _).
Proof. exact @history_answer. Qed.
Print Assumptions C79_history.
Theorem C79_paste : forall (SyntaxNode : Type) (env : Env SyntaxNode) ed data ed' out, step env ed (OpPaste data true) = Ok (ed', out) ->
  out = match env_deserialize env data with Some _ => OutNone _ | None => OutNo _ end.
Proof. exact @paste_answer. Qed.
Print Assumptions C79_paste.
(** Shift+Left and Shift+Right fail exactly at the edge of the document; otherwise the end of the
    selection is the next position. *)
Theorem C79_select : forall (SyntaxNode : Type) (env : Env SyntaxNode) ed d m, wf_row (ed_input ed) -> get_caret ed = Ok (MSelRow m) ->
  (exists x, get_autocomplete env ed = Ok x) -> ~ autocorrect_pending env ed -> d = DLeft \/ d = DRight -> ~ underflows (env_cfg env) d (range_end m) ->
  exists ed', ed_input ed' = ed_input ed /\
    (step env ed (OpSelectWithCaret d MChar) = Ok (ed', OutNo _) /\ ed_caret ed' = ed_caret ed /\ range_end m = edge d (ed_input ed) \/
     exists q, step env ed (OpSelectWithCaret d MChar) = Ok (ed', OutNone _) /\
      ed_caret ed' = mkMinCaret (mc_start (ed_caret ed)) q /\ follows d (ed_input ed) (range_end m) q).
Proof. exact @select_step. Qed.
Print Assumptions C79_select.

(** After "lim" there is a completion, after "x" there is none. *)
Example C79_case : forall cfg, exists ed1 ed2, run (default_env cfg) (editor_new _) (type_text "lim") = Ok ed1 /\ run (default_env cfg) (editor_new _) (type_text "x") = Ok ed2 /\
  wf_row (ed_input ed1) /\ wf_row (ed_input ed2) /\
  (exists ed', step (default_env cfg) ed1 OpOpenAutocomplete = Ok (ed', OutNone _)) /\ (exists ed', step (default_env cfg) ed2 OpOpenAutocomplete = Ok (ed', OutNo _)) /\
  offered (default_env cfg) ed1 /\ ~ offered (default_env cfg) ed2.
Proof.
  intros cfg. both_profiles; (do 2 eexists; split; [vm_compute; reflexivity|]; split; [vm_compute; reflexivity|];
    split; [apply wf_rowb_ok; vm_compute; reflexivity|]; split; [apply wf_rowb_ok; vm_compute; reflexivity|];
    split; [eexists; vm_compute; reflexivity|]; split; [eexists; vm_compute; reflexivity|]; split).
  1,3: match goal with |- offered ?e ?ed => destruct (C79_popup _ e ed OpOpenAutocomplete _ _ ltac:(apply wf_rowb_ok; vm_compute; reflexivity) ltac:(now left) ltac:(vm_compute; reflexivity)) as [[_ H]|[H _]]; [exact H|discriminate H] end.
  all: match goal with |- ~ offered ?e ?ed => destruct (C79_popup _ e ed OpOpenAutocomplete _ _ ltac:(apply wf_rowb_ok; vm_compute; reflexivity) ltac:(now left) ltac:(vm_compute; reflexivity)) as [[H _]|[_ H]]; [discriminate H|exact H] end.
Qed.
