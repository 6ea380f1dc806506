(** The caret stays in the document and nothing panics (C19, C20). *)
From Coq Require Import String.
From Verif Require Import Base Str Grid Node Focus Edit Caret Autocomplete Editor Rules Spec SpecAuto SpecMove SpecEditor SpecSafety BaseFacts
  PopupFacts SafetyFacts SafetyProofs Samples PropsAuto PropsEditor.
Open Scope list_scope.
Open Scope nat_scope.

(** * C19: the caret always denotes a valid place in the document *)
(** Missing are the operations that [keeps_caret] leaves out: an autocorrection when the
    caret moves away from a token, Delete between a token and a container, accepting a
    completion or splicing when this shortens the row of the caret too much. *)
Theorem C19_caret_partial : forall (SyntaxNode : Type) (env : Env SyntaxNode) ops ed,
  (forall rule, In rule (env_rules env) -> wf_row (rule_result rule)) ->
  all_along env (fun ed op => proper_args any_part env ed op /\ keeps_caret env ed op) (@editor_new SyntaxNode) ops ->
  run env (@editor_new SyntaxNode) ops = Ok ed ->
  wf_row (ed_input ed) /\ valid_caret (ed_input ed) (ed_caret ed) /\ exists sel, get_caret ed = Ok sel.
Proof. exact @caret_stays. Qed.
Print Assumptions C19_caret_partial.
(** Typing "sum" and accepting the completion, clicking in front of a completely typed
    token that is as far from the start of the row as it is long, and splicing. *)
Definition lost_caret cfg ops := exists ed, run (default_env cfg) (editor_new _) ops = Ok ed /\
  ~ valid_pos (ed_input ed) (mc_start (ed_caret ed)) /\ exists k, get_caret ed = Panic k.
Theorem C19_refuted : forall cfg,
  lost_caret cfg (type_text "sum" ++ [OpFinishAutocomplete true]) /\
  lost_caret cfg (type_text "xxx" ++ type_text "+" ++ [OpStartSelection (here 3) MChar] ++ type_text "sum" ++ [OpStartSelection (here 7) MChar]) /\
  lost_caret cfg (type_text "ab" ++ [OpSpliceAtRange (mkMinRange [] 0 2) []]).
Proof.
  intros cfg. both_profiles; (split; [|split]); (eexists; split; [vm_compute; reflexivity|]; split;
    [intros (row&Hr&Ho); vm_compute in Hr; inversion Hr; subst row; vm_compute in Ho; lia|eexists; vm_compute; reflexivity]).
Qed.
Print Assumptions C19_refuted.

(** * C20: no operation panics *)
(** Missing are the operations that [keeps_caret] and [avoids_panic] leave out:
    unfinished operations and subtractions that underflow in builds with overflow
    checks. *)
Theorem C20_no_panic_partial : forall (SyntaxNode : Type) (env : Env SyntaxNode) ops,
  Forall ascii_rule (env_rules env) -> (forall rule, In rule (env_rules env) -> proper nonempty (rule_result rule)) ->
  all_along env (fun ed op => proper_args nonempty env ed op /\ keeps_caret env ed op /\ avoids_panic env ed op)
    (@editor_new SyntaxNode) ops ->
  exists ed, run env (@editor_new SyntaxNode) ops = Ok ed /\ valid_caret (ed_input ed) (ed_caret ed).
Proof. exact @editor_total. Qed.
Print Assumptions C20_no_panic_partial.
Definition panics cfg ops := exists k, run (default_env cfg) (editor_new _) ops = Panic k.
(** In all builds: clicking elsewhere after typing "xxxxxsqrt", asking for the caret
    after completing "sum", Delete between "sum" and the end of a numerator, Backspace
    with a table cell selection. *)
Theorem C20_refuted : forall cfg,
  panics cfg (type_text "xxxxxsqrt" ++ [OpStartSelection (here 0) MChar]) /\
  panics cfg (type_text "sum" ++ [OpFinishAutocomplete true; OpGetCaret]) /\
  panics cfg ([OpSpliceAtRange (mkMinRange [] 0 0) [fraction (typed "sum") []]; OpStartSelection (mkMinPos [(0, 0)] 3) MChar; OpRemoveAtCaret RemoveRight]) /\
  panics cfg ([OpSpliceAtRange (mkMinRange [] 0 0) [Container Table (mkGrid [[]; []] 2)]; OpStartSelection (mkMinPos [(0, 0)] 0) MChar;
     OpExtendSelection (mkMinPos [(0, 1)] 0); OpRemoveAtCaret RemoveLeft]) /\
  panics cfg [OpMoveCaret DLeft MWord] /\ panics cfg [OpPaste (lit "x") false].
Proof. intros cfg. both_profiles; repeat split; eexists; vm_compute; reflexivity. Qed.
Print Assumptions C20_refuted.
(** With overflow checks: Backspace and Delete in a new editor, Left at the start of a
    numerator, Backspace there. *)
Theorem C20_overflow_refuted :
  panics debug_profile [OpRemoveAtCaret RemoveLeft] /\ panics debug_profile [OpRemoveAtCaret RemoveRight] /\
  forall op, In op [OpMoveCaret DLeft MChar; OpSelectWithCaret DLeft MChar; OpRemoveAtCaret RemoveLeft] ->
  panics debug_profile [OpSpliceAtRange (mkMinRange [] 0 0) [fraction [sym "a"] []]; OpStartSelection (mkMinPos [(0, 0)] 0) MChar; op].
Proof.
  split; [eexists; vm_compute; reflexivity|]. split; [eexists; vm_compute; reflexivity|].
  intros op [<-|[<-|[<-|[]]]]; (eexists; vm_compute; reflexivity).
Qed.
Print Assumptions C20_overflow_refuted.
(** The default rules meet the hypotheses. *)
Example C20_default_rules : Forall ascii_rule default_rules /\ forall rule, In rule default_rules -> proper nonempty (rule_result rule).
Proof.
  split; [exact default_rules_ascii|]. intros rule Hin.
  assert (H : forallb (fun rule => wf_rowb (rule_result rule) && forallb (fun s => negb (Datatypes.length s =? 0)) (row_symbols (rule_result rule))) default_rules = true)
    by (vm_compute; reflexivity).
  rewrite forallb_forall in H. apply H, andb_true_iff in Hin as [H1 H2]. split; [now apply wf_rowb_ok|].
  intros [s|v c w] Hs; [|exact I]. apply symbols_parts in Hs. rewrite forallb_forall in H2. apply H2 in Hs. destruct s; [discriminate|]. discriminate.
Qed.
(** A run with typing, moving into a fraction, selecting, deleting and undoing. *)
Ltac not_due := intros (?&?&?&?&Hg&Hm&Hl&_); vm_compute in Hg; inversion Hg; subst; vm_compute in Hm; inversion Hm; subst; vm_compute in Hl; discriminate.
Ltac in_row := eexists; vm_compute; reflexivity.
Ltac not_zero := intros; match goal with H : get_caret _ = _ |- _ => vm_compute in H; inversion H; subst end;
  intros [Hz (?&?&Hp)]; vm_compute in Hz; apply (f_equal (fun l => snd (List.last l (0, 1)))) in Hp; rewrite last_last in Hp;
  first [discriminate Hz|vm_compute in Hp; discriminate Hp].
Ltac next := let H := fresh in intros ? ? H; vm_compute in H; inversion H; subst; clear H.
Definition C20_run : list Op :=
  type_text "li" ++
  [OpSpliceAtRange (mkMinRange [] 1 1) [fraction [sym "b"] []]; OpMoveCaret DLeft MChar; OpMoveCaret DLeft MChar;
   OpSelectWithCaret DRight MChar; OpRemoveAtCaret RemoveLeft; OpUndo; OpMoveCaret DDown MChar; OpGetCaret; OpGetSyntaxTree].
Example C20_case : all_along (default_env debug_profile)
  (fun ed op => proper_args nonempty (default_env debug_profile) ed op /\ keeps_caret (default_env debug_profile) ed op /\ avoids_panic (default_env debug_profile) ed op)
  (editor_new _) C20_run.
Proof.
  unfold C20_run. set (t := type_text "li"). vm_compute in t. subst t. cbn [app all_along].
  split; [split; [|split]; [intros s [<-|[]]; discriminate|exact I|in_row]|next].
  split; [split; [|split]; [intros s [<-|[]]; discriminate|exact I|in_row]|next].
  split; [split; [|split]|next].
  { split; [eexists; split; [vm_compute; reflexivity|vm_compute; lia]|]. split; [apply wf_rowb_ok; reflexivity|]. intros s [<-|[<-|[]]]; [exact I|discriminate]. }
  { split; (right; split; [reflexivity|]; intros row Hr; vm_compute in Hr; inversion Hr; vm_compute; lia). }
  { exact I. }
  split; [split; [exact I|split; [not_due|split; [reflexivity|not_zero]]]|next].
  split; [split; [exact I|split; [not_due|split; [reflexivity|not_zero]]]|next].
  split; [split; [exact I|split; [not_due|split; [reflexivity|split; [in_row|not_zero]]]]|next].
  split; [split; [exact I|split; [exact I|split; [in_row|]]]|next].
  { intros _ q Hq. vm_compute in Hq. injection Hq as H1 H2. rewrite <- H1 in H2. discriminate. }
  split; [split; [exact I|split; exact I]|next].
  split; [split; [exact I|split; [not_due|split; [reflexivity|discriminate]]]|next].
  split; [split; [exact I|split; [exact I|exact I]]|next].
  split; [split; [exact I|split; [exact I|eexists; reflexivity]]|next].
  exact I.
Qed.
Example C19_case : all_along (default_env debug_profile)
  (fun ed op => proper_args any_part (default_env debug_profile) ed op /\ keeps_caret (default_env debug_profile) ed op) (editor_new _) C20_run /\
  exists ed, run (default_env debug_profile) (editor_new _) C20_run = Ok ed /\ ed_caret ed = collapsed (here 2) /\ length (ed_input ed) = 3.
Proof.
  split.
  - eapply all_along_impl; [|exact C20_case]. intros ed op (H1&H2&_). split; [exact (proper_args_any H1)|exact H2].
  - eexists. split; [vm_compute; reflexivity|]. split; vm_compute; reflexivity.
Qed.
