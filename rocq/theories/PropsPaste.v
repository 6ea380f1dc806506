(** Copy and paste (C29, C30). *)
From Coq Require Import String.
From Verif Require Import Base Str Grid Node Focus Edit Caret Autocomplete Editor Rules Json Spec SpecAuto SpecMove SpecEditor SpecSafety SpecText
  BaseFacts TreeFacts OpFacts TextFacts Samples PropsAuto PropsEditor PropsSafety.
Open Scope list_scope.
Open Scope nat_scope.

(** The default rules with the JSON format in a 32 bit build. *)
Definition json_env (cfg : Cfg) : Env unit :=
  mkEnv cfg default_rules (fun _ => Ok tt) serialize_input_nodes (deserialize_input_nodes 4294967295).

(** * C29: copy then paste inserts an exact copy of the selection *)
(** Missing: more than 20 containers around each other. *)
Theorem C29_text_partial : forall usize_max nodes, fits_row usize_max nodes -> row_nesting nodes <= 20 ->
  deserialize_input_nodes usize_max (serialize_input_nodes nodes) = Some nodes.
Proof. exact deserialize_shallow. Qed.
Print Assumptions C29_text_partial.
(** Pasted is an exact copy, anywhere in any document; next to a completely typed token too, if the documents are well-formed. *)
Theorem C29_copy_paste_partial : forall (SyntaxNode : Type) (env : Env SyntaxNode) usize_max ed m vs, uses_json env usize_max ->
  get_caret ed = Ok (MSelRow m) -> nodes_in (ed_input ed) m vs -> fits_row usize_max vs -> row_nesting vs <= 20 ->
  exists text, step env ed OpCopy = Ok (ed, OutText _ text) /\
    forall ed2 m2, get_caret ed2 = Ok (MSelRow m2) -> (exists x, get_autocomplete env ed2 = Ok x) ->
      ~ autocorrect_pending env ed2 \/ wf_row (ed_input ed) /\ wf_row (ed_input ed2) ->
    exists ed3, step env ed2 (OpPaste text true) = Ok (ed3, OutNone _) /\
      nodes_replaced (ed_input ed2) (mr_row m2) (lo m2) (hi m2) vs (ed_input ed3) /\
      ed_caret ed3 = collapsed (mkMinPos (mr_row m2) (lo m2 + length vs)).
Proof. exact copy_paste. Qed.
Print Assumptions C29_copy_paste_partial.
(** With more than 20 containers around each other the text exceeds the depth that
    serde_json reads: what has been copied can never be pasted. *)
Theorem C29_deep : forall (SyntaxNode : Type) (env : Env SyntaxNode) usize_max ed m vs, uses_json env usize_max ->
  get_caret ed = Ok (MSelRow m) -> nodes_in (ed_input ed) m vs -> wf_row vs -> 20 < row_nesting vs ->
  exists text, step env ed OpCopy = Ok (ed, OutText _ text) /\
    forall ed2 ed3 out, step env ed2 (OpPaste text true) = Ok (ed3, out) -> out = OutNo _ /\ ed_input ed3 = ed_input ed2.
Proof. exact copy_paste_deep. Qed.
Print Assumptions C29_deep.
(** Such documents can be made: paste 20 exponents, go to the innermost one and paste
    another one. *)
Fixpoint tower (n : nat) : InputRow := match n with 0 => [sym "x"] | S n => [sup (tower n)] end.
Definition tower_ops := [OpPaste (serialize_input_nodes (tower 20)) true; OpStartSelection (mkMinPos (repeat (0, 0) 20) 0) MChar;
  OpPaste (serialize_input_nodes (tower 1)) true; OpStartSelection (here 0) MChar; OpExtendSelection (here 1)].
Theorem C29_refuted : forall cfg, exists ed text, run (json_env cfg) (editor_new _) tower_ops = Ok ed /\
  get_caret ed = Ok (MSelRow (mkMinRange [] 0 1)) /\ step (json_env cfg) ed OpCopy = Ok (ed, OutText _ text) /\
  exists ed', step (json_env cfg) ed (OpPaste text true) = Ok (ed', OutNo _).
Proof. intros cfg. both_profiles; eexists; eexists; (split; [vm_compute; reflexivity|]); repeat split; try (vm_compute; reflexivity); eexists; vm_compute; reflexivity. Qed.
Print Assumptions C29_refuted.
Example C29_case : uses_json (json_env release_profile) 4294967295 /\ exists ed,
  run (json_env release_profile) (editor_new _) [OpPaste (serialize_input_nodes sample) true; OpStartSelection (here 3) MChar; OpExtendSelection (here 1)] = Ok ed /\
  get_caret ed = Ok (MSelRow (mkMinRange [] 3 1)) /\ nodes_in (ed_input ed) (mkMinRange [] 3 1) (tl sample) /\
  fits_row 4294967295 (tl sample) /\ row_nesting (tl sample) = 3 /\
  (exists x, get_autocomplete (json_env release_profile) ed = Ok x) /\ ~ autocorrect_pending (json_env release_profile) ed.
Proof.
  split; [split; reflexivity|]. eexists. split; [vm_compute; reflexivity|]. split; [reflexivity|]. split; [exists sample; repeat split; cbn; lia|].
  split; [|split; [reflexivity|split; [eexists; vm_compute; reflexivity|]]].
  - apply fits_rowb_ok. vm_compute. reflexivity.
  - eapply not_collapsed_not_pending with (m := mkMinRange [] 3 1); [reflexivity|cbn; lia].
Qed.

(** * C30: pasting arbitrary text is rejected or leaves a well-formed document *)
(** Text that is not in the right format changes nothing. *)
Theorem C30_rejected : forall (SyntaxNode : Type) (env : Env SyntaxNode) ed text ed' out,
  env_deserialize env text = None -> step env ed (OpPaste text true) = Ok (ed', out) ->
  out = OutNo _ /\ ed_input ed' = ed_input ed /\ ed_caret ed' = ed_caret ed /\ ed_undo ed' = ed_undo ed.
Proof. exact @rejected. Qed.
Print Assumptions C30_rejected.
(** Missing: text in the right format that describes ill-formed nodes. *)
Theorem C30_well_formed_partial : forall (SyntaxNode : Type) (env : Env SyntaxNode) ed text nodes ed' out m,
  wf_row (ed_input ed) -> (forall rule, In rule (env_rules env) -> wf_row (rule_result rule)) ->
  get_caret ed = Ok (MSelRow m) -> env_deserialize env text = Some nodes -> wf_row nodes ->
  step env ed (OpPaste text true) = Ok (ed', out) -> wf_row (ed_input ed').
Proof. exact @paste_wf. Qed.
Print Assumptions C30_well_formed_partial.
(** Nothing checks them: all nodes can be pasted by some text, and ill-formed ones always
    make an ill-formed document. *)
Theorem C30_unchecked : forall (SyntaxNode : Type) (env : Env SyntaxNode) usize_max ed m nodes, uses_json env usize_max ->
  get_caret ed = Ok (MSelRow m) -> (exists x, get_autocomplete env ed = Ok x) -> ~ autocorrect_pending env ed ->
  fits_row usize_max nodes -> row_nesting nodes <= 20 ->
  exists text ed', step env ed (OpPaste text true) = Ok (ed', OutNone _) /\
    nodes_replaced (ed_input ed) (mr_row m) (lo m) (hi m) nodes (ed_input ed').
Proof. exact anything_pasted. Qed.
Print Assumptions C30_unchecked.
Theorem C30_ill_formed : forall (SyntaxNode : Type) (env : Env SyntaxNode) ed text nodes ed' out m,
  get_caret ed = Ok (MSelRow m) -> ~ autocorrect_pending env ed ->
  env_deserialize env text = Some nodes -> step env ed (OpPaste text true) = Ok (ed', out) ->
  ~ wf_row nodes -> ~ wf_row (ed_input ed').
Proof. intros SyntaxNode env ed text nodes ed' out m Hg Hp Hd H Hn Hw. exact (Hn (@paste_wf_only SyntaxNode env ed text nodes ed' out m Hg Hp Hd H Hw)). Qed.
Print Assumptions C30_ill_formed.
(** A table without cells and a table of width 0: the document cannot be navigated or
    printed any more. *)
Definition empty_table := lit "{""version"":1,""data"":[{""Container"":[""Table"",{""values"":[],""width"":1}]}]}".
Definition flat_table := lit "{""version"":1,""data"":[{""Container"":[""Table"",{""values"":[{""values"":[]}],""width"":0}]}]}".
Theorem C30_refuted : forall cfg text, text = empty_table \/ text = flat_table -> exists ed ed' k,
  step (json_env cfg) (editor_new _) (OpPaste text true) = Ok (ed, OutNone _) /\ ~ wf_row (ed_input ed) /\
  run (json_env cfg) ed [OpStartSelection (here 0) MChar] = Ok ed' /\ step (json_env cfg) ed' (OpMoveCaret DRight MChar) = Panic k.
Proof.
  intros cfg text [-> | ->]; both_profiles; eexists; eexists; eexists.
  - split; [vm_compute; reflexivity|]. split; [|split].
    + intros Hw. specialize (Hw _ (or_introl eq_refl)). apply wf_container_inv in Hw as (H1&H2&_). apply H2; reflexivity.
    + vm_compute. reflexivity.
    + vm_compute. reflexivity.
  - split; [vm_compute; reflexivity|]. split; [|split].
    + intros Hw. specialize (Hw _ (or_introl eq_refl)). apply wf_container_inv in Hw as (H1&H2&_). apply H2; reflexivity.
    + vm_compute. reflexivity.
    + vm_compute. reflexivity.
  - split; [vm_compute; reflexivity|]. split; [|split].
    + intros Hw. specialize (Hw _ (or_introl eq_refl)). apply wf_container_inv in Hw as (H1&H2&_). inversion H1.
    + vm_compute. reflexivity.
    + vm_compute. reflexivity.
  - split; [vm_compute; reflexivity|]. split; [|split].
    + intros Hw. specialize (Hw _ (or_introl eq_refl)). apply wf_container_inv in Hw as (H1&H2&_). inversion H1.
    + vm_compute. reflexivity.
    + vm_compute. reflexivity.
Qed.
Print Assumptions C30_refuted.
(** The hypotheses of the other theorems are met, see also C29_case. *)
Example C30_case : let env := json_env release_profile in
  (forall rule, In rule (env_rules env) -> wf_row (rule_result rule)) /\
  env_deserialize env (lit "x + 1") = None /\ env_deserialize env (serialize_input_nodes sample) = Some sample /\
  (exists ed, step env (editor_new _) (OpPaste (lit "x + 1") true) = Ok (ed, OutNo _)) /\
  (exists ed m, step env (editor_new _) (OpPaste (serialize_input_nodes sample) true) = Ok (ed, OutNone _) /\ get_caret (editor_new unit) = Ok (MSelRow m)) /\
  fits_row 4294967295 [Container Table (mkGrid [] 0)] /\ ~ wf_row [Container Table (mkGrid [] 0)].
Proof.
  cbn zeta. split; [|split; [reflexivity|split; [vm_compute; reflexivity|split; [eexists; vm_compute; reflexivity|split; [eexists; eexists; split; vm_compute; reflexivity|split]]]]].
  - assert (H : forallb (fun rule => wf_rowb (rule_result rule)) default_rules = true) by (vm_compute; reflexivity).
    intros rule Hr. rewrite forallb_forall in H. apply wf_rowb_ok. exact (H rule Hr).
  - apply fits_rowb_ok. vm_compute. reflexivity.
  - intros Hw. specialize (Hw _ (or_introl eq_refl)). inversion Hw. lia.
Qed.
