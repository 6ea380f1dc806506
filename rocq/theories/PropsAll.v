(** Selecting everything (C69). *)
From Coq Require Import String.
From Verif Require Import Base Str Grid Node Focus Edit Caret Autocomplete Editor Rules Json Spec SpecAuto SpecMove SpecEditor SpecSafety SpecText
  BaseFacts TreeFacts MoveFacts EditorFacts OpFacts TextFacts Samples PropsAuto PropsEditor PropsSafety PropsPaste.
Open Scope list_scope.
Open Scope nat_scope.

Section Select.
Variable SyntaxNode : Type.
Variable env : Env SyntaxNode.
Definition everything (doc : InputRow) : MinRange := mkMinRange [] 0 (List.length doc).

Lemma all_caret (ed : MathEditor SyntaxNode) : get_caret (select_all ed) = Ok (MSelRow (everything (ed_input ed))).
Proof.
  unfold get_caret, select_all, set_caret. cbn [ed_input ed_caret]. unfold caret_from_minimal, pos_from_minimal. cbn [mc_start mc_end mp_row mp_offset walk_down_indices bind].
  unfold pos_new at 2. cbn [from_root fr_row]. rewrite Nat.leb_refl. cbn [assert_ bind]. unfold caret_new, selection_from_positions, range_from_positions. cbn.
  rewrite Nat.leb_refl. cbn.
  match goal with |- context [if negb ?b then _ else _] => destruct b end; cbn; [|reflexivity].
  match goal with |- context [if negb ?b then _ else _] => destruct b end; reflexivity.
Qed.
Lemma whole_replaced doc doc' vs : nodes_replaced doc [] 0 (List.length doc) vs doc' -> doc' = vs.
Proof. intros (row&_&_&H). inv H. rewrite firstn_O, skipn_all, app_nil_r. reflexivity. Qed.
End Select.

(** Everything is selected; the document and the history stay as they are. *)
Theorem C69_selected : forall (SyntaxNode : Type) (env : Env SyntaxNode) ed, exists ed', step env ed OpSelectAll = Ok (ed', OutNone _) /\
  get_caret ed' = Ok (MSelRow (mkMinRange [] 0 (List.length (ed_input ed)))) /\ ed_input ed' = ed_input ed /\ ed_undo ed' = ed_undo ed.
Proof. intros. eexists. split; [reflexivity|]. split; [apply all_caret|]. split; reflexivity. Qed.
Print Assumptions C69_selected.
(** Copying then gives the text of the whole document. *)
Theorem C69_copied : forall (SyntaxNode : Type) (env : Env SyntaxNode) ed ed' out, step env ed OpSelectAll = Ok (ed', out) ->
  step env ed' OpCopy = Ok (ed', OutText _ (env_serialize env (ed_input ed))).
Proof.
  intros SyntaxNode env ed ed' out H. cbn [step] in H. inv H. destruct (@copied _ env (select_all ed) _ (all_caret _ ed)) as (vs&Hv&->).
  assert (vs = ed_input ed) as ->; [|reflexivity]. destruct Hv as (row&Hr&_&->). cbn in Hr. inv Hr. unfold hi, lo, everything. cbn. rewrite Nat.sub_0_r. apply firstn_all.
Qed.
Print Assumptions C69_copied.
(** Typing then replaces the whole document, and undo brings it back. *)
Theorem C69_typed : forall (SyntaxNode : Type) (env : Env SyntaxNode) ed ed1 out vs, wf_row (ed_input ed) -> ed_input ed <> [] -> step env ed OpSelectAll = Ok (ed1, out) ->
  exists ed2 ed3, step env ed1 (OpInsertAtCaret vs) = Ok (ed2, OutNone _) /\ ed_input ed2 = map Symbol vs /\ ed_caret ed2 = collapsed (mkMinPos [] (List.length vs)) /\
    undo_times env (recorded_steps ed1 ed2) ed2 = Ok ed3 /\ ed_input ed3 = ed_input ed.
Proof.
  intros SyntaxNode env ed ed1 out vs Hwf Hne H. cbn [step] in H. inv H. pose proof (all_caret _ ed) as Hc.
  assert (L : mr_start (everything (ed_input ed)) <> mr_end (everything (ed_input ed))) by (cbn; destruct (ed_input ed); [contradiction|discriminate]).
  destruct (C13_typing_partial _ env (select_all ed) _ vs Hwf Hc) as (ed2&Hs&Hr&Hk); [eexists; exact (C13_selection_asks_no_matcher _ env _ _ Hc L)|].
  destruct (C16_undo_restores_partial _ env _ _ _ _ Hs eq_refl) as (_&ed3&Hu&Hi&_). exists ed2, ed3. split; [exact Hs|]. 
  split; [exact (whole_replaced _ _ _ Hr)|]. split; [exact Hk|]. split; [exact Hu|exact Hi].
Qed.
Print Assumptions C69_typed.
(** Removing then leaves an empty document. *)
Theorem C69_removed : forall (SyntaxNode : Type) (env : Env SyntaxNode) ed ed1 out mode, ed_input ed <> [] -> step env ed OpSelectAll = Ok (ed1, out) ->
  exists ed2, step env ed1 (OpRemoveAtCaret mode) = Ok (ed2, OutNone _) /\ ed_input ed2 = [] /\ ed_caret ed2 = collapsed (mkMinPos [] 0).
Proof.
  intros SyntaxNode env ed ed1 out mode Hne H. cbn [step] in H. inv H. pose proof (all_caret _ ed) as Hc.
  assert (L : mr_start (everything (ed_input ed)) <> mr_end (everything (ed_input ed))) by (cbn; destruct (ed_input ed); [contradiction|discriminate]).
  destruct (C15_remove_selection _ env _ _ mode Hc L) as (ed2&Hs&Hr&Hk). exists ed2. split; [exact Hs|]. split; [exact (whole_replaced _ _ _ Hr)|exact Hk].
Qed.
Print Assumptions C69_removed.
(** Copying everything and pasting it over everything of another document makes that document the same.
    Documents with more than 20 containers around each other cannot be pasted ([C29_deep]). *)
Theorem C69_pasted : forall (SyntaxNode : Type) (env : Env SyntaxNode) usize_max ed ed1 out ed' ed1' out', uses_json env usize_max ->
  fits_row usize_max (ed_input ed) -> row_nesting (ed_input ed) <= 20 -> ed_input ed' <> [] ->
  step env ed OpSelectAll = Ok (ed1, out) -> step env ed' OpSelectAll = Ok (ed1', out') ->
  exists text ed2, step env ed1 OpCopy = Ok (ed1, OutText _ text) /\ step env ed1' (OpPaste text true) = Ok (ed2, OutNone _) /\ ed_input ed2 = ed_input ed.
Proof.
  intros SyntaxNode env usize_max ed ed1 out ed' ed1' out' Hj Hf Hn Hne H H'. pose proof (C69_copied _ env _ _ _ H) as Hcopy. cbn [step] in H, H'. inv H. inv H'. pose proof (all_caret _ ed') as Hc.
  assert (L : mr_start (everything (ed_input ed')) <> mr_end (everything (ed_input ed'))) by (cbn; destruct (ed_input ed'); [contradiction|discriminate]).
  destruct Hj as [Hs Hd]. destruct (@pasted _ env (select_all ed') _ (env_serialize env (ed_input ed)) (ed_input ed) Hc) as (ed2&Hp&Hr&_).
  - eexists. exact (C13_selection_asks_no_matcher _ env _ _ Hc L).
  - exact (not_collapsed_not_pending Hc L).
  - rewrite Hs, Hd. now apply deserialize_shallow.
  - exists (env_serialize env (ed_input ed)), ed2. split; [exact Hcopy|]. split; [exact Hp|]. exact (whole_replaced _ _ _ Hr).
Qed.
Print Assumptions C69_pasted.
Example C69_case : let ed := editor_with sample (mkMinPos [(1, 0)] 2) in exists ed1 ed2,
  step (json_env debug_profile) ed OpSelectAll = Ok (ed1, OutNone _) /\ ed_caret ed <> ed_caret ed1 /\
  step (json_env debug_profile) ed1 (OpInsertAtCaret [lit "x"; lit "y"]) = Ok (ed2, OutNone _) /\ ed_input ed2 = typed "xy" /\ recorded_steps ed1 ed2 = 1.
Proof. cbv zeta. do 2 eexists. split; [reflexivity|]. split; [discriminate|]. split; [vm_compute; reflexivity|]. split; reflexivity. Qed.
Example C69_case_paste : uses_json (json_env release_profile) 4294967295 /\ fits_row 4294967295 sample /\ row_nesting sample <= 20.
Proof. split; [split; reflexivity|]. split; [apply fits_rowb_ok; vm_compute; reflexivity|]. vm_compute. lia. Qed.
