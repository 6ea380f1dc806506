(** In a row of symbols the editor is a text field (C95). *)
From Coq Require Import String.
From Verif Require Import Base Str Grid Node Focus Edit Caret Autocomplete Editor Rules Spec SpecAuto SpecMove SpecEditor SpecSafety SpecSelect SpecRemove SpecLeave SpecField Samples
  PropsAuto PropsEditor PropsSafety OpFacts FieldFacts.
Open Scope list_scope.
Open Scope nat_scope.

(** The row may be anywhere in the document. The operations may come in any order and number, as long as the text field
    knows what they do: the row must not be left. *)
Theorem C95_text_field : forall (SyntaxNode : Type) (env : Env SyntaxNode) ed fresh p f ops s, Forall ascii_rule (env_rules env) ->
  proper nonempty (ed_input ed) -> row_get (ed_input ed) p = Some (map Symbol (f_text f)) ->
  ed_caret ed = field_caret p f -> f_anchor f <= List.length (f_text f) -> f_cursor f <= List.length (f_text f) ->
  Forall (fun s => s <> []) (flat_map typed_symbols ops) -> all_along env (leaves_alone env) ed ops ->
  (fresh = true -> ed_undo ed = undo_new) -> field_run (env_cfg env) fresh p (mkSession [] f []) ops = Some s ->
  exists ed', run env ed ops = Ok ed' /\ shows_field (ed_input ed) p (s_field s) ed'.
Proof. exact @text_field. Qed.
Print Assumptions C95_text_field.

(** A check for [leaves_alone]: no token is complete, or it starts at the start of the row. *)
Definition alone_check {SyntaxNode} (env : Env SyntaxNode) (ed : MathEditor SyntaxNode) (op : Op) : bool :=
  match get_autocomplete env ed with
  | Ok (_, Some r) =>
      match nth_error (ar_matches r) (ar_selected r) with
      | Some m => negb (m_rule_match_length m =? byte_len (rule_parser (m_rule m))) ||
          match op with
          | OpMoveCaret _ _ | OpStartSelection _ _ => (mp_offset (mc_end (ed_caret ed)) <=? m_input_match_length m) && (0 <? m_input_match_length m)
          | OpSelectWithCaret _ _ | OpExtendSelection _ => false
          | _ => true
          end
      | None => true
      end
  | _ => true
  end.
Fixpoint alone_run {SyntaxNode} (env : Env SyntaxNode) (ed : MathEditor SyntaxNode) (ops : list Op) : bool :=
  match ops with
  | [] => true
  | op :: ops => alone_check env ed op && match step env ed op with Ok (ed, _) => alone_run env ed ops | _ => true end
  end.
Lemma alone_check_ok : forall (SyntaxNode : Type) (env : Env SyntaxNode) ed op, alone_check env ed op = true -> leaves_alone env ed op.
Proof.
  intros SyntaxNode env ed op H. unfold alone_check in H. destruct op; cbn [leaves_alone]; try exact I.
  - intros q n rule t (ed'&r&m'&Hg&Hm&E&Hc&<-&<-) _. rewrite Hg, Hm, E, Nat.eqb_refl, Hc in H. cbn [negb orb collapsed mc_end] in H. apply andb_prop in H as [H1 H2]. apply Nat.leb_le in H1. apply Nat.ltb_lt in H2.
    right. unfold token_start. split; [lia|]. intros i s H. lia.
  - intros (ed'&r&m'&Hg&Hm&E). rewrite Hg, Hm, E, Nat.eqb_refl in H. discriminate.
  - intros q n rule t (ed'&r&m'&Hg&Hm&E&Hc&<-&<-) _. rewrite Hg, Hm, E, Nat.eqb_refl, Hc in H. cbn [negb orb collapsed mc_end] in H. apply andb_prop in H as [H1 H2]. apply Nat.leb_le in H1. apply Nat.ltb_lt in H2.
    right. unfold token_start. split; [lia|]. intros i s H. lia.
  - intros (ed'&r&m'&Hg&Hm&E). rewrite Hg, Hm, E, Nat.eqb_refl in H. discriminate.
Qed.
Lemma alone_run_ok : forall (SyntaxNode : Type) (env : Env SyntaxNode) ops ed, alone_run env ed ops = true -> all_along env (leaves_alone env) ed ops.
Proof.
  intros SyntaxNode env ops. induction ops as [|op ops IH]; intros ed H; [exact I|]. cbn [alone_run] in H. apply andb_prop in H as [H1 H2].
  split; [now apply alone_check_ok|]. intros ed' out E. rewrite E in H2. auto.
Qed.

Definition left_key := OpMoveCaret DLeft MChar.
Definition right_key := OpMoveCaret DRight MChar.
Definition shift_right := OpSelectWithCaret DRight MChar.
Definition text (t : string) : list str := map (fun c => [c]) (lit t).
Definition keys (t : string) : list Op := map (fun s => OpInsertAtCaret [s]) (text t).
(** In the numerator of a fraction: "abc", a letter is inserted and one overwritten; then two steps of undo, redo, and Backspace. *)
Example C95_case : forall cfg, let doc := [sym "x"; fraction (typed "ac") (typed "y")] in let p := [(1, 0)] in
  let ops := keys "d" ++ [left_key; left_key] ++ keys "b" ++ [shift_right] ++ keys "e" ++ [OpUndo; OpUndo; OpRedo; right_key; OpStartSelection (mkMinPos p 1) MChar;
    OpExtendSelection (mkMinPos p 3); OpFinishSelection; OpRemoveAtCaret RemoveRange; OpUndo] in
  proper nonempty doc /\ row_get doc p = Some (map Symbol (text "ac")) /\ alone_run (default_env cfg) (editor_with doc (mkMinPos p 2)) ops = true /\
  exists s ed, field_run cfg true p (mkSession [] (mkField (text "ac") 2 2) []) ops = Some s /\ s_field s = mkField (text "abcd") 1 3 /\
    run (default_env cfg) (editor_with doc (mkMinPos p 2)) ops = Ok ed /\ ed_input ed = [sym "x"; fraction (typed "abcd") (typed "y")].
Proof.
  intros cfg. cbv zeta. split; [|split; [vm_compute; reflexivity|]].
  - split; [apply wf_rowb_ok; reflexivity|]. intros x Hx. vm_compute in Hx. repeat destruct Hx as [<-|Hx]; try destruct Hx; vm_compute; try discriminate; exact I.
  - split; [both_profiles; vm_compute; reflexivity|]. eexists. both_profiles; eexists; (split; [vm_compute; reflexivity|]); (split; [vm_compute; reflexivity|]);
      (split; [vm_compute; reflexivity|]); vm_compute; reflexivity.
Qed.
(** In a new editor: undo and the arrow keys at the ends of the document do nothing; "sum" is complete, but is at the start of the row. *)
Example C95_new_case : forall cfg, let ops := [OpUndo; left_key] ++ keys "sum" ++ [right_key; left_key; OpRemoveAtCaret RemoveLeft; OpSelectAll; OpUndo] in
  alone_run (default_env cfg) (editor_new _) ops = true /\
  exists s ed, field_run cfg true [] (mkSession [] (mkField [] 0 0) []) ops = Some s /\ s_field s = mkField (text "sum") 2 2 /\
    run (default_env cfg) (editor_new _) ops = Ok ed /\ ed_input ed = typed "sum".
Proof.
  intros cfg. cbv zeta. split; [both_profiles; vm_compute; reflexivity|]. eexists. both_profiles; eexists; (split; [vm_compute; reflexivity|]); (split; [vm_compute; reflexivity|]);
    (split; [vm_compute; reflexivity|]); vm_compute; reflexivity.
Qed.
(** In a new editor without overflow checks Backspace and Delete at the ends do nothing. To cut nothing takes a step of undo. *)
Example C95_ends_case : let cfg := release_profile in
  let ops := [OpRemoveAtCaret RemoveLeft; OpRemoveAtCaret RemoveRight] ++ keys "sum" ++ [OpRemoveAtCaret RemoveRight; OpMoveCaret DUp MChar; OpSelectAll; OpMoveCaret DDown MChar;
    OpSelectAll; OpMoveCaret DUp MChar; OpRemoveAtCaret RemoveRange; OpUndo; OpUndo] in
  alone_run (default_env cfg) (editor_new _) ops = true /\
  exists s ed, field_run cfg true [] (mkSession [] (mkField [] 0 0) []) ops = Some s /\ s_field s = mkField (text "su") 2 2 /\ List.length (s_future s) = 2 /\
    run (default_env cfg) (editor_new _) ops = Ok ed /\ ed_input ed = typed "su".
Proof.
  cbv zeta. split; [vm_compute; reflexivity|]. eexists _, _. split; [vm_compute; reflexivity|]. split; [vm_compute; reflexivity|].
  split; [vm_compute; reflexivity|]. split; [vm_compute; reflexivity|]. vm_compute. reflexivity.
Qed.
