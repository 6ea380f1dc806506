(** Leaving a completely typed token (C28, C93) and splicing (C42), in every case. *)
From Coq Require Import String.
From Verif Require Import Base Str Grid Node Focus Edit Caret Autocomplete Editor Rules Spec SpecAuto SpecMove SpecEditor SpecSafety SpecSelect SpecRemove SpecLeave Samples
  PropsAuto PropsEditor PropsSafety PropsRemove LeaveFacts.
Open Scope list_scope.
Open Scope nat_scope.

(** * C28: leaving a completely typed token *)
(** Arrow keys, clicks and those uses of Delete that only move the caret. The three fates are all, and
    which it is depends only on the places: of the three, only one is what C28 says. *)
Theorem C28_exact : forall (SyntaxNode : Type) (env : Env SyntaxNode) ed q n rule op t,
  wf_row (ed_input ed) -> completed env ed q n rule -> goes (env_cfg env) (ed_input ed) q op t ->
  (token_kept (ed_input ed) q n t \/ token_corrected q n t \/ token_panics (ed_input ed) q n t) /\
  (token_kept (ed_input ed) q n t -> exists ed', step env ed op = Ok (ed', OutNone _) /\
     ed_input ed' = ed_input ed /\ ed_undo ed' = ed_undo ed /\ ed_caret ed' = collapsed t) /\
  (token_corrected q n t -> exists ed', step env ed op = Ok (ed', OutNone _) /\
     nodes_replaced (ed_input ed) (mp_row q) (mp_offset q - n) (mp_offset q) (rule_result rule) (ed_input ed') /\ ed_caret ed' = collapsed t) /\
  (token_panics (ed_input ed) q n t -> exists k, step env ed op = Panic k).
Proof. intros SyntaxNode env ed q n rule op t Hwf Hc Hg. split; [apply leave_cases|]. exact (leave_step Hwf Hc Hg). Qed.
Print Assumptions C28_exact.

Ltac complete := do 3 eexists; split; [vm_compute; reflexivity|]; split; [vm_compute; reflexivity|]; split; [vm_compute; reflexivity|]; split; [reflexivity|]; split; vm_compute; reflexivity.
(** Each of the fates: "sum" at the start of a row is kept, behind three symbols it is corrected when the caret goes on, and behind four
    it panics. *)
Example C28_exact_case : let env := default_env debug_profile in
  (exists rule, completed env (editor_with (typed "sum+") (here 3)) (here 3) 3 rule /\ goes debug_profile (typed "sum+") (here 3) (OpMoveCaret DRight MChar) (here 4) /\
     token_kept (typed "sum+") (here 3) 3 (here 4) /\ ~ pos_in_range (here 4) (token (here 3) 3)) /\
  (exists rule, completed env (editor_with (typed "xyzsum+") (here 6)) (here 6) 3 rule /\ goes debug_profile (typed "xyzsum+") (here 6) (OpStartSelection (here 7) MWord) (here 7) /\
     token_corrected (here 6) 3 (here 7)) /\
  (exists rule, completed env (editor_with (typed "xyz sum+") (here 7)) (here 7) 3 rule /\ goes debug_profile (typed "xyz sum+") (here 7) (OpMoveCaret DRight MChar) (here 8) /\
     token_panics (typed "xyz sum+") (here 7) 3 (here 8)).
Proof.
  assert (Hf : forall l o, o < length l -> follows DRight l (here o) (here (S o)) -> goes debug_profile l (here o) (OpMoveCaret DRight MChar) (here (S o))).
  { intros l o _ H. apply goes_next; [exact H|]. intros (_&X&_). discriminate X. }
  cbv zeta. split; [|split]; eexists; (split; [complete|]).
  - split; [apply Hf; [vm_compute; lia|]; exists [here 0; here 1; here 2], []; vm_compute; reflexivity|]. split; [right; split; [vm_compute; lia|intros; discriminate]|].
    intros [_ [H|H]]; vm_compute in H; discriminate.
  - split; [constructor; eexists; split; [reflexivity|vm_compute; lia]|]. split; [intros [_ [H|H]]; vm_compute in H; discriminate|]. split; reflexivity.
  - split; [apply Hf; [vm_compute; lia|]; exists [here 0; here 1; here 2; here 3; here 4; here 5; here 6], []; vm_compute; reflexivity|].
    split; [intros [_ [H|H]]; vm_compute in H; discriminate|]. left. vm_compute. lia.
Qed.

(** * C93: Delete with a completely typed token in front of the caret *)
(** Where it only moves, the token has one of the three fates. *)
Theorem C93_token : forall (SyntaxNode : Type) (env : Env SyntaxNode) ed q n rule,
  wf_row (ed_input ed) -> completed env ed q n rule -> q <> edge DRight (ed_input ed) ->
  ~ symbol_beside (ed_input ed) HRight q -> (forall p i k, ~ dissolves (ed_input ed) HRight q p i k) ->
  exists t, follows DRight (ed_input ed) q t /\
  (token_kept (ed_input ed) q n t \/ token_corrected q n t \/ token_panics (ed_input ed) q n t) /\
  (token_kept (ed_input ed) q n t -> exists ed', step env ed (OpRemoveAtCaret RemoveRight) = Ok (ed', OutNone _) /\
     ed_input ed' = ed_input ed /\ ed_undo ed' = ed_undo ed /\ ed_caret ed' = collapsed t) /\
  (token_corrected q n t -> exists ed', step env ed (OpRemoveAtCaret RemoveRight) = Ok (ed', OutNone _) /\
     nodes_replaced (ed_input ed) (mp_row q) (mp_offset q - n) (mp_offset q) (rule_result rule) (ed_input ed') /\ ed_caret ed' = collapsed t) /\
  (token_panics (ed_input ed) q n t -> exists k, step env ed (OpRemoveAtCaret RemoveRight) = Panic k).
Proof.
  intros SyntaxNode env ed q n rule Hwf Hc He Hs Hd. destruct (delete_moves Hwf Hc He Hs Hd) as (t&Hf&Hg). exists t. split; [exact Hf|].
  exact (C28_exact _ _ _ _ _ _ _ _ Hwf Hc Hg).
Qed.
Print Assumptions C93_token.
(** Where a container dissolves, the token does not matter, or the code panics. What is missing is a container of a row that
    is itself in a container, when the two have different indices: see [C93_token_elsewhere]. *)
Theorem C93_token_dissolves_partial : forall (SyntaxNode : Type) (env : Env SyntaxNode) ed q n rule p i k,
  wf_row (ed_input ed) -> completed env ed q n rule -> dissolves (ed_input ed) HRight q p i k ->
  (p = mp_row q \/ (exists p0 j0, p = p0 ++ [(i, j0)]) -> exists v g ed', step env ed (OpRemoveAtCaret RemoveRight) = Ok (ed', OutNone _) /\
     node_get (ed_input ed) p i = Some (Container v g) /\
     nodes_replaced (ed_input ed) p i (S i) (concat (gvalues g)) (ed_input ed') /\ ed_caret ed' = collapsed (mkMinPos p (i + k))) /\
  (p = [] -> mp_row q <> [] -> exists e, step env ed (OpRemoveAtCaret RemoveRight) = Panic e).
Proof. exact @dissolve_pending. Qed.
Print Assumptions C93_token_dissolves_partial.
(** "sum" in front of a subscript, and at the end of the numerator of the only fraction of the document. *)
Example C93_token_case : let env := default_env debug_profile in
  (let doc := typed "sum" ++ [sub (typed "i")] in exists rule, completed env (editor_with doc (here 3)) (here 3) 3 rule /\ dissolves doc HRight (here 3) [] 3 0) /\
  (let doc := [fraction (typed "sum") (typed "i")] in let q := mkMinPos [(0, 0)] 3 in
   exists rule, completed env (editor_with doc q) q 3 rule /\ dissolves doc HRight q [] 0 3) /\
  (let doc := [fraction (typed "a") [fraction (typed "sum") (typed "i")]] in let q := mkMinPos [(0, 1); (0, 0)] 3 in
   exists rule, completed env (editor_with doc q) q 3 rule /\ dissolves doc HRight q [(0, 1)] 0 3).
Proof.
  cbv zeta. split; [|split]; eexists; (split; [complete|]).
  - eapply script_behind; [vm_compute; reflexivity|auto].
  - apply (@first_cell _ [] 0 Fraction (mkGrid [typed "sum"; typed "i"] 1) (typed "sum") [typed "i"]); [vm_compute; reflexivity|auto|reflexivity].
  - apply (@first_cell _ [(0, 1)] 0 Fraction (mkGrid [typed "sum"; typed "i"] 1) (typed "sum") [typed "i"]); [vm_compute; reflexivity|auto|reflexivity].
Qed.
(** There the code looks for the token at a wrong place: if it does not exist or the search there fails, the code panics; if the text of the
    token is found there it is corrected there, and otherwise the container dissolves as it should. These are all cases. *)
Theorem C93_token_elsewhere : forall (SyntaxNode : Type) (env : Env SyntaxNode) ed q n rule p0 i0 j0 i k,
  wf_row (ed_input ed) -> completed env ed q n rule -> let p := p0 ++ [(i0, j0)] in dissolves (ed_input ed) HRight q p i k -> i0 <> i -> mp_row q <> p ->
  exists v g doc', node_get (ed_input ed) p i = Some (Container v g) /\ nodes_replaced (ed_input ed) p i (S i) (concat (gvalues g)) doc' /\
  let place := looked_in p0 i0 j0 i in let row := row_get doc' place in
  (~ looks rule q n row -> exists e, step env ed (OpRemoveAtCaret RemoveRight) = Panic e) /\
  (looks rule q n row -> finds rule q n row -> exists ed', step env ed (OpRemoveAtCaret RemoveRight) = Ok (ed', OutNone _) /\
     nodes_replaced doc' place (mp_offset q - n) (mp_offset q) (rule_result rule) (ed_input ed') /\ ed_caret ed' = collapsed (mkMinPos p (i + k))) /\
  (looks rule q n row -> ~ finds rule q n row -> exists ed', step env ed (OpRemoveAtCaret RemoveRight) = Ok (ed', OutNone _) /\
     ed_input ed' = doc' /\ ed_caret ed' = collapsed (mkMinPos p (i + k))).
Proof. exact @dissolve_elsewhere. Qed.
Print Assumptions C93_token_elsewhere.
(** Delete at the end of the numerator "xyzsum" corrects the token "sum" in another fraction. *)
Theorem C93_refuted : exists q doc p i k ed', dissolves doc HRight q p i k /\ wf_row doc /\
  step (default_env debug_profile) (editor_with doc q) (OpRemoveAtCaret RemoveRight) = Ok (ed', OutNone _) /\
  nth_error doc 0 = Some (fraction [fraction (typed "abcsum") []] []) /\ p = [(1, 0)] /\ exists n, nth_error (ed_input ed') 0 = Some (fraction [fraction (typed "abc" ++ [n]) []] []).
Proof.
  exists (mkMinPos [(1, 0); (0, 0)] 6), [fraction [fraction (typed "abcsum") []] []; fraction [fraction (typed "xyzsum") (typed "i")] []], [(1, 0)], 0, 6. eexists.
  split; [apply (@first_cell _ [(1, 0)] 0 Fraction (mkGrid [typed "xyzsum"; typed "i"] 1) (typed "xyzsum") [typed "i"]); [vm_compute; reflexivity|auto|reflexivity]|].
  split; [apply wf_rowb_ok; reflexivity|]. split; [vm_compute; reflexivity|]. split; [reflexivity|]. split; [reflexivity|]. eexists. vm_compute. reflexivity.
Qed.
Print Assumptions C93_refuted.
(** The hypotheses of [C93_token_elsewhere], and its three outcomes *)
Example C93_elsewhere_case : let env := default_env debug_profile in let q := mkMinPos [(1, 0); (0, 0)] 6 in let doc l := [l; fraction [fraction (typed "xyzsum") (typed "i")] []] in
  let pressed l := step env (editor_with (doc l) q) (OpRemoveAtCaret RemoveRight) in
  (exists rule, completed env (editor_with (doc (sym "a")) q) q 3 rule) /\ dissolves (doc (sym "a")) HRight q [(1, 0)] 0 6 /\
  (exists e, pressed (sym "a") = Panic e) /\
  (exists ed', pressed (fraction [fraction (typed "abcdef") []] []) = Ok (ed', OutNone _) /\ ed_input ed' = [fraction [fraction (typed "abcdef") []] []; fraction (typed "xyzsumi") []]).
Proof.
  cbv zeta. split; [eexists; complete|]. split; [apply (@first_cell _ [(1, 0)] 0 Fraction (mkGrid [typed "xyzsum"; typed "i"] 1) (typed "xyzsum") [typed "i"]); [vm_compute; reflexivity|auto|reflexivity]|].
  split; [eexists; vm_compute; reflexivity|]. eexists. split; vm_compute; reflexivity.
Qed.
(** With overflow checks, Backspace at the start of a first cell that does not dissolve panics. *)
Theorem C93_underflows : forall (SyntaxNode : Type) (env : Env SyntaxNode) ed q,
  wf_row (ed_input ed) -> valid_pos (ed_input ed) q -> ed_caret ed = collapsed q -> (exists x, get_autocomplete env ed = Ok x) ->
  (forall p i k, ~ dissolves (ed_input ed) HLeft q p i k) -> overflow_checks (env_cfg env) = true -> at_cell_zero q ->
  step env ed (OpRemoveAtCaret RemoveLeft) = Panic POverflow.
Proof. exact @underflow_step. Qed.
Print Assumptions C93_underflows.
Example C93_underflows_case : let doc := [fraction (typed "x") []] in let q := mkMinPos [(0, 0)] 0 in
  wf_row doc /\ valid_pos doc q /\ (exists x, get_autocomplete (default_env debug_profile) (editor_with doc q) = Ok x) /\
  (forall p i k, ~ dissolves doc HLeft q p i k) /\ overflow_checks debug_profile = true /\ at_cell_zero q.
Proof.
  cbv zeta. split; [apply wf_rowb_ok; vm_compute; reflexivity|]. split; [eexists; split; [vm_compute; reflexivity|vm_compute; lia]|]. split; [eexists; vm_compute; reflexivity|].
  split; [|split; [reflexivity|split; [reflexivity|exists [], 0; reflexivity]]].
  intros p i k H. remember HLeft as d eqn:Ed. remember (mkMinPos [(0, 0)] 0) as q eqn:Eq.
  destruct H as [p1 i1 v g Hn Hv|p1 i1 j1 v g Hn Hv|p1 i1 v g c cells Hn Hv Hg|p1 i1 v g c cells Hn Hv Hg|p1 i1 v g Hn Ha|p1 i1 v g Hn Ha]; try discriminate Ed;
    injection Eq as E; destruct p1 as [|x [|y p1]]; try discriminate E; injection E; intros; subst; vm_compute in Hn; injection Hn as <- <-.
  - destruct Hv; discriminate.
  - specialize (Ha _ (or_introl eq_refl)). discriminate Ha.
Qed.

(** * C42: splicing *)
(** A splice of a valid range panics exactly if the range is in the root row and an end of the caret is not. *)
(** [C42_splice_partial] says what happens otherwise. *)
Theorem C42_exact : forall (SyntaxNode : Type) (env : Env SyntaxNode) ed range vs,
  wf_row (ed_input ed) -> valid_range (ed_input ed) range ->
  ((exists k, step env ed (OpSpliceAtRange range vs) = Panic k) <->
   mr_row range = [] /\ (mp_row (mc_start (ed_caret ed)) <> [] \/ mp_row (mc_end (ed_caret ed)) <> [])).
Proof.
  intros SyntaxNode env ed range vs Hwf Hr. split.
  - intros [k Hk]. destruct (mr_row range) as [|x l] eqn:E; [split; [reflexivity|]|].
    + destruct (mp_row (mc_start (ed_caret ed))) as [|x l] eqn:E1; [|left; discriminate]. destruct (mp_row (mc_end (ed_caret ed))) as [|x l] eqn:E2; [|right; discriminate].
      destruct (C42_splice_partial _ env ed range vs Hwf Hr) as (ed'&ed2&Hs&_); [auto|]. rewrite Hk in Hs. discriminate Hs.
    + destruct (C42_splice_partial _ env ed range vs Hwf Hr) as (ed'&ed2&Hs&_); [left; rewrite E; discriminate|]. rewrite Hk in Hs. discriminate Hs.
  - intros [E Hn]. destruct (splice_root_panics env vs E Hn) as (k&Hk). exists k. cbn [step]. rewrite Hk. reflexivity.
Qed.
Print Assumptions C42_exact.
