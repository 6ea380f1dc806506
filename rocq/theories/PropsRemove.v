(** What Backspace and Delete do at every position (C93). *)
From Coq Require Import String.
From Verif Require Import Base Str Grid Node Focus Edit Caret Autocomplete Editor Rules Spec SpecAuto SpecMove SpecEditor SpecSafety SpecSelect SpecRemove Samples
  PropsAuto PropsEditor PropsSafety RemoveFacts HoldFacts.
Open Scope list_scope.
Open Scope nat_scope.

(** * C93: Backspace and Delete at containers *)
(** [C14_symbol_removed] says what happens next to a symbol. Where a container dissolves, its content
    takes its place and the caret stays between the same symbols. *)
Theorem C93_dissolves_partial : forall (SyntaxNode : Type) (env : Env SyntaxNode) ed q mode d p i k,
  wf_row (ed_input ed) -> valid_pos (ed_input ed) q -> ed_caret ed = collapsed q -> remove_dir mode = Some d ->
  (exists x, get_autocomplete env ed = Ok x) -> (d = HRight -> ~ autocorrect_pending env ed) -> dissolves (ed_input ed) d q p i k ->
  exists v g ed', step env ed (OpRemoveAtCaret mode) = Ok (ed', OutNone _) /\ node_get (ed_input ed) p i = Some (Container v g) /\
    nodes_replaced (ed_input ed) p i (S i) (concat (gvalues g)) (ed_input ed') /\ ed_caret ed' = collapsed (mkMinPos p (i + k)).
Proof. exact @dissolve_step. Qed.
Print Assumptions C93_dissolves_partial.

(** At every other position that is not next to a symbol, the caret goes to the next position in the
    order of the document and nothing else happens. *)
Theorem C93_moves_partial : forall (SyntaxNode : Type) (env : Env SyntaxNode) ed q mode d,
  wf_row (ed_input ed) -> valid_pos (ed_input ed) q -> ed_caret ed = collapsed q -> remove_dir mode = Some d ->
  (exists x, get_autocomplete env ed = Ok x) -> (d = HRight -> ~ autocorrect_pending env ed) ->
  ~ symbol_beside (ed_input ed) d q -> (forall p i k, ~ dissolves (ed_input ed) d q p i k) ->
  (overflow_checks (env_cfg env) = true -> q <> edge (h_to_dir d) (ed_input ed)) -> ~ underflows (env_cfg env) (h_to_dir d) q ->
  exists ed', ed_input ed' = ed_input ed /\ ed_undo ed' = ed_undo ed /\
    (q = edge (h_to_dir d) (ed_input ed) /\ step env ed (OpRemoveAtCaret mode) = Ok (ed', OutNo _) /\ ed_caret ed' = ed_caret ed \/
     exists q', follows (h_to_dir d) (ed_input ed) q q' /\ step env ed (OpRemoveAtCaret mode) = Ok (ed', OutNone _) /\ ed_caret ed' = collapsed q').
Proof. exact @otherwise_step. Qed.
Print Assumptions C93_moves_partial.
(** Backspace at the start of the denominator of "a/b" joins the two, in a sample with more around it. *)
Example C93_case : let ed := editor_with sample (mkMinPos [(1, 1)] 0) in
  dissolves (ed_input ed) HLeft (mkMinPos [(1, 1)] 0) [] 1 3 /\ valid_pos (ed_input ed) (mkMinPos [(1, 1)] 0) /\
  (exists x, get_autocomplete (default_env debug_profile) ed = Ok x) /\
  exists ed', step (default_env debug_profile) ed (OpRemoveAtCaret RemoveLeft) = Ok (ed', OutNone _) /\
    firstn 3 (ed_input ed') = [sym "a"; sym "b"; sym "c"] /\ ed_caret ed' = collapsed (here 4).
Proof.
  cbv zeta. split; [apply (@second_cell _ [] 1 Fraction (mkGrid [[sym "b"; sym "c"; sup [sym "2"]]; [Container Table (mkGrid [[sym "x"]; []; [sym "y"; sub [sym "1"]]; [sym "z"]] 2)]] 1)
     [sym "b"; sym "c"; sup [sym "2"]] [[Container Table (mkGrid [[sym "x"]; []; [sym "y"; sub [sym "1"]]; [sym "z"]] 2)]]); [vm_compute; reflexivity|left; reflexivity|vm_compute; reflexivity]|].
  split; [eexists; split; [vm_compute; reflexivity|vm_compute; lia]|]. split; [eexists; vm_compute; reflexivity|].
  eexists. split; [vm_compute; reflexivity|]. split; vm_compute; reflexivity.
Qed.
(** Within the first row of the table nothing dissolves with Delete. *)
Example C93_case_moves : let ed := editor_with sample (mkMinPos [(1, 1); (0, 0)] 1) in
  ~ symbol_beside (ed_input ed) HRight (mkMinPos [(1, 1); (0, 0)] 1) /\
  (forall p i k, ~ dissolves (ed_input ed) HRight (mkMinPos [(1, 1); (0, 0)] 1) p i k) /\
  exists ed', step (default_env debug_profile) ed (OpRemoveAtCaret RemoveRight) = Ok (ed', OutNone _) /\ ed_caret ed' = collapsed (mkMinPos [(1, 1); (0, 1)] 0).
Proof.
  cbv zeta. split.
  - intros (i&s&<-&H). vm_compute in H. discriminate.
  - split; [|eexists; split; vm_compute; reflexivity]. intros p i k H. destruct (dissolves_right H) as [(v&g&Hn&_)|(j&v&g&Ep&Hn&_&Hj)].
    + vm_compute in Hn. discriminate.
    + change [(1, 1); (0, 0)] with ([(1, 1)] ++ [(0, 0)]) in Ep. apply app_inj_tail in Ep as [<- Ep]. injection Ep as <- <-. vm_compute in Hn. injection Hn as <- <-.
      vm_compute in Hj. destruct Hj as [[[|] _]|]; discriminate.
Qed.

(** * C94: holding Backspace or Delete empties the document *)
(** With the caret at the end (at the start), Backspace (Delete) leads to the empty document, with fewer
    presses than the document has caret positions, and none of them panics whatever the profile. *)
Theorem C94_empties : forall (SyntaxNode : Type) (env : Env SyntaxNode), Forall ascii_rule (env_rules env) ->
  forall ed mode d, remove_dir mode = Some d -> proper ordinary (ed_input ed) ->
  ed_caret ed = collapsed (here (match d with HLeft => length (ed_input ed) | HRight => 0 end)) ->
  exists k ed', k < length (positions (ed_input ed)) /\ run env ed (repeat (OpRemoveAtCaret mode) k) = Ok ed' /\
    ed_input ed' = [] /\ ed_caret ed' = collapsed (here 0).
Proof. exact @hold_empties. Qed.
Print Assumptions C94_empties.
(** A script with two cells, which no rule or file of the repository makes but pasting can bring in, stays
    in part: the caret ends up in front of its content. *)
Theorem C94_two_cells_refuted : forall cfg, let doc := [Container Sup (mkGrid [typed "a"; []] 2)] in
  wf_row doc /\ exists ed, run (default_env cfg) (editor_with doc (here 1)) (repeat (OpRemoveAtCaret RemoveLeft) 2) = Ok ed /\
    ed_input ed = typed "a" /\ ed_caret ed = collapsed (here 0).
Proof. intros cfg. cbv zeta. split; [apply wf_rowb_ok; vm_compute; reflexivity|]. both_profiles; eexists; (split; [vm_compute; reflexivity|split; vm_compute; reflexivity]). Qed.
Print Assumptions C94_two_cells_refuted.
(** The sample is emptied by 22 presses of Backspace and 20 of Delete. *)
Example C94_case : proper ordinary sample /\ length (positions sample) = 25 /\ exists n m,
  (ed <- run (default_env debug_profile) (editor_with sample (here 3)) (repeat (OpRemoveAtCaret RemoveLeft) n) ;; Ok (ed_input ed)) = Ok [] /\
  (ed <- run (default_env debug_profile) (editor_with sample (here 0)) (repeat (OpRemoveAtCaret RemoveRight) m) ;; Ok (ed_input ed)) = Ok [].
Proof.
  split; [split; [exact sample_wf|]|].
  - intros x Hx. vm_compute in Hx. repeat destruct Hx as [<-|Hx]; try destruct Hx; vm_compute; try discriminate; intros [|]; discriminate || reflexivity.
  - split; [vm_compute; reflexivity|]. exists 22, 20. split; vm_compute; reflexivity.
Qed.
