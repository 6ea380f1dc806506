(** Extending a selection with Shift and an arrow key (C39). *)
From Coq Require Import String.
From Verif Require Import Base Str Grid Node Focus Edit Caret Autocomplete Editor Rules Spec SpecAuto SpecMove SpecEditor SpecSafety SpecSelect BaseFacts
  SelectFacts Samples PropsAuto PropsEditor PropsSafety.
Open Scope list_scope.
Open Scope nat_scope.

(** * C39: Shift+arrow keeps extending or shrinking the selection *)
(** Away from the fixed end: the moving end goes to the next position, which was not
    selected yet, and the selected range changes. Missing: grid selections, where the
    operation is unfinished. *)
Theorem C39_extends_partial : forall (SyntaxNode : Type) (env : Env SyntaxNode) ed d m,
  wf_row (ed_input ed) -> get_caret ed = Ok (MSelRow m) -> (exists x, get_autocomplete env ed = Ok x) -> ~ autocorrect_pending env ed ->
  grows d m -> ~ underflows (env_cfg env) d (range_end m) -> range_end m <> edge d (ed_input ed) ->
  exists ed' q, step env ed (OpSelectWithCaret d MChar) = Ok (ed', OutNone _) /\ ed_input ed' = ed_input ed /\
    ed_caret ed' = mkMinCaret (mc_start (ed_caret ed)) q /\ follows d (ed_input ed) (range_end m) q /\
    ~ pos_in_range q m /\ get_caret ed' <> get_caret ed.
Proof. exact select_changes. Qed.
Print Assumptions C39_extends_partial.
(** Towards the fixed end over a symbol: the range loses exactly this symbol. Missing:
    containers, see [C39_container]. *)
Theorem C39_shrinks_partial : forall (SyntaxNode : Type) (env : Env SyntaxNode) ed d m s,
  wf_row (ed_input ed) -> get_caret ed = Ok (MSelRow m) -> d = DLeft \/ d = DRight -> ~ grows d m ->
  node_get (ed_input ed) (mr_row m) (crossed d m) = Some (Symbol s) ->
  exists ed', step env ed (OpSelectWithCaret d MChar) = Ok (ed', OutNone _) /\ ed_input ed' = ed_input ed /\
    mc_start (ed_caret ed') = mc_start (ed_caret ed) /\
    get_caret ed' = Ok (MSelRow (mkMinRange (mr_row m) (mr_start m) (match d with DRight => mr_end m + 1 | _ => mr_end m - 1 end))).
Proof. exact select_shrinks. Qed.
Print Assumptions C39_shrinks_partial.
(** Towards the fixed end over a container there are three cases. If the selection started in the first cell that is met, what is
    selected is now in this cell. If it started in another cell of the same table, cells are selected and the next press panics.
    Otherwise the selection never changes again, however often the key is pressed. *)
Theorem C39_container : forall (SyntaxNode : Type) (env : Env SyntaxNode) ed d m v g,
  wf_row (ed_input ed) -> get_caret ed = Ok (MSelRow m) -> d = DLeft \/ d = DRight -> ~ grows d m ->
  node_get (ed_input ed) (mr_row m) (crossed d m) = Some (Container v g) ->
  let inner j := mr_row m ++ [(crossed d m, j)] in let started := mp_row (mc_start (ed_caret ed)) in
  exists cell, nth_error (gvalues g) (met_cell d g) = Some cell /\
  (prefix (inner (met_cell d g)) started -> exists ed' s, step env ed (OpSelectWithCaret d MChar) = Ok (ed', OutNone _) /\ ed_input ed' = ed_input ed /\
     mc_start (ed_caret ed') = mc_start (ed_caret ed) /\ get_caret ed' = Ok (MSelRow (mkMinRange (inner (met_cell d g)) s (met_edge d cell)))) /\
  (v = Table -> forall j, j <> met_cell d g -> prefix (inner j) started ->
     exists ed' r, step env ed (OpSelectWithCaret d MChar) = Ok (ed', OutNone _) /\ ed_input ed' = ed_input ed /\ get_caret ed' = Ok (MSelGrid r) /\
       forall d', exists e, step env ed' (OpSelectWithCaret d' MChar) = Panic e) /\
  (~ prefix (inner (met_cell d g)) started -> (v = Table -> forall j, ~ prefix (inner j) started) ->
     forall n, exists ed', run env ed (repeat (OpSelectWithCaret d MChar) n) = Ok ed' /\ ed_input ed' = ed_input ed /\ get_caret ed' = Ok (MSelRow m)).
Proof.
  intros SyntaxNode env ed d m v g Hwf Hg Hd Hgr Hc inner started. destruct (shrink_container env Hwf Hg Hd Hgr Hc) as (cell&Hn&_). exists cell.
  split; [exact Hn|]. split; [|split].
  - intros Hp. exact (shrink_into env Hwf Hg Hd Hgr Hc Hn Hp).
  - intros -> j Hj Hp. exact (shrink_table env Hwf Hg Hd Hgr Hc Hj Hp).
  - intros Hp Ht n. exact (shrink_forever env n Hwf Hg Hd Hgr Hc Hp Ht).
Qed.
Print Assumptions C39_container.
(** The three cases: Shift+Right in front of a fraction or table that is selected from the right or from inside of it. *)
Example C39_container_case : let selected doc a b := set_caret (editor_with doc a) (mkMinCaret a b) in
  let two := Container Table (mkGrid [typed "a"; typed "b"] 2) in let env := default_env debug_profile in
  (let ed := selected [fraction (typed "a") []; sym "x"] (mkMinPos [(0, 0)] 1) (here 0) in
   get_caret ed = Ok (MSelRow (mkMinRange [] 1 0)) /\ ~ grows DRight (mkMinRange [] 1 0) /\ prefix [(0, 0)] (mp_row (mc_start (ed_caret ed)))) /\
  (let ed := selected [two] (mkMinPos [(0, 1)] 1) (here 0) in
   get_caret ed = Ok (MSelRow (mkMinRange [] 1 0)) /\ prefix [(0, 1)] (mp_row (mc_start (ed_caret ed)))) /\
  (let ed := selected [fraction (typed "a") (typed "b")] (mkMinPos [(0, 1)] 1) (here 0) in
   get_caret ed = Ok (MSelRow (mkMinRange [] 1 0)) /\ ~ prefix [(0, 0)] (mp_row (mc_start (ed_caret ed))) /\ wf_row (ed_input ed)).
Proof.
  cbv zeta. repeat split; try (vm_compute; reflexivity); try (cbn; lia); try (exists []; reflexivity); try (apply wf_rowb_ok; reflexivity).
  intros [s H]. discriminate.
Qed.
(** Repeating it reaches the edge of the document, when the fixed end is not inside of a
    table nor, for Shift+Left with overflow checks, inside of a first cell. *)
Theorem C39_reaches_edge_partial : forall (SyntaxNode : Type) (env : Env SyntaxNode) d ed m,
  wf_row (ed_input ed) -> get_caret ed = Ok (MSelRow m) -> (exists x, get_autocomplete env ed = Ok x) -> ~ autocorrect_pending env ed ->
  grows d m ->
  (forall p i g j, node_get (ed_input ed) p i = Some (Container Table g) -> ~ prefix (p ++ [(i, j)]) (mp_row (mc_start (ed_caret ed)))) ->
  (overflow_checks (env_cfg env) = true -> d = DLeft -> forall p i, ~ prefix (p ++ [(i, 0)]) (mp_row (mc_start (ed_caret ed)))) ->
  exists n ed' s, n <= length (positions (ed_input ed)) /\ run env ed (repeat (OpSelectWithCaret d MChar) n) = Ok ed' /\
    ed_input ed' = ed_input ed /\ mc_start (ed_caret ed') = mc_start (ed_caret ed) /\
    get_caret ed' = Ok (MSelRow (mkMinRange [] s (mp_offset (edge d (ed_input ed))))).
Proof. exact select_reaches. Qed.
Print Assumptions C39_reaches_edge_partial.

(** A fraction and a letter are selected from right to left. However often Shift+Right
    is pressed, both stay selected. *)
Definition C39_selected : list Op :=
  [OpSpliceAtRange (mkMinRange [] 0 0) [fraction [sym "a"] []; sym "x"]; OpStartSelection (here 2) MChar; OpExtendSelection (here 0)].
Theorem C39_refuted : forall cfg, exists ed, run (default_env cfg) (editor_new _) C39_selected = Ok ed /\
  forall n, exists ed', run (default_env cfg) ed (repeat (OpSelectWithCaret DRight MChar) n) = Ok ed' /\
    get_caret ed' = Ok (MSelRow (mkMinRange [] 2 0)) /\ range_end (mkMinRange [] 2 0) <> edge DRight (ed_input ed').
Proof.
  intros cfg. both_profiles.
  all: eexists; (split; [vm_compute; reflexivity|]); intros [|n];
    [eexists; split; [reflexivity|split; [vm_compute; reflexivity|discriminate]]|].
  all: cbn [repeat run]; match goal with |- context [step ?e ?d ?o] => let r := eval vm_compute in (step e d o) in
    match r with Ok (?ed1, _) => replace (step e d o) with (Ok (ed1, OutNone unit)) by (vm_compute; reflexivity);
      assert (H : forall n, run e ed1 (repeat o n) = Ok ed1);
        [induction n0 as [|k IH]; [reflexivity|]; cbn [repeat run]; replace (step e ed1 o) with (Ok (ed1, OutNone unit)) by (vm_compute; reflexivity); exact IH
        |exists ed1; cbn [bind]; rewrite (H n); split; [reflexivity|split; [vm_compute; reflexivity|discriminate]]] end end.
Qed.
Print Assumptions C39_refuted.
(** With two cells of a table selected, Shift+arrow panics. *)
Theorem C39_table_refuted : forall cfg, panics cfg
  [OpSpliceAtRange (mkMinRange [] 0 0) [Container Table (mkGrid [[]; []] 2)]; OpStartSelection (mkMinPos [(0, 0)] 0) MChar;
   OpSelectWithCaret DRight MChar; OpSelectWithCaret DRight MChar].
Proof. intros cfg. both_profiles; eexists; vm_compute; reflexivity. Qed.
Print Assumptions C39_table_refuted.
(** A fraction between letters, the caret in front of it. *)
Example C39_case : exists ed, run (default_env debug_profile) (editor_new _)
    [OpSpliceAtRange (mkMinRange [] 0 0) [sym "x"; fraction [sym "a"] [sym "b"]; sym "y"]; OpStartSelection (here 1) MChar] = Ok ed /\
  wf_row (ed_input ed) /\ get_caret ed = Ok (MSelRow (mkMinRange [] 1 1)) /\ (exists x, get_autocomplete (default_env debug_profile) ed = Ok x) /\
  ~ autocorrect_pending (default_env debug_profile) ed /\ (forall p i, ~ prefix (p ++ [(i, 0)]) (mp_row (mc_start (ed_caret ed)))) /\
  (forall p i g j, node_get (ed_input ed) p i = Some (Container Table g) -> ~ prefix (p ++ [(i, j)]) (mp_row (mc_start (ed_caret ed)))) /\
  forall n, n = 2 \/ n = 3 -> exists ed', run (default_env debug_profile) ed (repeat (OpSelectWithCaret DRight MChar) n) = Ok ed' /\
    get_caret ed' = Ok (MSelRow (mkMinRange [] 1 3)).
Proof.
  eexists. split; [vm_compute; reflexivity|]. split; [apply wf_rowb_ok; reflexivity|]. split; [vm_compute; reflexivity|].
  split; [eexists; vm_compute; reflexivity|]. split.
  { intros (?&?&?&Hg&_). vm_compute in Hg. discriminate. }
  split; [intros p i [s H]; destruct p; discriminate|]. split; [intros p i g j _ [s H]; destruct p; discriminate|].
  intros n [->| ->]; (eexists; split; [vm_compute; reflexivity|vm_compute; reflexivity]).
Qed.
(** Two letters and a fraction selected from the fraction to the left, in a numerator. *)
Example C39_shrink_case : exists ed, run (default_env debug_profile) (editor_new _)
    [OpSpliceAtRange (mkMinRange [] 0 0) [fraction [sym "x"; sym "y"; fraction [sym "a"] []] [sym "b"]];
     OpStartSelection (mkMinPos [(0, 0); (2, 0)] 1) MChar; OpExtendSelection (mkMinPos [(0, 0)] 0)] = Ok ed /\
  wf_row (ed_input ed) /\ get_caret ed = Ok (MSelRow (mkMinRange [(0, 0)] 3 0)) /\ ~ grows DRight (mkMinRange [(0, 0)] 3 0) /\
  exists s, node_get (ed_input ed) [(0, 0)] (crossed DRight (mkMinRange [(0, 0)] 3 0)) = Some (Symbol s).
Proof.
  eexists. split; [vm_compute; reflexivity|]. split; [apply wf_rowb_ok; reflexivity|]. split; [vm_compute; reflexivity|].
  split; [cbn; lia|]. eexists. reflexivity.
Qed.
