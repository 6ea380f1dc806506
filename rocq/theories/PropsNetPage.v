(** Of what is typed in a page, only what remains counts (C103). *)
From Coq Require Import String.
From Verif Require Import Base Str Grid Node Focus Edit Caret Autocomplete Editor Rules NameMap Syntax Pratt Grammar SyntaxFind Render Layout Json FromMathML
  Spec SpecSyntax SpecAuto SpecMove SpecEditor SpecText SpecSafety SpecRender SpecDom Component SpecComponent SpecPage SpecTyped SpecNet BaseFacts TreeFacts RenderFacts HistoryFacts SafetyFacts TextFacts TypingFacts Samples
  PropsAuto PropsEditor PropsRender PropsSafety PropsImport ComponentFacts ComponentProofs ComponentCheck PropsComponent PageFacts PropsNet.
Open Scope list_scope.
Open Scope nat_scope.

Section Net.
Variable cfg : Cfg.
Variable xs xc : N -> bool.
Variable rs : Renderers.
Variable normalize : str -> str.
Variable segment : str -> list str.
Notation env := (page cfg xs xc).
Notation do_task := (do_task env rs segment).
Notation run_tasks := (run_tasks env rs segment).
Notation do_tasks := (fold_left (fun c t => fst (do_task t c))).
(** Whatever is thrown: the timer runs some of the tasks that wait, in order, and the others still wait. *)
Lemma some_tasks l : forall c, co_tasks c = l -> exists l1 l2, l = l1 ++ l2 /\ fst (run_tasks l c) = set_tasks l2 (do_tasks l1 c).
Proof.
  induction l as [|t l IH]; intros c E; [exists [], []; cbn; split; [reflexivity|]; rewrite <- E; symmetry; apply set_tasks_same|]. cbn [Component.run_tasks]. rewrite handle_modify. unfold handle.
  rewrite (@unaware_task _ rs segment t c l). destruct (do_task t c) as [c1 [[]|k]] eqn:Et.
  - destruct (IH (set_tasks l c1) eq_refl) as (l1&l2&->&F). exists (t :: l1), l2. split; [reflexivity|]. rewrite F. cbn [fold_left]. rewrite Et. cbn [fst].
    generalize (l1 ++ l2). intros l. clear. revert c1. induction l1 as [|t l1 IH]; intros c1; cbn [fold_left]; [reflexivity|]. rewrite (@unaware_task _ rs segment t c1 l). destruct (do_task t c1). cbn [fst]. apply IH.
  - exists [t], l. split; [reflexivity|]. cbn [fold_left fst]. now rewrite Et.
Qed.
Lemma tasks_apart l : forall c l0, do_tasks l (set_tasks l0 c) = set_tasks l0 (do_tasks l c).
Proof. induction l as [|t l IH]; intros c l0; cbn [fold_left]; [reflexivity|]. rewrite (@unaware_task _ rs segment t c l0). destruct (do_task t c). cbn [fst]. apply IH. Qed.
Lemma set_tasks_twice l l' c : set_tasks l (set_tasks l' c) = set_tasks l c. Proof. now destruct c. Qed.
(** So it does not matter when the timers come. *)
Lemma keys_and_timers n l : Forall key_or_timer l -> forall c, List.length (co_tasks c ++ keys_of l) <= n ->
  run_events env rs normalize segment c (l ++ repeat EvTimer n) = set_tasks [] (do_tasks (co_tasks c ++ keys_of l) c).
Proof.
  induction 1 as [|e l He Hl IH]; intros c L; [cbn [app keys_of flat_map] in *; rewrite app_nil_r in *; apply timers_tasks; exact L|]. destruct e; try destruct He; cbn [app run_events keys_of flat_map] in *.
  - cbn [Component.dispatch]. rewrite handle_get. unfold modify. cbn [fst]. fold (keys_of l) in *. rewrite IH; cbn [set_tasks co_tasks].
    + rewrite <- app_assoc. cbn [app]. rewrite tasks_apart, set_tasks_twice. reflexivity.
    + rewrite <- app_assoc. exact L.
  - cbn [Component.dispatch]. rewrite handle_get. fold (keys_of l) in *. destruct (some_tasks _ c eq_refl) as (l1&l2&E&F). rewrite F, IH; cbn [set_tasks co_tasks].
    + rewrite tasks_apart, set_tasks_twice, E, <- app_assoc, (fold_left_app _ l1). reflexivity.
    + rewrite E, <- app_assoc, app_length in L. lia.
Qed.
Context {doc : InputRow} {p : RowIndices} {row : list InputNode} {i j : nat}.
Hypothesis Hi : i <= List.length row.
Hypothesis Hseg : forall d s, In s (segment d) -> s <> [].
Notation shown := (@shows_typed SyntaxNode doc p row i j).
Lemma shown_lively text (ed : MathEditor SyntaxNode) : shown text ed -> lively ed.
Proof. intros H. split; [exact (proj1 (st_proper _ _ _ _ _ _ _ H))|]. rewrite (st_caret _ _ _ _ _ _ _ H). pose proof (shows_pos Hi _ _ H). split; assumption. Qed.
Lemma shown_parsed text (ed : MathEditor SyntaxNode) t : shown text ed -> shown text (set_parsed ed t).
Proof. intros [H1 H2 H3]. split; [exact H1|exact H2|exact H3]. Qed.
Lemma net_tasks keys : forall text text' c ed, co_editor c = Some ed -> shown text ed -> after_keys segment text keys = Some text' ->
  exists ed', co_editor (do_tasks keys c) = Some ed' /\ shown text' ed'.
Proof.
  induction keys as [|k keys IH]; intros text text' c ed E H Hk; [injection Hk as <-; now exists ed|]. destruct k as [| |[data|]|]; cbn [after_keys fold_left] in *; try discriminate Hk; try exact (IH _ _ _ _ E H Hk).
  - destruct text as [|s0 text0] eqn:Et; [discriminate Hk|]. rewrite <- Et in *.
    assert (El : text = removelast text ++ [last text []]) by (apply app_removelast_last; rewrite Et; discriminate). rewrite El in H.
    destruct (one_deleted env (proj1 C20_default_rules) Hi _ _ _ H) as (ed1&Hs&H1). destruct (@then_update cfg xs xc rs _ c ed ed1 _ E Hs (shown_lively _ _ H1)) as (t&Et'&_).
    exact (IH _ _ _ _ Et' (shown_parsed _ _ _ H1) Hk).
  - destruct (more_typed env (proj1 C20_default_rules) Hi _ (segment data) _ H) as (ed1&Hs&H1); [apply Forall_forall; exact (Hseg data)|].
    destruct (@then_update cfg xs xc rs _ c ed ed1 _ E Hs (shown_lively _ _ H1)) as (t&Et'&_). exact (IH _ _ _ _ Et' (shown_parsed _ _ _ H1) Hk).
Qed.
End Net.

(** The keys may come in any portions, the timers at any time, and the renderers may throw whenever they like: when there were timers enough, the
    selection has been replaced by what remains of what was typed, and the caret is behind it. *)
Theorem C103_page : forall cfg xs xc renderers normalize segment c ed m l data keys text, let env := page cfg xs xc in
  (forall d s, In s (segment d) -> s <> []) -> co_editor c = Some ed -> co_tasks c = [] ->
  proper nonempty (ed_input ed) -> valid_caret (ed_input ed) (ed_caret ed) -> get_caret ed = Ok (MSelRow m) ->
  Forall key_or_timer l -> keys_of l = InsertText (Some data) :: keys -> after_keys segment [] (keys_of l) = Some text ->
  let c' := run_events env renderers normalize segment c (l ++ repeat EvTimer (List.length (keys_of l))) in
  exists ed', co_editor c' = Some ed' /\ co_tasks c' = [] /\
    nodes_replaced (ed_input ed) (mr_row m) (lo m) (hi m) (map Symbol text) (ed_input ed') /\
    ed_caret ed' = collapsed (mkMinPos (mr_row m) (lo m + List.length text)).
Proof.
  intros cfg xs xc renderers normalize segment c ed m l data keys text env Hseg E T Hp Hv Hc Hl Hk Ha c'. unfold c'. subst env.
  rewrite (keys_and_timers cfg xs xc renderers normalize segment (List.length (keys_of l)) l Hl c) by (rewrite T; apply le_n). rewrite T. cbn [app]. rewrite Hk in *. cbn [fold_left after_keys app] in *.
  destruct (C13_typing_partial _ (page cfg xs xc) ed m (segment data) (proj1 Hp) Hc (matcher_works (page cfg xs xc) (proj1 C20_default_rules) ed Hp Hv)) as (ed1&Hs&R&Hc1).
  pose proof (proper_nodes_replaced (Q := nonempty) R Hp (proper_symbols (Hseg data))) as Hp1. destruct R as (row&L1&L2&R). fold (lo m) (hi m) in *.
  assert (H1 : shows_typed (ed_input ed) (mr_row m) row (lo m) (hi m) (segment data) ed1) by (split; auto).
  assert (Hi : lo m <= List.length row) by lia.
  destruct (@then_update cfg xs xc renderers _ c ed ed1 _ E Hs (shown_lively Hi _ _ H1)) as (t&Et&_).
  destruct (net_tasks cfg xs xc renderers segment Hi Hseg keys _ _ _ _ Et (shown_parsed _ _ _ H1) Ha) as (ed'&E'&[R' C' _]).
  exists ed'. split; [exact E'|]. split; [reflexivity|]. split; [exists row; auto|exact C'].
Qed.
Print Assumptions C103_page.
(** Behind x^2 a space cannot be drawn, and the timer throws; it is deleted, "a", "b" are typed, "b" is deleted and "cd" typed. *)
Example C103_page_case : forall cfg, let l := [EvBeforeInput (InsertText (Some (lit " "))); EvBeforeInput DeleteBackward; EvTimer; EvBeforeInput (InsertText (Some (lit "a"))); EvBeforeInput OtherInput;
    EvBeforeInput (InsertText (Some (lit "b"))); EvTimer; EvBeforeInput DeleteBackward; EvBeforeInput (InsertText (Some (lit "cd")))] in
  exists c ed m, after cfg at_end = Some c /\ co_editor c = Some ed /\ co_tasks c = [] /\ proper nonempty (ed_input ed) /\ valid_caret (ed_input ed) (ed_caret ed) /\ get_caret ed = Ok (MSelRow m) /\
    Forall key_or_timer l /\ keys_of l = InsertText (Some (lit " ")) :: skipn 1 (keys_of l) /\ after_keys by_character [] (keys_of l) = Some [lit "a"; lit "c"; lit "d"] /\
    throws cfg (at_end ++ firstn 2 l) EvTimer /\ doc_after cfg (at_end ++ l ++ repeat EvTimer (List.length (keys_of l))) = Some [sym "x"; sup [sym "2"]; sym "a"; sym "c"; sym "d"].
Proof.
  intros cfg l.
  both_profiles; (do 3 eexists; split; [vm_compute; reflexivity|]; split; [reflexivity|]; split; [reflexivity|]; cbn [ed_input ed_caret];
  split; [split; [apply wf_rowb_ok; reflexivity|intros x Hx; vm_compute in Hx; repeat destruct Hx as [<-|Hx]; try destruct Hx; vm_compute; try discriminate; exact I]|];
  split; [split; (eexists; split; [reflexivity|cbn; lia])|]; split; [vm_compute; reflexivity|]; split; [repeat constructor|]; split; [reflexivity|]; split; [reflexivity|]; split; vm_compute; first [discriminate|reflexivity]).
Qed.
