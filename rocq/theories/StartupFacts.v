(** Proofs about loading the editor in a page. *)
From Coq Require Import String.
From Verif Require Import Base Str Grid Node Focus Edit Caret Autocomplete Editor Rules NameMap Syntax Pratt Grammar SyntaxFind Render Layout Json FromMathML
  Spec SpecSyntax SpecMove SpecEditor SpecSafety SpecRender SpecDom Component SpecComponent Startup SpecStartup BaseFacts TreeFacts MoveFacts OrderFacts ParseFacts ParseTotal GrammarFacts FindFacts RenderFacts
  EditFacts EditorFacts TrackFacts HistoryFacts OpFacts SpliceFacts PopupFacts SafetyFacts SafetyProofs PropsRender PropsSafety ComponentFacts ComponentProofs.
Open Scope list_scope.
Open Scope nat_scope.
Set Implicit Arguments.
Unset Strict Implicit.

Section Editor.
Variable cfg : Cfg.
Variable xs xc : N -> bool.
Variable normalize : str -> str.
Variable segment : str -> list str.
Notation env := (page cfg xs xc).
Notation rs := default_renderers.
Notation update_input := (update_input env rs).
Notation render_carets := (render_carets env).
Notation run := (run_events env rs normalize segment).
Notation dispatch := (dispatch env rs normalize segment).
Notation set_mathml := (set_mathml env rs normalize segment).
Notation sound := (sound env any_part).

Lemma any_rules rule : In rule default_rules -> proper any_part (rule_result rule).
Proof. intros H. apply (proj2 C20_default_rules) in H as [H _]. split; [exact H|intros x _; exact I]. Qed.

(** What does not change while something is drawn, even if that throws *)
Definition same_page (b : bool) (l : list InputType) (c : Component) : Prop := co_connected c = b /\ co_tasks c = l.
Lemma page_call b l op : keeps (same_page b l) (call env op).
Proof. intros c H. unfold call. destruct (co_editor c) as [ed|]; [|exact H]. destruct (step env ed op) as [[ed' out]|k]; exact H. Qed.
Lemma page_modify b l f : (forall c, co_connected (f c) = co_connected c /\ co_tasks (f c) = co_tasks c) -> keeps (same_page b l) (modify f).
Proof. intros Hf c [H1 H2]. cbn. destruct (Hf c). split; congruence. Qed.
Ltac same_page := repeat match goal with
  | |- keeps _ (handle _ _) => apply keeps_handle; [|intros]
  | |- keeps _ (call _ _) => apply page_call
  | |- keeps _ (ret _) => apply keeps_ret
  | |- keeps _ get => apply keeps_get
  | |- keeps _ (lift _) => apply keeps_lift
  | |- keeps _ (modify _) => apply page_modify; intros []; split; reflexivity
  | |- keeps _ match ?x with _ => _ end => destruct x
  end.
Lemma page_carets b l : keeps (same_page b l) render_carets.
Proof. unfold Component.render_carets, call_get_caret. same_page. Qed.
Lemma page_update b l : keeps (same_page b l) update_input.
Proof. unfold Component.update_input, call_get_syntax_tree. same_page; apply page_carets. Qed.
Lemma page_mathml b l m : keeps (same_page b l) (set_mathml m).
Proof. unfold Component.set_mathml. same_page. apply page_update. Qed.

Definition same_tree (t : SyntaxNode) (c : Component) : Prop := co_tree c = t.
Lemma tree_carets t : keeps (same_tree t) render_carets.
Proof.
  unfold Component.render_carets, call_get_caret. repeat match goal with
  | |- keeps _ (handle _ _) => apply keeps_handle; [|intros]
  | |- keeps _ (call _ _) => intros c H; unfold call; destruct (co_editor c) as [ed|]; [|exact H]; destruct (step env ed _) as [[ed' out]|k]; exact H
  | |- keeps _ (ret _) => apply keeps_ret
  | |- keeps _ get => apply keeps_get
  | |- keeps _ (lift _) => apply keeps_lift
  | |- keeps _ (modify _) => intros [] H; exact H
  | |- keeps _ match ?x with _ => _ end => destruct x
  end.
Qed.
(** The syntax tree is remembered even if it cannot be drawn. *)
Lemma update_tree c ed ed' t : co_editor c = Some ed -> get_syntax_tree env ed = Ok (ed', t) -> co_tree (fst (update_input c)) = t.
Proof.
  intros E Et. unfold Component.update_input, call_get_syntax_tree, call. unfold handle at 1 2. rewrite E. cbn [step]. rewrite Et. cbn [bind]. unfold ret. rewrite handle_modify.
  match goal with |- co_tree (fst (?h ?c0)) = _ => assert (K : keeps (same_tree t) h); [|exact (K c0 eq_refl)] end.
  repeat match goal with
  | |- keeps _ (handle render_carets _) => apply keeps_handle; [apply tree_carets|intros]
  | |- keeps _ render_carets => apply tree_carets
  | |- keeps _ (handle _ _) => apply keeps_handle; [|intros]
  | |- keeps _ (lift _) => apply keeps_lift
  | |- keeps _ (modify _) => intros [] H; exact H
  end.
Qed.

(** A component with the caret at the start, the given document and the given edits to undo *)
Definition loaded (doc : InputRow) (past : list CaretEdit) (c : Component) : Prop :=
  exists ed t, co_editor c = Some ed /\ ed_input ed = doc /\ ed_caret ed = default_caret /\ undo_stack (ed_undo ed) = past /\ sound ed /\ fresh env ed /\
    parse (default_grammar xs xc) doc = Ok t /\ co_tree c = t.

Lemma update_loaded c ed : co_editor c = Some ed -> sound ed -> fresh env ed -> ed_caret ed = default_caret ->
  loaded (ed_input ed) (undo_stack (ed_undo ed)) (fst (update_input c)) /\
  ((exists x, draw xs xc (ed_input ed) = Ok x) -> up_to_date env rs (fst (update_input c))).
Proof.
  intros E S F Hc. split.
  - destruct (parse_gtree (@default_no_empty_tokens xs xc) (@default_all_containers xs xc) (sound_wf S)) as (t&Et&_).
    assert (G : exists ed', get_syntax_tree env ed = Ok (ed', t) /\ sound ed' /\ ed_input ed' = ed_input ed /\ ed_caret ed' = ed_caret ed /\ ed_undo ed' = ed_undo ed /\ fresh env ed').
    { unfold get_syntax_tree. destruct (ed_parsed ed) as [t0|] eqn:Ep.
      - pose proof (F _ Ep) as Ft. cbn in Ft. rewrite Et in Ft. inv Ft. exists ed. auto 10.
      - cbn [env_parse page]. rewrite Et. cbn [bind]. eexists. split; [reflexivity|]. split; [apply (sound_moved S); auto; apply S|]. split; [reflexivity|]. split; [reflexivity|]. split; [reflexivity|]. intros t' Ht'. cbn in Ht' |- *. inv Ht'. exact Et. }
    destruct G as (ed'&G&S'&Ei&Ec&Eu&F'). destruct (sound_get_caret S') as (sel&Hs). exists ed', t. split; [eapply update_alive; eauto|]. split; [exact Ei|]. split; [congruence|]. split; [now rewrite Eu|]. split; [exact S'|]. split; [exact F'|]. split; [exact Et|]. eapply update_tree; eauto.
  - intros D. destruct (update_total E S F D) as (c'&H). rewrite H. apply (update_ok H). intros ed0 E0. rewrite E in E0. inv E0. exact F.
Qed.
Lemma new_loaded connected c : component_new env rs connected = Ok c -> loaded [] [] c /\ co_connected c = connected.
Proof.
  unfold component_new. intros H. apply bind_ok in H as ([ed t]&Et&H). apply bind_ok in H as (x&_&H).
  match type of H with context [Component.update_input _ _ ?c0] => set (c1 := c0) in * end. unfold get_syntax_tree in Et. cbn [editor_new ed_parsed] in Et. apply bind_ok in Et as (t1&Et&H1). inv H1.
  assert (S : sound (set_parsed (@editor_new SyntaxNode) (Some t))). { apply (sound_moved (sound_new env any_part)); auto. apply (sound_new env any_part). }
  destruct (@update_loaded c1 _ eq_refl S) as [L _]; [intros t' Ht'; cbn in Ht'; inv Ht'; exact Et|reflexivity|]. pose proof (@page_update connected [] c1 (conj eq_refl eq_refl)) as P. destruct (Component.update_input env rs c1) as [c2 [[]|]]; inv H. split; [exact L|apply P].
Qed.

(** Reading a formula *)
Lemma mathml_loaded math root errors doc past c : loaded doc past c -> from_element normalize segment math = Ok (root, errors) -> wf_row root ->
  let c' := fst (set_mathml (Some math) c) in exists ce, loaded root (ce :: past) c' /\ committed cfg doc [ce] root /\ ce_before ce = default_caret /\
  ((exists x, draw xs xc root = Ok x) -> up_to_date env rs c').
Proof.
  intros (ed&t&E&Hi&Hc&Hu&S&F&Et&Ht) Hf Hw c'. pose proof (sound_wf S) as Hwf. rewrite Hi in Hwf. set (range := mkMinRange [] 0 (List.length doc)).
  assert (V : valid_range (ed_input ed) range) by (rewrite Hi; exists doc; cbn; repeat split; lia).
  assert (St : stays (ed_input ed) range root (mkMinPos [] 0)).
  { right. split; [reflexivity|]. intros row Hr. cbn in Hr. inv Hr. unfold selected_nodes. cbn. lia. }
  destruct (@splice_ok _ env ed range root) as (ed'&Hs); [apply rg_from_minimal_ok; [now rewrite Hi|exact V]|right; left; rewrite Hc; auto|].
  pose proof (splice_result Hs) as (Hrep&Hca&_). destruct (splice_advanced Hs) as (ce&A&Hb&_).
  assert (Hstep : step env ed (OpSpliceAtRange range root) = Ok (ed', OutNone _)) by (cbn [step]; now rewrite Hs).
  assert (S' : sound ed'). { eapply step_sound; [exact any_rules|exact S| | |exact Hstep]; [split; [exact V|split; [exact Hw|intros z _; exact I]]|]. cbn [keeps_caret]. rewrite Hc. split; exact St. }
  assert (F' : fresh env ed') by (eapply step_fresh; eauto).
  assert (Hd : ed_input ed' = root). { rewrite Hi in Hrep. destruct Hrep as (row&_&_&Hrep). unfold lo, hi in Hrep. cbn in Hrep. inversion Hrep as [r r' E1 E2 E3 E4|]; subst. rewrite skipn_all. apply app_nil_r. }
  assert (Ec : c' = fst (update_input (set_editor (Some ed') c))).
  { unfold c'. cbn [Component.set_mathml]. unfold handle at 1, lift. rewrite Hf. rewrite handle_get. cbn [fst]. rewrite Ht, (parse_range Hwf Et). cbn [fst snd]. fold range. unfold handle, call. now rewrite E, Hstep. }
  rewrite Ec. destruct (@update_loaded (set_editor (Some ed') c) ed' eq_refl S' F') as [L U]; [congruence|]. rewrite Hd in L, U.
  exists ce. rewrite (adv_undo A) in L. cbn [rev app] in L. rewrite Hu in L. split; [exact L|]. split; [rewrite <- Hi, <- Hd; apply (adv_committed A)|]. split; [congruence|exact U].
Qed.
Lemma undo_loaded doc0 doc ce past c : loaded doc (ce :: past) c -> committed cfg doc0 [ce] doc -> ce_before ce = default_caret ->
  loaded doc0 past (fst (dispatch (EvKey KeyUndo) c)).
Proof.
  intros (ed&t&E&Hi&Hc&Hu&S&F&Et&Ht) C Hb. rewrite <- Hi in C. destruct (@undo_times_spec _ env [ce] doc0 ed past C) as (ed2&H1&H2&H3&H4); [exact Hu|].
  unfold undo_times in H1. cbn [List.length repeat] in H1. change (Verif.Editor.run env ed [OpUndo]) with (bind (step env ed OpUndo) (fun x => let (ed, _) := x in Ok ed)) in H1. cbn [Component.dispatch]. unfold on_key. rewrite handle_assoc. unfold handle at 1. unfold call at 1. rewrite E.
  destruct (step env ed OpUndo) as [[ed3 out]|] eqn:Es; [|discriminate H1]. cbn [bind] in H1. inv H1. rewrite handle_ret.
  assert (S' : sound ed2) by (refine (step_sound (env := env) any_rules S _ _ Es); exact I). assert (F' : fresh env ed2) by (eapply step_fresh; eauto).
  destruct (@update_loaded (set_editor (Some ed2) c) ed2 eq_refl S' F') as [L _]; [congruence|]. exact L.
Qed.
Lemma undo_start doc c : loaded doc [] c -> loaded doc [] (fst (dispatch (EvKey KeyUndo) c)).
Proof.
  intros (ed&t&E&Hi&Hc&Hu&S&F&Et&Ht). cbn [Component.dispatch]. unfold on_key. rewrite handle_assoc. unfold handle at 1. unfold call at 1. rewrite E. cbn [step]. unfold undo, undo_undo. rewrite Hu. cbn [bind]. rewrite handle_ret.
  destruct (@update_loaded (set_editor (Some ed) c) ed eq_refl S F Hc) as [L _]. rewrite Hi, Hu in L. exact L.
Qed.
Lemma loaded_document doc past c : loaded doc past c -> document c = Some doc.
Proof. intros (ed&t&E&Hi&_). unfold document. rewrite E. cbn. now rewrite Hi. Qed.

(** Nothing is drawn of the caret outside of a page. *)
Lemma carets_hidden c : co_connected c = false -> render_carets c = (c, Ok tt).
Proof. intros H. unfold Component.render_carets. rewrite handle_get, H. reflexivity. Qed.
Lemma new_hidden c : component_new env rs false = Ok c -> co_carets c = [].
Proof.
  unfold component_new. intros H. apply bind_ok in H as ([ed t]&Et&H). apply bind_ok in H as (x&_&H).
  match type of H with context [Component.update_input _ _ ?c0] => destruct (Component.update_input env rs c0) as [c2 [[]|]] eqn:Eu; [|discriminate H] end. injection H as <-.
  unfold Component.update_input in Eu. apply handle_ok in Eu as (c3&t3&H&H2). apply get_tree_ok in H as (ed3&ed4&_&_&->). rewrite handle_modify in H2. apply handle_lift in H2 as (y&_&H2). rewrite handle_modify in H2. apply handle_lift in H2 as (row&_&H2).
  apply handle_lift in H2 as ([]&_&H2). rewrite handle_modify in H2. unfold handle in H2. rewrite carets_hidden in H2 by reflexivity. rewrite carets_hidden in H2 by reflexivity. inv H2. reflexivity.
Qed.

(** The editor of a formula *)
Lemma new_edits math c : component_new env rs false = Ok c -> edits env rs normalize segment math (run c [EvAttribute (Some math); EvConnect (Some math)]).
Proof.
  intros H. destruct (new_loaded H) as [L Hn]. destruct (new_ok H) as (U&_&Ht). cbn [run_events Component.dispatch]. rewrite handle_modify.
  set (c1 := fst (set_mathml (Some math) c)). pose proof (@page_mathml false [] (Some math) c (conj Hn Ht)) as P1. fold c1 in P1.
  set (c2 := fst (set_mathml (Some math) (set_connected true c1))). assert (P2 : same_page true [] c2). { apply page_mathml. destruct c1; split; [reflexivity|exact (proj2 P1)]. }
  destruct P2 as [P2 P3]. split; [exact P2|]. split; [exact P3|]. destruct (from_element normalize segment math) as [[root errors]|k] eqn:Ef.
  - intros Hw. destruct (mathml_loaded L Ef Hw) as (ce1&L1&C1&B1&_). fold c1 in L1. assert (L1' : loaded root [ce1] (set_connected true c1)) by (destruct c1; exact L1).
    destruct (mathml_loaded L1' Ef Hw) as (ce2&L2&C2&B2&U2). fold c2 in L2, U2. split; [eapply loaded_document; exact L2|]. split; [destruct L2 as (ed&t&E&_&Hc&_); rewrite E; cbn; now rewrite Hc|].
    split; [intros (t&x&Et&Ex); apply U2; exists x; eapply draw_ok; [exact Et|exact Ex]|]. pose proof (undo_loaded L2 C2 B2) as L3. split; [eapply loaded_document; exact L3|]. pose proof (undo_loaded L3 C1 B1) as L4. intros n. cbn [repeat run_events].
    revert L4. generalize (fst (dispatch (EvKey KeyUndo) (fst (dispatch (EvKey KeyUndo) c2)))). induction n as [|n IH]; intros c3 L4; cbn [repeat run_events]; [eapply loaded_document; exact L4|]. apply IH. now apply undo_start.
  - assert (E2 : c2 = set_connected true c1). { unfold c2. cbn [Component.set_mathml]. unfold handle, lift. now rewrite Ef. }
    assert (E1 : c1 = c). { unfold c1. cbn [Component.set_mathml]. unfold handle, lift. now rewrite Ef. } rewrite E2, E1. split; [eapply loaded_document; destruct c; exact L|]. split; [|pose proof (new_hidden H); now destruct c].
    destruct U as (ed&E&Sh&_). pose proof (loaded_document L) as D. unfold document in D. rewrite E in D. cbn in D. injection D as D. rewrite D in Sh. exact Sh.
Qed.
(** ** Setting the attribute later *)
Lemma in_root_valid root m : in_root root m -> valid_pos root m.
Proof. intros [H1 H2]. exists root. rewrite H1. now split. Qed.
Lemma caret_panics root mc k0 : wf_row root -> caret_from_minimal root mc = k0 -> mp_row (mc_start mc) = [] -> mp_row (mc_end mc) = [] -> ~ caret_in_root root mc -> exists k, k0 = Panic k.
Proof.
  intros Hw <- H1 H2 Hn. unfold caret_from_minimal.
  destruct (pos_from_minimal (from_root root) (mc_start mc)) as [s|k] eqn:Es; [|cbn [bind]; eauto]. destruct (pos_from_minimal (from_root root) (mc_end mc)) as [e|k] eqn:Ee; [|cbn [bind]; eauto]. exfalso. apply Hn.
  assert (V1 : valid_pos root (mc_start mc)) by (apply pos_from_minimal_iff; eauto). assert (V2 : valid_pos root (mc_end mc)) by (apply pos_from_minimal_iff; eauto).
  destruct V1 as (r1&G1&L1), V2 as (r2&G2&L2). rewrite H1 in G1. rewrite H2 in G2. cbn in G1, G2. inv G1. inv G2. split; split; auto.
Qed.
(** A caret that cannot be drawn *)
Lemma update_lost c ed k : co_editor c = Some ed -> co_connected c = true -> fresh env ed -> (exists x, draw xs xc (ed_input ed) = Ok x) -> (forall ed' : MathEditor SyntaxNode, ed_input ed' = ed_input ed -> ed_caret ed' = ed_caret ed -> get_caret ed' = Panic k) ->
  co_editor (fst (update_input c)) = None.
Proof.
  intros E Hc F (x&D) Hk. apply draw_inv in D as (t&Et&Ex). unfold Component.update_input.
  assert (G : exists ed', get_syntax_tree env ed = Ok (ed', t) /\ ed_input ed' = ed_input ed /\ ed_caret ed' = ed_caret ed).
  { unfold get_syntax_tree. destruct (ed_parsed ed) as [t0|] eqn:Ep.
    - specialize (F _ Ep). cbn in F. rewrite Et in F. inv F. eauto.
    - cbn [env_parse page]. rewrite Et. cbn [bind]. eexists. split; [reflexivity|]. split; reflexivity. }
  destruct G as (ed'&Eg&Ei&Eca). unfold call_get_syntax_tree, Component.call. unfold handle at 1 2. rewrite E. cbn [step]. rewrite Eg. cbn [bind]. unfold ret at 1. rewrite handle_modify. unfold handle at 1, lift at 1. rewrite Ex.
  rewrite handle_modify. unfold handle at 1, lift at 1. cbn [get_element]. assert (V : forallb is_mathml (get_elements x) = true).
  { pose proof (C55_valid xs xc rs t x (default_make xs xc) Ex) as V. rewrite forallb_forall in V |- *. intros d Hd. apply V in Hd. now destruct d. }
  unfold handle at 1, lift at 1. rewrite V. cbn [assert_]. rewrite handle_modify.
  match goal with |- context [handle _ _ ?c0] => set (c1 := c0) end. assert (E1 : co_editor c1 = Some ed') by reflexivity. assert (C1 : co_connected c1 = true) by exact Hc.
  clearbody c1. unfold handle at 1. unfold Component.render_carets at 1. rewrite handle_get, C1. cbn [negb]. unfold call_get_caret, Component.call. unfold handle at 1 2. rewrite E1. cbn [step]. rewrite (Hk _ Ei Eca). reflexivity.
Qed.
Lemma mathml_exact c ed math root errors : co_editor c = Some ed -> fresh env ed -> wf_row (ed_input ed) -> shows env rs c (ed_input ed) ->
  from_element normalize segment math = Ok (root, errors) -> wf_row root -> (exists x, draw xs xc root = Ok x) -> let c' := fst (set_mathml (Some math) c) in
  (caret_in_root root (ed_caret ed) -> document c' = Some root /\ up_to_date env rs c') /\ (co_connected c = true -> ~ caret_in_root root (ed_caret ed) -> document c' = None).
Proof.
  intros E F Hwf (t&x&Et&_&Ht&_) Hf Hw D c'. set (range := mkMinRange [] 0 (List.length (ed_input ed))).
  assert (V : valid_range (ed_input ed) range) by (exists (ed_input ed); cbn; repeat split; lia).
  assert (Ec : c' = match step env ed (OpSpliceAtRange range root) with Ok (ed', _) => fst (update_input (set_editor (Some ed') c)) | Panic _ => set_editor None c end).
  { unfold c'. cbn [Component.set_mathml]. unfold handle at 1, lift. rewrite Hf. rewrite handle_get. cbn [fst]. rewrite Ht, (parse_range Hwf Et). cbn [fst snd]. fold range. unfold handle, call. rewrite E. destruct (step env ed (OpSpliceAtRange range root)) as [[ed' out]|]; reflexivity. }
  assert (R : (mp_row (mc_start (ed_caret ed)) = [] /\ mp_row (mc_end (ed_caret ed)) = []) \/ exists k, splice_at_range env ed range root = Panic k).
  { destruct (mp_row (mc_start (ed_caret ed))) as [|a r] eqn:R1; [destruct (mp_row (mc_end (ed_caret ed))) as [|b r] eqn:R2; [auto|]|]; right; unfold splice_at_range.
    all: destruct (rg_from_minimal_ok Hwf V) as (g&Hg); rewrite Hg; cbn [bind]; apply rg_from_minimal_inv in Hg as [G Em]; rewrite (replace_range_eq root G); cbn [bind]; assert (Ei : rg_indices g = []) by (change [] with (mr_row range); rewrite <- Em; reflexivity); rewrite Ei.
    - destruct (@pos_edits_ok (env_cfg env) (mc_start (ed_caret ed)) [] (rg_left g) (rg_nodes g) root) as (s&Hs); [auto|]. rewrite Hs. cbn [bind].
      unfold pos_apply_edits at 1. cbn [apply_edits]. match goal with |- context [pos_apply_edit ?a ?m (ERow ?e)] => destruct (@track_root_panics a e m eq_refl) as (k&Hk); [now rewrite R2|]; rewrite Hk end. eexists. reflexivity.
    - unfold pos_apply_edits at 1. cbn [apply_edits]. match goal with |- context [pos_apply_edit ?a ?m (ERow ?e)] => destruct (@track_root_panics a e m eq_refl) as (k&Hk); [now rewrite R1|]; rewrite Hk end. eexists. reflexivity. }
  destruct R as [[R1 R2]|(k&Hk)].
  2: { assert (Hd : c' = set_editor None c) by (rewrite Ec; cbn [step]; rewrite Hk; reflexivity). split; [|intros _ _; rewrite Hd; reflexivity].
    intros [[H1 _] [H2 _]]. exfalso. destruct (@splice_ok _ env ed range root) as (ed'&Hs); [now apply rg_from_minimal_ok|auto|]. rewrite Hk in Hs. discriminate Hs. }
  destruct (@splice_ok _ env ed range root) as (ed'&Hs); [now apply rg_from_minimal_ok|auto|].
  pose proof (splice_result Hs) as (Hrep&Hca&_). assert (Hstep : step env ed (OpSpliceAtRange range root) = Ok (ed', OutNone _)) by (cbn [step]; now rewrite Hs).
  assert (F' : fresh env ed') by (eapply step_fresh; eauto).
  assert (Hd : ed_input ed' = root). { destruct Hrep as (row&_&_&Hrep). unfold lo, hi in Hrep. cbn in Hrep. inversion Hrep as [r r' E1 E2 E3 E4|]; subst. rewrite skipn_all. apply app_nil_r. }
  rewrite Ec, Hstep. split.
  - intros [I1 I2]. assert (P : placed ed'). { split; [now rewrite Hd|]. rewrite Hd, Hca. split; now apply in_root_valid. }
    destruct (@update_placed cfg xs xc (set_editor (Some ed') c) ed' eq_refl P F') as (c2&H2); [now rewrite Hd|]. rewrite H2. cbn [fst].
    destruct (update_ok H2) as (U&Du&_); [intros ed0 E0; cbn in E0; inv E0; exact F'|]. split; [|exact U]. rewrite Du. cbn. now rewrite Hd.
  - intros Hc Hn. destruct (@caret_panics root (ed_caret ed) _ Hw eq_refl R1 R2 Hn) as (k&Hk). unfold document.
    rewrite (@update_lost (set_editor (Some ed') c) ed' k); auto; [now rewrite Hd|]. intros ed2 Hi2 Hc2. unfold get_caret. rewrite Hi2, Hc2, Hd, Hca, Hk. reflexivity.
Qed.
End Editor.

(** * The page *)
Section Page.
Variable env : Env SyntaxNode.
Variable renderers : Renderers.
Variable normalize : str -> str.
Variable segment : str -> list str.
Variable good : Xml -> Component -> Prop.
Notation visit := (replace_formula env renderers normalize segment).
Notation make := (make_editor env renderers normalize segment).
Hypothesis make_good : forall math, exists c, make math = PageEditor (Some c) /\ good math c.

Fixpoint PageNode_nested (P : PageNode -> Prop) (He : forall id name marked nodes, Forall P nodes -> P (PageElement id name marked nodes))
  (Ht : forall t, P (PageText t)) (Hc : forall c, P (PageEditor c)) (n : PageNode) : P n :=
  match n with
  | PageElement id name marked nodes => He id name marked nodes
      ((fix all l : Forall P l := match l with [] => Forall_nil P | x :: l => Forall_cons x (PageNode_nested He Ht Hc x) (all l) end) nodes)
  | PageText t => Ht t
  | PageEditor c => Hc c
  end.

Lemma find_cons id n l : find_in id (n :: l) = match find_node id n with Some x => Some x | None => find_in id l end.
Proof. reflexivity. Qed.
Lemma find_element id i name marked nodes : find_node id (PageElement i name marked nodes) = if i =? id then Some (PageElement i name marked nodes) else find_in id nodes.
Proof. reflexivity. Qed.
(** Elements that are not there are not found and not replaced. *)
Lemma absent_list id (l : list PageNode) : Forall (fun n => ~ In id (identities n) -> find_node id n = None /\ forall new, replace_with id new n = n) l ->
  ~ In id (flat_map identities l) -> find_in id l = None /\ forall new, map (replace_with id new) l = l.
Proof.
  intros H. induction H as [|n l Hn Hl IH]; intros Hi; [auto|]. cbn [flat_map] in Hi. rewrite in_app_iff in Hi. destruct Hn as [H1 H2]; [tauto|]. destruct IH as [H3 H4]; [tauto|].
  rewrite find_cons, H1. split; [exact H3|]. intros new. cbn [map]. now rewrite H2, H4.
Qed.
Lemma absent_node id n : ~ In id (identities n) -> find_node id n = None /\ forall new, replace_with id new n = n.
Proof.
  induction n as [i name marked nodes IH|t|c] using PageNode_nested; [|auto|auto]. intros Hi. cbn [identities] in Hi. destruct (absent_list IH) as [H1 H2]; [intros H; apply Hi; now right|].
  rewrite find_element. cbn [replace_with]. destruct (Nat.eqb_spec i id) as [->|_]; [exfalso; apply Hi; now left|]. split; [exact H1|]. intros new. now rewrite H2.
Qed.
Lemma absent id l : ~ In id (flat_map identities l) -> find_in id l = None /\ forall new, map (replace_with id new) l = l.
Proof. apply absent_list. apply Forall_forall. intros n _. apply absent_node. Qed.
Lemma visit_absent id l : ~ In id (flat_map identities l) -> visit l id = l.
Proof. intros H. unfold replace_formula. now rewrite (proj1 (absent H)). Qed.
Lemma visits_absent ids : forall l, (forall id, In id ids -> ~ In id (flat_map identities l)) -> fold_left visit ids l = l.
Proof. induction ids as [|id ids IH]; intros l H; [reflexivity|]. cbn [fold_left]. rewrite visit_absent by (apply H; now left). apply IH. intros i Hi. apply H. now right. Qed.
(** Elements stay where they are. *)
Lemma find_present id l : find_in id l <> None -> In id (flat_map identities l).
Proof. intros H. destruct (in_dec Nat.eq_dec id (flat_map identities l)) as [Hi|Hi]; [exact Hi|]. now rewrite (proj1 (absent Hi)) in H. Qed.
Lemma find_app id l1 l2 : find_in id (l1 ++ l2) = match find_in id l1 with Some x => Some x | None => find_in id l2 end.
Proof. induction l1 as [|n l1 IH]; [reflexivity|]. cbn [app]. rewrite !find_cons, IH. now destruct (find_node id n). Qed.
Lemma visit_left id l1 l2 : ~ In id (flat_map identities l2) -> visit (l1 ++ l2) id = visit l1 id ++ l2.
Proof.
  intros H. destruct (absent H) as [H1 H2]. unfold replace_formula. rewrite find_app, H1. destruct (find_in id l1); [|reflexivity]. now rewrite map_app, H2.
Qed.
Lemma visit_right id l1 l2 : ~ In id (flat_map identities l1) -> visit (l1 ++ l2) id = l1 ++ visit l2 id.
Proof.
  intros H. destruct (absent H) as [H1 H2]. unfold replace_formula. rewrite find_app, H1. destruct (find_in id l2); [|reflexivity]. now rewrite map_app, H2.
Qed.
Lemma visit_inside id i name marked nodes : i <> id -> visit [PageElement i name marked nodes] id = [PageElement i name marked (visit nodes id)].
Proof.
  intros H. unfold replace_formula. rewrite find_cons, find_element. apply Nat.eqb_neq in H. rewrite H. cbn [find_in fold_right]. destruct (find_in id nodes) as [el|]; [|reflexivity]. cbn [map replace_with]. now rewrite H.
Qed.
Lemma identities_replace id c n x : In x (identities (replace_with id (PageEditor c) n)) -> In x (identities n).
Proof.
  induction n as [i name marked nodes IH|t|c'] using PageNode_nested; [|auto|auto]. cbn [replace_with]. destruct (i =? id); [intros []|]. cbn [identities]. intros [H|H]; [now left|]. right. rewrite in_flat_map in *. destruct H as (y&Hy&Hx).
  apply in_map_iff in Hy as (n&<-&Hn). rewrite Forall_forall in IH. exists n. auto.
Qed.
Lemma identities_visit id l x : In x (flat_map identities (visit l id)) -> In x (flat_map identities l).
Proof.
  unfold replace_formula. destruct (find_in id l) as [el|]; [|auto]. rewrite !in_flat_map. intros (y&Hy&Hx). apply in_map_iff in Hy as (n&<-&Hn). exists n. split; [exact Hn|]. unfold make_editor in Hx. eapply identities_replace; exact Hx.
Qed.
Lemma visits_left ids : forall l1 l2, (forall id, In id ids -> ~ In id (flat_map identities l2)) -> fold_left visit ids (l1 ++ l2) = fold_left visit ids l1 ++ l2.
Proof.
  induction ids as [|id ids IH]; intros l1 l2 H; [reflexivity|]. cbn [fold_left]. rewrite visit_left by (apply H; now left). apply IH. intros i Hi. apply H. now right.
Qed.
Lemma visits_right ids : forall l1 l2, (forall id, In id ids -> ~ In id (flat_map identities l1)) -> fold_left visit ids (l1 ++ l2) = l1 ++ fold_left visit ids l2.
Proof.
  induction ids as [|id ids IH]; intros l1 l2 H; [reflexivity|]. cbn [fold_left]. rewrite visit_right by (apply H; now left). apply IH. intros i Hi. apply H. now right.
Qed.
Lemma visits_inside ids i name marked : ~ In i ids -> forall nodes, fold_left visit ids [PageElement i name marked nodes] = [PageElement i name marked (fold_left visit ids nodes)].
Proof.
  induction ids as [|id ids IH]; intros H nodes; [reflexivity|]. cbn [fold_left]. rewrite visit_inside by (intros ->; apply H; now left). apply IH. intros Hi. apply H. now right.
Qed.
Lemma identities_visits ids x : forall l, In x (flat_map identities (fold_left visit ids l)) -> In x (flat_map identities l).
Proof. induction ids as [|id ids IH]; intros l H; [exact H|]. cbn [fold_left] in H. apply IH in H. eapply identities_visit; exact H. Qed.
Lemma query_ids n x : In x (query n) -> In x (identities n).
Proof.
  induction n as [i name marked nodes IH|t|c] using PageNode_nested; [|auto|auto]. cbn [query identities]. rewrite in_app_iff. intros [H|H]; [destruct (selects name marked); [destruct H as [->|[]]; now left|destruct H]|]. right.
  rewrite in_flat_map in *. destruct H as (y&Hy&Hx). rewrite Forall_forall in IH. exists y. auto.
Qed.
Lemma query_all_ids l x : In x (query_all l) -> In x (flat_map identities l).
Proof. unfold query_all. rewrite !in_flat_map. intros (y&Hy&Hx). exists y. split; [exact Hy|now apply query_ids]. Qed.
Lemma selects_true name marked : selects name marked = true <-> name = lit "math" /\ marked = true.
Proof.
  unfold selects, tag_is. cbn [existsb]. rewrite orb_false_r, andb_true_iff, str_eqb_eq. reflexivity.
Qed.
Lemma nodup_apart l1 l2 x : NoDup (flat_map identities (l1 ++ l2)) -> In x (flat_map identities l1) -> ~ In x (flat_map identities l2).
Proof. rewrite flat_map_app. intros H H1 H2. apply in_split in H1 as (a&b&E). rewrite E, <- app_assoc in H. cbn [app] in H. apply NoDup_remove_2 in H. apply H. rewrite !in_app_iff. auto. Qed.

Lemma nodup_parts (l1 l2 : list nat) : NoDup (l1 ++ l2) -> NoDup l1 /\ NoDup l2.
Proof.
  induction l1 as [|x l1 IH]; cbn [app]; intros H; [split; [constructor|exact H]|]. inversion H as [|y l Hx Hl]; subst. destruct (IH Hl) as [H1 H2]. split; [|exact H2]. constructor; [|exact H1]. intros Hi. apply Hx. apply in_app_iff. now left.
Qed.
Lemma start_list l : Forall (fun n => NoDup (identities n) -> exists n', fold_left visit (query n) [n] = [n'] /\ editable good n n') l -> NoDup (flat_map identities l) ->
  Forall2 (editable good) l (fold_left visit (query_all l) l).
Proof.
  intros H. induction H as [|n l Hn Hl IH]; intros N; [constructor|]. unfold query_all. cbn [flat_map]. rewrite fold_left_app. fold (query_all l). change (n :: l) with ([n] ++ l).
  assert (N2 : NoDup (flat_map identities ([n] ++ l))) by (rewrite flat_map_app; cbn [flat_map]; rewrite app_nil_r; exact N). cbn [flat_map] in N.
  rewrite visits_left. 2:{ intros id Hid. apply (nodup_apart N2). cbn [flat_map]. rewrite app_nil_r. now apply query_ids. }
  destruct Hn as (n'&En&On). { apply (nodup_parts N). }
  rewrite visits_right. 2:{ intros id Hid Hin. apply query_all_ids in Hid. apply (nodup_apart N2 (x := id)); [|exact Hid]. apply identities_visits in Hin. exact Hin. }
  rewrite En. cbn [app]. constructor; [exact On|]. apply IH. apply (nodup_parts N).
Qed.
Lemma start_node n : NoDup (identities n) -> exists n', fold_left visit (query n) [n] = [n'] /\ editable good n n'.
Proof.
  induction n as [i name marked nodes IH|t|c] using PageNode_nested; intros N.
  - cbn [identities] in N. inversion N as [|x l Ni Nl]; subst. cbn [query]. fold (query_all nodes). destruct (selects name marked) eqn:Es.
    + pose proof Es as E2. apply selects_true in E2 as [-> ->]. cbn [app fold_left]. unfold replace_formula at 2. rewrite find_cons, find_element, Nat.eqb_refl. cbn [map replace_with]. rewrite Nat.eqb_refl.
      destruct (make_good (outer_html (PageElement i (lit "math") true nodes))) as (c&Em&Hg). rewrite Em. rewrite visits_absent by (intros id _ []). eexists. split; [reflexivity|]. now constructor.
    + cbn [app]. rewrite visits_inside by (intros H; apply Ni; now apply query_all_ids). eexists. split; [reflexivity|]. constructor; [rewrite <- selects_true, Es; discriminate|]. now apply start_list.
  - exists (PageText t). split; [reflexivity|constructor].
  - exists (PageEditor c). split; [reflexivity|constructor].
Qed.
Lemma start_opened l : NoDup (flat_map identities l) -> Forall2 (editable good) l (start_up env renderers normalize segment l).
Proof. apply start_list. apply Forall_forall. intros n _. apply start_node. Qed.
End Page.

Lemma page_opened cfg xs xc normalize segment l : NoDup (flat_map identities l) ->
  Forall2 (editable (edits (page cfg xs xc) default_renderers normalize segment)) l (start_up (page cfg xs xc) default_renderers normalize segment l).
Proof.
  apply start_opened. intros math. destruct (new_total cfg xs xc any_rules false) as (c&Hc). unfold make_editor. rewrite Hc. eexists. split; [reflexivity|]. now apply new_edits.
Qed.
