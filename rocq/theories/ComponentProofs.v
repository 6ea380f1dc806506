(** Proofs about the component in a page: handlers that do not throw. *)
From Coq Require Import String.
From Verif Require Import Base Str Grid Node Focus Edit Caret Autocomplete Editor Rules NameMap Syntax Pratt Grammar SyntaxFind Render Layout Json FromMathML
  Spec SpecSyntax SpecMove SpecEditor SpecSafety SpecRender SpecDom Component SpecComponent BaseFacts TreeFacts MoveFacts OrderFacts ParseFacts ParseTotal GrammarFacts FindFacts RenderFacts
  EditorFacts HistoryFacts PopupFacts SafetyFacts SafetyProofs PropsRender PropsSafety ComponentFacts.
Open Scope list_scope.
Open Scope nat_scope.
Set Implicit Arguments.
Unset Strict Implicit.

Section Page.
Variable cfg : Cfg.
Variable xs xc : N -> bool.
Variable normalize : str -> str.
Variable segment : str -> list str.
Notation env := (page cfg xs xc).
Notation rs := default_renderers.
Notation Editor := (MathEditor SyntaxNode).
Notation dispatch := (dispatch env rs normalize segment).
Notation update_input := (update_input env rs).
Notation render_carets := (render_carets env).
Notation do_task := (do_task env rs segment).
Notation run_tasks := (run_tasks env rs segment).
Notation call := (call env).
(** Content made of parts that satisfy [Q], and operations for which it is known that they do not
    panic and that what they make can be drawn *)
Variable Q : Part -> Prop.
Notation sound := (sound env Q).
Variable fine : Editor -> Op -> Prop.
Hypothesis Hrules : forall rule, In rule default_rules -> proper Q (rule_result rule).
Hypothesis Hnonempty : forall s, Q (PartSymbol s) -> s <> [].
Hypothesis fine_safe : forall ed op, sound ed -> fine ed op -> safe_op env Q ed op.
Hypothesis fine_drawn : forall ed op ed' out, sound ed -> fine ed op -> step env ed op = Ok (ed', out) -> sound ed' -> exists x, draw xs xc (ed_input ed') = Ok x.

Lemma shows_draw c doc : shows env rs c doc -> exists x, draw xs xc doc = Ok x /\ co_result c = x.
Proof. intros (t&x&Et&Ex&_&Er&_). exists x. split; [|exact Er]. eapply draw_ok; [exact Et|exact Ex]. Qed.
Lemma draw_shows_result doc x : (n <- env_parse env doc ;; render_all rs n) = Ok x -> exists t, parse (default_grammar xs xc) doc = Ok t /\ render_all rs t = Ok x.
Proof. intros H. apply bind_ok in H as (t&Et&Hx). eauto. Qed.
(** A caret in the document can be drawn. *)
Definition placed (ed : Editor) : Prop := wf_row (ed_input ed) /\ valid_caret (ed_input ed) (ed_caret ed).
Lemma sound_placed ed : sound ed -> placed ed.
Proof. intros S. split; [exact (sound_wf S)|apply S]. Qed.
Lemma caret_drawn ed x : placed ed -> draw xs xc (ed_input ed) = Ok x -> exists sel d, get_caret ed = Ok sel /\ draw_caret x sel = Ok d.
Proof.
  intros [Hwf [V1 V2]] D. destruct (caret_from_minimal_ok Hwf V1 V2) as (c&Hc&_&_&_&Hsel).
  unfold get_caret. rewrite Hc. cbn [bind]. destruct (c_selection c) as [r|r]; cbn [sel_to_minimal].
  - destruct Hsel as (_&G&_). apply good_range_valid in G. destruct G as (row&Hr&Ha&Hb). destruct (C57_selection xs xc _ x _ row _ _ Hwf D Hr Ha Hb) as (a&b&l&E&_).
    destruct (C52_rows xs xc _ x _ row Hwf D Hr) as (x'&E'&_). eexists _, _. split; [reflexivity|]. cbn [draw_caret]. rewrite E. cbn [bind]. rewrite E'. reflexivity.
  - destruct Hsel as (p&i&g&j&j'&(Hn&_&Hp1&Hp2)&Hm). rewrite Hm. eexists _, _. split; [reflexivity|]. cbn [draw_caret mg_row mg_index mg_range rstart rend].
    assert (R : forall k a, prefix (p ++ [(i, k)]) (mp_row a) -> valid_pos (ed_input ed) a -> exists row, row_get (ed_input ed) (p ++ [(i, k)]) = Some row).
    { intros k a (q&Hq) (row&Hr&_). rewrite Hq, row_get_app in Hr. destruct (row_get _ (p ++ _)) as [row'|]; [eauto|discriminate]. }
    destruct (R _ _ Hp1 V1) as (row1&R1). destruct (R _ _ Hp2 V2) as (row2&R2). destruct (C52_rows xs xc _ x _ row1 Hwf D R1) as (x1&E1&_). destruct (C52_rows xs xc _ x _ row2 Hwf D R2) as (x2&E2&_).
    assert (M : exists y1 y2, get_element x (p ++ [(i, Nat.min j j')]) = Ok y1 /\ get_element x (p ++ [(i, Nat.max (Nat.max j j' + 1 - 1) (Nat.min j j'))]) = Ok y2).
    { rewrite Nat.add_sub. rewrite (Nat.max_l (Nat.max j j')) by lia. destruct (Nat.le_ge_cases j j') as [L|L].
      - rewrite (Nat.min_l j j'), (Nat.max_r j j') by lia. eauto.
      - rewrite (Nat.min_r j j'), (Nat.max_l j j') by lia. eauto. }
    destruct M as (y1&y2&M1&M2). rewrite M1. cbn [bind]. rewrite M2. reflexivity.
Qed.
Lemma carets_total c ed : co_editor c = Some ed -> placed ed -> shows env rs c (ed_input ed) -> exists c', render_carets c = (c', Ok tt).
Proof.
  intros E S Sh. unfold Component.render_carets. rewrite handle_get. destruct (co_connected c); cbn [negb]; [|eexists; reflexivity].
  apply shows_draw in Sh as (x&D&Ex). destruct (caret_drawn S D) as (sel&d&Es&Ed). unfold call_get_caret, Component.call. unfold handle at 1 2. rewrite E. cbn [step]. rewrite Es. cbn [bind].
  unfold ret. rewrite set_editor_same by exact E. rewrite !handle_modify, handle_get. cbn [set_carets co_result]. rewrite Ex. unfold handle, lift. rewrite Ed. eexists. reflexivity.
Qed.
Lemma update_placed c ed : co_editor c = Some ed -> placed ed -> fresh env ed -> (exists x, draw xs xc (ed_input ed) = Ok x) -> exists c', update_input c = (c', Ok tt).
Proof.
  intros E S F (x&D). apply draw_inv in D as (t&Et&Ex). unfold Component.update_input.
  assert (G : exists ed', get_syntax_tree env ed = Ok (ed', t) /\ placed ed' /\ ed_input ed' = ed_input ed).
  { unfold get_syntax_tree. destruct (ed_parsed ed) as [t0|] eqn:Ep.
    - specialize (F _ Ep). cbn in F. rewrite Et in F. inv F. eauto.
    - cbn [env_parse page]. rewrite Et. cbn [bind]. eexists. split; [reflexivity|]. split; [exact S|reflexivity]. }
  destruct G as (ed'&Eg&S'&Ei). unfold call_get_syntax_tree, Component.call. unfold handle at 1 2. rewrite E. cbn [step]. rewrite Eg. cbn [bind]. unfold ret. rewrite handle_modify. unfold handle at 1, lift at 1. rewrite Ex.
  rewrite handle_modify. unfold handle at 1, lift at 1. cbn [get_element]. assert (V : forallb is_mathml (get_elements x) = true).
  { pose proof (C55_valid xs xc rs t x (default_make xs xc) Ex) as V. rewrite forallb_forall in V |- *. intros d Hd. apply V in Hd. now destruct d. }
  unfold handle at 1, lift at 1. rewrite V. cbn [assert_]. rewrite handle_modify.
  match goal with |- context [handle _ _ ?c0] => set (c1 := c0) end. assert (E1 : co_editor c1 = Some ed') by reflexivity.
  assert (S1 : shows env rs c1 (ed_input ed')). { exists t, x. rewrite Ei. repeat split; auto. }
  destruct (carets_total E1 S' S1) as (c2&H2). rewrite (handle_eq _ H2). destruct (carets_show rs H2 E1) as (E2&_&S2&_). exact (carets_total E2 S' (S2 _ S1)).
Qed.
Lemma update_total c ed : co_editor c = Some ed -> sound ed -> fresh env ed -> (exists x, draw xs xc (ed_input ed) = Ok x) -> exists c', update_input c = (c', Ok tt).
Proof. intros E S. apply update_placed; [exact E|exact (sound_placed S)]. Qed.
Definition healthy (c : Component) : Prop := up_to_date env rs c /\ exists ed, co_editor c = Some ed /\ sound ed /\ fresh env ed.
Lemma query_sound ed op ed' out : op = OpGetCaret \/ op = OpGetSyntaxTree -> sound ed /\ fresh env ed -> step env ed op = Ok (ed', out) -> sound ed' /\ fresh env ed'.
Proof.
  intros Hop [S F] H. split; [|eapply step_fresh; eauto]. eapply step_sound; [| | | |exact H].
  - exact Hrules.
  - exact S.
  - destruct Hop as [->| ->]; exact I.
  - destruct Hop as [->| ->]; exact I.
Qed.
Lemma update_healthy c ed : co_editor c = Some ed -> sound ed -> fresh env ed -> (exists x, draw xs xc (ed_input ed) = Ok x) -> exists c', update_input c = (c', Ok tt) /\ healthy c'.
Proof.
  intros E S F D. destruct (update_total E S F D) as (c'&H). exists c'. split; [exact H|]. assert (F0 : on_editor (fresh env) c) by (intros ed0 E0; rewrite E in E0; inv E0; exact F).
  destruct (update_ok H F0) as (U&_&_). split; [exact U|]. destruct U as (ed'&E'&_). exists ed'. split; [exact E'|]. 
  pose proof (@keeps_update_input env rs (fun ed => sound ed /\ fresh env ed) query_sound c) as K. rewrite H in K. apply K; [|exact E']. intros ed0 E0. rewrite E in E0. inv E0. auto.
Qed.
Lemma op_safe c ed op : co_editor c = Some ed -> sound ed -> fresh env ed -> safe_op env Q ed op ->
  exists ed' out, call op c = (set_editor (Some ed') c, Ok out) /\ step env ed op = Ok (ed', out) /\ sound ed' /\ fresh env ed'.
Proof.
  intros E S F (Ha&Hk&Hp). destruct (@step_total _ env Q (proj1 C20_default_rules) Hnonempty ed op S Ha Hk Hp) as ([ed' out]&Hs). exists ed', out.
  split; [unfold Component.call; now rewrite E, Hs|]. split; [exact Hs|]. split; [eapply step_sound; eauto|eapply step_fresh; eauto].
Qed.
Lemma op_total c ed op : co_editor c = Some ed -> sound ed -> fresh env ed -> fine ed op ->
  exists ed' out, call op c = (set_editor (Some ed') c, Ok out) /\ step env ed op = Ok (ed', out) /\ sound ed' /\ fresh env ed' /\ exists x, draw xs xc (ed_input ed') = Ok x.
Proof.
  intros E S F Hf. destruct (op_safe E S F (fine_safe S Hf)) as (ed'&out&Hc&Hs&S'&F'). exists ed', out. repeat split; eauto; apply S'.
Qed.
Lemma op_update c ed op : co_editor c = Some ed -> sound ed -> fresh env ed -> fine ed op -> exists c', handle (call op) (fun _ => update_input) c = (c', Ok tt) /\ healthy c'.
Proof.
  intros E S F Hf. destruct (op_total E S F Hf) as (ed'&out&Hc&_&S'&F'&D'). rewrite (handle_eq _ Hc). eapply update_healthy; eauto. reflexivity.
Qed.
Lemma healthy_tasks c l : healthy c -> healthy (set_tasks l c).
Proof. intros H. destruct c. exact H. Qed.
Lemma task_total t c : healthy c -> fine_opt fine c (task_op segment t) -> exists c', do_task t c = (c', Ok tt) /\ healthy c'.
Proof.
  intros Hh Hf. pose proof Hh as (U&ed&E&S&F). destruct t as [| |[data|]|]; cbn [Component.do_task task_op] in *; try (eapply op_update; eauto); eexists; split; try reflexivity; exact Hh.
Qed.
Lemma tasks_total l : forall c, healthy c -> fine_tasks env rs segment fine c l -> exists c', run_tasks l c = (c', Ok tt) /\ healthy c'.
Proof.
  induction l as [|t l IH]; intros c Hh Hf; cbn [Component.run_tasks]; [eexists; split; [reflexivity|exact Hh]|]. destruct Hf as [Hf Hl]. rewrite handle_modify.
  destruct (@task_total t (set_tasks l c) (healthy_tasks l Hh) Hf) as (c1&E1&H1). rewrite (handle_eq _ E1). rewrite E1 in Hl. exact (IH _ H1 Hl).
Qed.
Lemma position_total p c ed : co_editor c = Some ed -> sound ed -> shows env rs c (ed_input ed) -> clickable env (ed_input ed) ->
  exists pos, pointer_position p c = (c, Ok pos) /\ valid_pos (ed_input ed) pos.
Proof.
  intros E S Sh Hs. apply shows_draw in Sh as (x&D&Ex). unfold pointer_position. rewrite handle_get, Ex.
  destruct (C54_click_partial xs xc _ x (to_bounds p) (to_place p) (sound_wf S) D) as (q&o&row&El&Hr&Ho).
  - intros q row Hq Hr (n&En&Hn). destruct (Hs q row Hq Hr n En) as [N1 N2]. destruct Hn; auto.
  - unfold handle, lift. rewrite El. eexists. split; [reflexivity|]. exists row. auto.
Qed.
Lemma click_total c ed op : co_editor c = Some ed -> sound ed -> fresh env ed -> shows env rs c (ed_input ed) -> fine_click env ed ->
  (exists p, valid_pos (ed_input ed) p /\ (op = OpExtendSelection p \/ exists m, op = OpStartSelection p m)) ->
  exists ed' out, call op c = (set_editor (Some ed') c, Ok out) /\ sound ed' /\ fresh env ed' /\ ed_input ed' = ed_input ed /\ is_passive op = true.
Proof.
  intros E S F Sh (Ha&_) (p&Hp&Hop). assert (Hd : ~ token_due env ed). { intros (ed1&r&m&q&H1&H2&H3&_). apply Ha. exists ed1, r, m. auto. }
  assert (Hps : is_passive op = true) by (destruct Hop as [->|(m&->)]; reflexivity).
  assert (Hf : safe_op env Q ed op) by (destruct Hop as [->|(m&->)]; repeat split; auto).
  destruct (op_safe E S F Hf) as (ed'&out&Hc&Hs&S'&F'). exists ed', out. repeat split; auto; try apply S'. apply (passive_same Hps Ha Hs).
Qed.
Lemma shows_editor c doc e : shows env rs c doc -> shows env rs (set_editor e c) doc.
Proof. intros H. exact H. Qed.
Lemma carets_healthy c ed : co_editor c = Some ed -> sound ed -> fresh env ed -> shows env rs c (ed_input ed) -> exists c', render_carets c = (c', Ok tt) /\ healthy c'.
Proof.
  intros E S F Sh. destruct (carets_total E (sound_placed S) Sh) as (c'&H). exists c'. split; [exact H|]. destruct (carets_show rs H E) as (E'&_&S'&K). split; [exists ed; auto|]. exists ed. auto.
Qed.
Lemma parse_range doc t : wf_row doc -> parse (default_grammar xs xc) doc = Ok t -> syn_range t = (0, List.length doc).
Proof.
  intros Hwf Et. destruct (parse_gtree (@default_no_empty_tokens xs xc) (@default_all_containers xs xc) Hwf) as (t'&Et'&T). rewrite Et in Et'. inv Et'. eapply gtree_range; eauto.
Qed.
(** The handlers do not throw. *)
Lemma event_total e c : healthy c -> fine_event env rs normalize segment fine c e -> exists c', dispatch e c = (c', Ok tt) /\ healthy c'.
Proof.
  intros Hh Hf. pose proof Hh as (U&ed&E&S&F). pose proof U as (ed0&E0&Sh&K). rewrite E in E0. inv E0.
  assert (Stay : forall c', (c, Ok tt) = (c', Ok tt) -> exists c', (c, Ok tt) = (c', Ok tt) /\ healthy c') by eauto.
  assert (M : forall m c, co_editor c = Some ed0 -> shows env rs c (ed_input ed0) -> fine_event env rs normalize segment fine c (EvAttribute m) -> exists c', set_mathml env rs normalize segment m c = (c', Ok tt) /\ healthy c').
  { intros m c1 E1 Sh1 (math&root&errors&->&Ef&Hop). cbn [set_mathml]. unfold handle at 1, lift. rewrite Ef. rewrite handle_get. destruct Sh1 as (t&x&Et&Ex&Ec&_). rewrite Ec.
    rewrite (parse_range (sound_wf S) Et). cbn [fst snd]. eapply op_update; eauto. }
  destruct e as [k|t| |[]|[]|[[json text]|]|[] p|[] p|d p|[] p|m| |m]; cbn [fine_event] in Hf; cbn [Component.dispatch]; try (eexists; split; [reflexivity|exact Hh]).
  - unfold on_key. destruct k; cbn [key_op] in Hf; try (destruct (op_total E S F (Hf _ _ E eq_refl)) as (ed'&out&Hc&_&S'&F'&D'); rewrite handle_assoc, (handle_eq _ Hc), handle_ret; eapply update_healthy; eauto; reflexivity).
    unfold handle at 1, ret. eapply update_healthy; eauto. apply shows_draw in Sh as (x&D&_). eauto.
  - rewrite handle_get. now apply tasks_total.
  - destruct (step_total (env := env) (proj1 C20_default_rules) Hnonempty (op := OpCopy) S I I (Hf _ E)) as ([ed' out]&Hst).
    assert (Hs : exists s, ed' = ed0 /\ out = OutText _ s) by (cbn [step] in Hst; apply bind_ok in Hst as (s&_&Hst); inv Hst; eauto). destruct Hs as (s&->& ->).
    exists (set_clipboard (Some s) c). split; [|destruct c; exact Hh]. unfold handle_copy, handle, Component.call. rewrite E, Hst, set_editor_same by exact E. reflexivity.
  - specialize (Hf _ E). assert (Hr : row_selected ed0) by apply (fine_safe S Hf). destruct (step_total (env := env) (proj1 C20_default_rules) Hnonempty (op := OpCopy) S I I Hr) as ([ed' out]&Hst).
    assert (Hs : exists s, ed' = ed0 /\ out = OutText _ s) by (cbn [step] in Hst; apply bind_ok in Hst as (s&_&Hst); inv Hst; eauto). destruct Hs as (s&->& ->).
    unfold handle_copy. unfold handle at 1 2. unfold Component.call at 1. rewrite E, Hst. rewrite set_editor_same by exact E. cbn [modify]. eapply op_update; [destruct c; exact E|eauto..].
  - destruct Hf as (Hdes&Hf). specialize (Hf _ _ E eq_refl). destruct (op_total E S F Hf) as (ed'&out&Hc&Hs&S'&F'&D'). unfold call_paste. unfold handle at 1 2. rewrite Hc.
    assert (Ho : out = OutNone _). { cbn [step] in Hs. apply bind_ok in Hs as ([ed1 b]&Hp&Hs). inv Hs. unfold paste in Hp. apply bind_ok in Hp as ([ed2 a]&_&Hp). cbn [negb] in Hp.
      destruct (env_deserialize env _) as [nodes|]; [|congruence]. apply bind_ok in Hp as ([ed3 act]&_&Hp). destruct act; [apply bind_ok in Hp as (ed4&_&Hp)|]; inv Hp; reflexivity. }
    subst out. unfold ret. eapply update_healthy; eauto. reflexivity.
  - destruct (Hf _ E) as [Hcl Hst]. destruct (position_total p E S Sh Hcl) as (pos&Hp&V). rewrite (handle_eq _ Hp). rewrite handle_modify. apply (@op_update (set_pointer_down true c) ed0); auto.
  - specialize (Hf _ E). rewrite handle_modify. destruct (@position_total p (set_pointer_down false c) ed0 E S Sh (proj2 Hf)) as (pos&Hp&V). rewrite (handle_eq _ Hp).
    destruct (click_total (c := set_pointer_down false c) (op := OpExtendSelection pos) E S F Sh Hf) as (ed'&out&Hc&S'&F'&Ei&_); [eauto|]. rewrite (handle_eq _ Hc). unfold handle at 1, Component.call at 1. cbn [set_editor co_editor step].
    eapply carets_healthy with (ed := finish_selection ed'); [reflexivity| | |].
    + apply (sound_moved S'); auto. apply S'.
    + exact F'.
    + change (ed_input (finish_selection ed')) with (ed_input ed'). rewrite Ei. exact Sh.
  - specialize (Hf _ E). rewrite handle_get. destruct (co_pointer_down c); [|eexists; split; [reflexivity|exact Hh]]. destruct (position_total p E S Sh (proj2 Hf)) as (pos&Hp&V). rewrite (handle_eq _ Hp).
    destruct (d =? 2); [|destruct (d =? 3); [|eexists; split; [reflexivity|exact Hh]]].
    + destruct (click_total (op := OpStartSelection pos MWord) E S F Sh Hf) as (ed'&out&Hc&S'&F'&Ei&_); [eauto|]. rewrite (handle_eq _ Hc). eapply carets_healthy; eauto; [reflexivity|]. rewrite Ei. exact Sh.
    + destruct (click_total (op := OpStartSelection pos MLine) E S F Sh Hf) as (ed'&out&Hc&S'&F'&Ei&_); [eauto|]. rewrite (handle_eq _ Hc). eapply carets_healthy; eauto; [reflexivity|]. rewrite Ei. exact Sh.
  - specialize (Hf _ E). rewrite handle_get. cbn [andb]. destruct (co_pointer_down c); [|eexists; split; [reflexivity|exact Hh]]. destruct (position_total p E S Sh (proj2 Hf)) as (pos&Hp&V). rewrite (handle_eq _ Hp).
    destruct (click_total (op := OpExtendSelection pos) E S F Sh Hf) as (ed'&out&Hc&S'&F'&Ei&_); [eauto|]. rewrite (handle_eq _ Hc). eapply carets_healthy; eauto; [reflexivity|]. rewrite Ei. exact Sh.
  - rewrite handle_modify. apply M; auto.
  - eexists. split; [reflexivity|]. split; [exists ed0; split; [exact E|split; [exact Sh|discriminate]]|]. exists ed0. auto.
  - apply M; auto.
Qed.
Lemma new_healthy connected c : component_new env rs connected = Ok c -> healthy c.
Proof.
  intros H. destruct (new_ok H) as (U&_). split; [exact U|]. destruct U as (ed&E&_). exists ed. split; [exact E|]. unfold component_new in H. apply bind_ok in H as ([ed0 t]&Et&H). apply bind_ok in H as (x&Ex&H).
  match type of H with context [Component.update_input _ _ ?c0] => pose proof (@keeps_update_input env rs _ query_sound c0) as K; destruct (Component.update_input env rs c0) as [c1 [[]|]]; inv H end.
  apply K; [|exact E]. intros ed1 E1. cbn in E1. inv E1. eapply query_sound with (op := OpGetSyntaxTree) (ed := @editor_new SyntaxNode); [auto| |].
  - split; [apply sound_new|]. intros t' E'. discriminate.
  - cbn [step]. rewrite Et. reflexivity.
Qed.
Lemma new_total connected : exists c, component_new env rs connected = Ok c.
Proof.
  assert (D : exists x, draw xs xc [] = Ok x).
  { assert (R : forall p row, row_get [] p = Some row -> row = []) by (intros [|[[|k] j] p] row H; cbn in H; now inv H).
    apply C50_drawn_partial; [intros n []|intros p row H k v c H2|intros p row H k (v&c&H2&_)|intros p row H k (v&c&H2&_)]; apply R in H; subst; destruct k; discriminate. }
  pose proof D as (x&D'). apply draw_inv in D' as (t&Et&Ex). unfold component_new, get_syntax_tree. cbn [editor_new ed_parsed ed_input env_parse page]. rewrite Et. cbn [bind]. rewrite Ex. cbn [bind].
  match goal with |- context [Component.update_input _ _ ?c0] => destruct (@update_healthy c0 _ eq_refl) as (c1&H1&_) end.
  - apply (sound_moved (sound_new env Q)); auto. apply (sound_new env Q).
  - intros t' E'. cbn in E'. inv E'. exact Et.
  - exact D.
  - rewrite H1. eauto.
Qed.
Lemma run_total l : forall c, healthy c -> fine_all env rs normalize segment fine c l -> healthy (run_events env rs normalize segment c l).
Proof.
  induction l as [|e l IH]; intros c Hh Hf; cbn [run_events]; [exact Hh|]. destruct Hf as [Hf Hl]. destruct (event_total Hh Hf) as (c'&E&H'). rewrite E in Hl |- *. exact (IH _ H' Hl).
Qed.
(** The component is fine after and during all events. *)
Lemma events_total l1 : forall c e l2, healthy c -> fine_all env rs normalize segment fine c (l1 ++ e :: l2) ->
  snd (dispatch e (run_events env rs normalize segment c l1)) = Ok tt.
Proof.
  induction l1 as [|e1 l1 IH]; intros c e l2 Hh Hf; cbn [run_events app] in *; destruct Hf as [Hf Hl]; destruct (event_total Hh Hf) as (c'&E&H'); rewrite E in *; [reflexivity|eapply IH; eauto].
Qed.
End Page.

(** Operations with content that can be drawn in any case. *)
Lemma tidy_nonempty s : tidy (PartSymbol s) -> s <> [].
Proof. intros [H _]. exact H. Qed.
Lemma tidy_row_drawn xs xc doc : proper tidy doc -> exists x, draw xs xc doc = Ok x.
Proof.
  intros [Hw Hq]. assert (P : forall p row n x, row_get doc p = Some row -> In n row -> In x (node_parts n) -> tidy x).
  { intros p row n x Hr Hn Hx. apply Hq. eapply row_get_parts; [exact Hr|]. apply in_row_parts. eauto. }
  assert (Sp : forall p row k, row_get doc p = Some row -> ~ is_space row k).
  { intros p row k Hr Hk. apply nth_error_In in Hk. apply (P _ _ _ (PartSymbol [32%N]) Hr Hk); [now left|reflexivity]. }
  apply C50_drawn_partial; [exact Hw| |intros p row Hr k _; eauto|intros p row Hr k _; eauto].
  intros p row Hr k v [cells w] Hk Hv. apply nth_error_In in Hk. apply (P _ _ _ (PartContainer v (List.length cells) w) Hr Hk); [|exact Hv]. rewrite node_parts_container. now left.
Qed.
Lemma tidy_rules rule : In rule default_rules -> proper tidy (rule_result rule).
Proof.
  intros Hin. split; [apply (proj2 C20_default_rules); exact Hin|].
  assert (H : forallb (fun rule => forallb (fun x => match x with PartSymbol s => negb (List.length s =? 0) && negb (str_eqb s [32%N]) | PartContainer v n _ => match v with Fraction | RootV => n =? 2 | _ => true end end)
    (row_parts (rule_result rule))) default_rules = true) by (vm_compute; reflexivity).
  rewrite forallb_forall in H. apply H in Hin. rewrite forallb_forall in Hin. intros x Hx. apply Hin in Hx. destruct x as [s|v n w]; cbn.
  - apply andb_true_iff in Hx as [H1 H2]. split; intros ->; discriminate.
  - intros [-> | ->]; now apply Nat.eqb_eq.
Qed.
