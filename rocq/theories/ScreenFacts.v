(** Proofs about what is on the screen. *)
From Coq Require Import String.
From Verif Require Import Base Str Grid Node Focus Edit Caret Autocomplete Editor Rules NameMap Syntax Pratt Grammar SyntaxFind Render Layout Json FromMathML
  Spec SpecSyntax SpecMove SpecEditor SpecSafety SpecRender Component SpecComponent SpecScreen BaseFacts TreeFacts EditFacts MoveFacts ParseTotal GrammarFacts EditorFacts HistoryFacts ComponentFacts.
Open Scope list_scope.
Open Scope nat_scope.
Set Implicit Arguments.
Unset Strict Implicit.

(** ** The screen always shows a document that the editor had *)
Section Always.
Variable env : Env SyntaxNode.
Variable renderers : Renderers.
Variable normalize : str -> str.
Variable segment : str -> list str.
Notation dispatch := (dispatch env renderers normalize segment).
Notation update_input := (update_input env renderers).
Notation render_carets := (render_carets env).
Notation do_task := (do_task env renderers segment).
Notation run_tasks := (run_tasks env renderers segment).
Notation call := (call env).

Definition past (c : Component) : Prop :=
  exists ed1, reachable env ed1 /\ drawn_from env renderers c (ed_input ed1) /\ forall ed, co_editor c = Some ed -> reachable env ed /\ exists ops, run env ed1 ops = Ok ed.
Lemma run_more ops : forall ed ed1 op ed2 out, run env ed ops = Ok ed1 -> step env ed1 op = Ok (ed2, out) -> run env ed (ops ++ [op]) = Ok ed2.
Proof.
  induction ops as [|o ops IH]; intros ed ed1 op ed2 out H1 H2; cbn [app run] in *.
  - injection H1 as ->. rewrite H2. reflexivity.
  - apply bind_ok in H1 as ([ed0 out0]&E&H1). rewrite E. cbn [bind]. exact (IH _ _ _ _ _ H1 H2).
Qed.
Lemma reachable_more ed op ed' out : reachable env ed -> step env ed op = Ok (ed', out) -> reachable env ed'.
Proof. intros (ops&H) Hs. exists (ops ++ [op]). eapply run_more; eauto. Qed.
Lemma past_call op : keeps past (call op).
Proof.
  intros c (ed1&R1&D&H). unfold Component.call. destruct (co_editor c) as [ed|] eqn:E; [|exists ed1; cbn; rewrite E; auto]. destruct (H _ eq_refl) as (R&ops&Ho).
  destruct (step env ed op) as [[ed' out]|k] eqn:Es; cbn [fst]; exists ed1; (split; [exact R1|]; split; [destruct c; exact D|]); intros ed2 E2; [|destruct c; discriminate E2].
  assert (ed2 = ed') by (destruct c; injection E2; auto). subst ed2. split; [eapply reachable_more; eauto|]. exists (ops ++ [op]). eapply run_more; eauto.
Qed.
Lemma past_modify f : (forall c, co_editor (f c) = co_editor c /\ co_drawn (f c) = co_drawn c) -> keeps past (modify f).
Proof.
  intros Hf c (ed1&R1&D&H). exists ed1. split; [exact R1|]. cbn [modify fst]. destruct (Hf c) as [E1 E2]. split; [|now rewrite E1]. destruct D as (t&x&A&B&C). exists t, x. now rewrite E2.
Qed.
Ltac past := repeat match goal with
  | |- keeps _ (handle _ _) => apply keeps_handle; [|intros]
  | |- keeps _ (call _) => apply past_call
  | |- keeps _ (ret _) => apply keeps_ret
  | |- keeps _ (lift _) => apply keeps_lift
  | |- keeps _ get => apply keeps_get
  | |- keeps _ (modify _) => apply past_modify; intros []; split; reflexivity
  | |- keeps _ match ?x with _ => _ end => destruct x
  end.
Lemma past_carets : keeps past render_carets.
Proof. unfold Component.render_carets, call_get_caret. past. Qed.
(** Whatever is thrown while drawing, what is drawn is either what was drawn before or the document. *)
Lemma past_update : keeps past update_input.
Proof.
  intros c P. unfold Component.update_input. unfold handle at 1. destruct (call_get_syntax_tree env c) as [c1 [t|k]] eqn:Et.
  2:{ change c1 with (fst (c1, @Panic SyntaxNode k)). rewrite <- Et. revert c P Et. assert (K : keeps past (call_get_syntax_tree env)) by (unfold call_get_syntax_tree; past). intros c P _. exact (K c P). }
  pose proof (get_tree_ok Et) as (ed&ed'&Ed&Eg&->). rewrite handle_modify. 
  assert (P1 : past (set_editor (Some ed') c)).
  { assert (K : keeps past (call_get_syntax_tree env)) by (unfold call_get_syntax_tree; past). specialize (K c P). now rewrite Et in K. }
  assert (P2 : past (set_tree t (set_editor (Some ed') c))) by (apply (@past_modify (set_tree t)); [intros []; split; reflexivity|exact P1]).
  set (c2 := set_tree t (set_editor (Some ed') c)) in *. unfold handle at 1. unfold lift at 1. destruct (render_all renderers t) as [x|k] eqn:Ex; [|exact P2].
  rewrite handle_modify. assert (P3 : past (set_result x c2)) by (apply (@past_modify (set_result x)); [intros []; split; reflexivity|exact P2]). set (c3 := set_result x c2) in *.
  unfold handle at 1. unfold lift at 1. destruct (get_element x []) as [row|k] eqn:Er; [|exact P3]. injection Er as <-.
  unfold handle at 1. unfold lift at 1. destruct (assert_ (forallb is_mathml (get_elements x))) as [[]|k]; [|exact P3]. rewrite handle_modify.
  assert (P4 : past (set_drawn (get_elements x) c3)).
  { destruct P1 as (ed1&R1&_&H). assert (E1 : co_editor (set_editor (Some ed') c) = Some ed') by (destruct c; reflexivity). destruct (H _ E1) as (R&_). exists ed'. split; [exact R|]. split.
    - exists t, x. split; [|split; [exact Ex|destruct c; reflexivity]]. destruct P as (ed0&_&_&H0). destruct (H0 _ Ed) as (R0&_). pose proof (reachable_fresh R0) as F.
      unfold get_syntax_tree in Eg. destruct (ed_parsed ed) as [t0|] eqn:Ep; [injection Eg as <- <-; now apply F|]. apply bind_ok in Eg as (r&Er&Eg). injection Eg as <- <-. exact Er.
    - intros ed2 E2. assert (ed2 = ed') by (destruct c; injection E2; auto). subst ed2. split; [exact R|]. exists []. reflexivity. }
  apply (keeps_handle past_carets (fun _ => past_carets)). exact P4.
Qed.
Lemma past_task t : keeps past (do_task t).
Proof. destruct t as [| |[]|]; cbn [Component.do_task]; past; apply past_update. Qed.
Lemma past_tasks l : keeps past (run_tasks l).
Proof. induction l as [|t l IH]; cbn [Component.run_tasks]; past; auto using past_task. Qed.
Lemma past_pointer p : keeps past (pointer_position p).
Proof. unfold pointer_position. past. Qed.
Lemma past_mathml m : keeps past (set_mathml env renderers normalize segment m).
Proof. destruct m; cbn [set_mathml]; past. apply past_update. Qed.
Lemma past_dispatch e : keeps past (dispatch e).
Proof.
  destruct e as [k|t| |[]|[]|[[json text]|]|[] p|[] p|d p|[] p|m| |m]; cbn [Component.dispatch]; past; auto using past_update, past_carets, past_tasks, past_pointer, past_mathml.
  - unfold on_key. past. apply past_update.
  - unfold handle_copy. past.
  - unfold handle_copy. past.
  - unfold call_paste. past.
Qed.
Lemma past_new connected c : component_new env renderers connected = Ok c -> past c.
Proof.
  intros Hn. pose proof (proj1 (new_ok Hn)) as (ed&E&(t&x&A&B&_&_&C)&_). assert (R : reachable env ed) by (eapply (@reached_reachable env renderers normalize segment); [|exact E]; exists connected, c, []; auto).
  exists ed. split; [exact R|]. split; [exists t, x; auto|]. intros ed2 E2. rewrite E in E2. injection E2 as <-. split; [exact R|]. exists []. reflexivity.
Qed.
Lemma past_reached c : reached env renderers normalize segment c -> past c.
Proof.
  intros (connected&c0&l&Hn&->). pose proof (past_new Hn) as P. clear Hn. revert c0 P. induction l as [|e l IH]; intros c0 P; [exact P|]. cbn [run_events]. apply IH. exact (@past_dispatch e c0 P).
Qed.
End Always.

(** ** Exactly when the screen is up to date *)
Section Exact.
Variable env : Env SyntaxNode.
Variable renderers : Renderers.
Variable normalize : str -> str.
Variable segment : str -> list str.
Notation dispatch := (dispatch env renderers normalize segment).
Notation render_carets := (render_carets env).
Notation call := (call env).

(** The formula on the screen is that of [d], and the caret is that of the editor. *)
Definition showing (c : Component) (d : InputRow) : Prop :=
  exists ed, co_editor c = Some ed /\ shows env renderers c d /\ (co_connected c = true -> shows_caret c ed).
Lemma showing_carets c c' d ed : co_editor c = Some ed -> shows env renderers c d -> render_carets c = (c', Ok tt) -> showing c' d.
Proof. intros E S H. destruct (@carets_show env renderers c c' ed H E) as (E2&_&S2&K2). exists ed. auto. Qed.
Lemma showing_call op c c' d ed : co_editor c = Some ed -> shows env renderers c d -> handle (call op) (fun _ => render_carets) c = (c', Ok tt) -> showing c' d.
Proof.
  intros E S H. apply handle_ok in H as (c1&out&H&H2). apply call_ok in H as (ed0&ed1&_&_&->). refine (@showing_carets _ _ d ed1 _ _ H2); destruct c; [reflexivity|exact S].
Qed.
Lemma showing_event e c c' d : showing c d -> redraws c e = false -> dispatch e c = (c', Ok tt) -> showing c' d.
Proof.
  intros U R H. pose proof U as (ed&Ed&S&K).
  destruct e as [k|t| |[]|[]|[[json text]|]|[] p|[] p|n p|[] p|m| |m]; cbn [redraws] in R; try discriminate; cbn [Component.dispatch] in H; try (inv H; exact U).
  - rewrite handle_get in H. assert (T : forall l c c', existsb (fun t => match t with DeleteBackward | DeleteForward | InsertText (Some _) => true | _ => false end) l = false -> showing c d -> run_tasks env renderers segment l c = (c', Ok tt) -> showing c' d).
    { clear. induction l as [|t l IH]; intros c c' Hl U H; cbn [run_tasks] in H; [now inv H|]. cbn [existsb] in Hl. apply orb_false_iff in Hl as [Ht Hl]. rewrite handle_modify in H. apply handle_ok in H as (c1&[]&H1&H2). refine (IH _ _ Hl _ H2).
      destruct t as [| |[w|]|]; try discriminate Ht; cbn [do_task] in H1; inv H1; destruct c; exact U. }
    exact (T _ _ _ R U H).
  - apply copy_ok in H as (ed0&s&_&_&->). destruct c; exact U.
  - rewrite handle_modify in H. apply handle_ok in H as (c1&pos&H&H2). apply position_ok in H as (->&_). apply handle_ok in H2 as (c2&out&H&H2). apply call_ok in H as (ed1&ed2&_&_&->).
    refine (@showing_call _ _ _ d ed2 _ _ H2); destruct c; [reflexivity|exact S].
  - rewrite handle_get in H. destruct (co_pointer_down _); [|now inv H]. apply handle_ok in H as (c1&pos&H&H2). apply position_ok in H as (->&_).
    destruct (n =? 2); [exact (showing_call Ed S H2)|]. destruct (n =? 3); [exact (showing_call Ed S H2)|]. inv H2. exact U.
  - rewrite handle_get in H. destruct (true && _); [|now inv H]. apply handle_ok in H as (c1&pos&H&H2). apply position_ok in H as (->&_). exact (showing_call Ed S H2).
  - exists ed. inv H. split; [destruct c; exact Ed|]. split; [destruct c; exact S|discriminate].
Qed.
Lemma showing_run l : forall c d, reached env renderers normalize segment c -> unthrown env renderers normalize segment c l -> showing c d ->
  exists d', last_drawn env renderers normalize segment c (Some d) l = Some d' /\ showing (run_events env renderers normalize segment c l) d'.
Proof.
  induction l as [|e l IH]; intros c d R H U; [exists d; auto|]. destruct H as [H1 H2]. cbn [run_events last_drawn]. pose proof (reached_next e R) as R'.
  destruct (dispatch e c) as [c' r] eqn:E. cbn [fst snd] in *. subst r. destruct (redraws c e) eqn:Er.
  - destruct (redraw_ok (fun ed E => reached_fresh R E) Er E) as (ed&Ed&S&K). assert (D : document c' = Some (ed_input ed)) by (unfold document; now rewrite Ed). rewrite D. apply IH; auto. exists ed. auto.
  - apply IH; auto. eapply showing_event; eauto.
Qed.
End Exact.
