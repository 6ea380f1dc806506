(** Proofs about the component. *)
From Coq Require Import String.
From Verif Require Import Base Str Grid Node Focus Edit Caret Autocomplete Editor Rules NameMap Syntax Pratt Grammar SyntaxFind Render Layout Json FromMathML
  Spec SpecSyntax SpecEditor SpecSafety SpecRender Component SpecComponent BaseFacts TreeFacts MoveFacts EditorFacts HistoryFacts.
Open Scope list_scope.
Open Scope nat_scope.
Set Implicit Arguments.
Unset Strict Implicit.

Section Facts.
Variable env : Env SyntaxNode.
Variable renderers : Renderers.
Variable normalize : str -> str.
Variable segment : str -> list str.
Notation Editor := (MathEditor SyntaxNode).
Notation dispatch := (dispatch env renderers normalize segment).
Notation update_input := (update_input env renderers).
Notation render_carets := (render_carets env).
Notation do_task := (do_task env renderers segment).
Notation run_tasks := (run_tasks env renderers segment).
Notation call := (call env).

(** ** Handlers *)
Lemma handle_ok A B (h : Handler A) (f : A -> Handler B) c c' b : handle h f c = (c', Ok b) -> exists c1 a, h c = (c1, Ok a) /\ f a c1 = (c', Ok b).
Proof. unfold handle. destruct (h c) as [c1 [a|k]]; [eauto|discriminate]. Qed.
Lemma handle_eq A B (h : Handler A) (f : A -> Handler B) c c1 a : h c = (c1, Ok a) -> handle h f c = f a c1.
Proof. unfold handle. now intros ->. Qed.
Lemma handle_assoc A B C (h : Handler A) (f : A -> Handler B) (g : B -> Handler C) c : handle (handle h f) g c = handle h (fun a => handle (f a) g) c.
Proof. unfold handle. destruct (h c) as [c1 [a|k]]; reflexivity. Qed.
Lemma handle_ret A B (a : A) (f : A -> Handler B) c : handle (ret a) f c = f a c.
Proof. reflexivity. Qed.
Lemma handle_get B (f : Component -> Handler B) c : handle get f c = f c c.
Proof. reflexivity. Qed.
Lemma handle_modify B g (f : unit -> Handler B) c : handle (modify g) f c = f tt (g c).
Proof. reflexivity. Qed.
Lemma handle_lift A B (r : Res A) (f : A -> Handler B) c c' b : handle (lift r) f c = (c', Ok b) -> exists a, r = Ok a /\ f a c = (c', Ok b).
Proof. unfold handle, lift. destruct r; [eauto|discriminate]. Qed.
Definition keeps (P : Component -> Prop) A (h : Handler A) : Prop := forall c, P c -> P (fst (h c)).
Lemma keeps_ret P A (a : A) : keeps P (ret a). Proof. intros c H. exact H. Qed.
Lemma keeps_lift P A (r : Res A) : keeps P (lift r). Proof. intros c H. exact H. Qed.
Lemma keeps_get P : keeps P get. Proof. intros c H. exact H. Qed.
Lemma keeps_handle P A B (h : Handler A) (f : A -> Handler B) : keeps P h -> (forall a, keeps P (f a)) -> keeps P (handle h f).
Proof. intros H Hf c Hc. specialize (H c Hc). unfold handle. destruct (h c) as [c1 [a|k]]; cbn in *; [now apply Hf|exact H]. Qed.

Definition on_editor (P : Editor -> Prop) (c : Component) : Prop := forall ed, co_editor c = Some ed -> P ed.
Lemma keeps_call (P : Editor -> Prop) op : (forall ed ed' out, P ed -> step env ed op = Ok (ed', out) -> P ed') -> keeps (on_editor P) (call op).
Proof.
  intros HP c H. unfold Component.call. destruct (co_editor c) as [ed|] eqn:E; [|exact H]. destruct (step env ed op) as [[ed' out]|k] eqn:Es; cbn; intros ed2 E2; cbn in E2; [|discriminate].
  inv E2. eapply HP; [|exact Es]. auto.
Qed.
Lemma keeps_modify P f : (forall c, co_editor (f c) = co_editor c) -> keeps (on_editor P) (modify f).
Proof. intros H c Hc ed E. cbn in E. rewrite H in E. auto. Qed.
Ltac keeps := repeat match goal with
  | |- keeps _ (handle _ _) => apply keeps_handle; [|intros]
  | |- keeps _ (call _) => apply keeps_call; solve [eauto]
  | |- keeps _ (ret _) => apply keeps_ret
  | |- keeps _ (lift _) => apply keeps_lift
  | |- keeps _ get => apply keeps_get
  | |- keeps _ (modify _) => apply keeps_modify; reflexivity
  | |- keeps _ match ?x with _ => _ end => destruct x
  end.
Section Query.
Variable P : Editor -> Prop.
Hypothesis HP : forall ed op ed' out, op = OpGetCaret \/ op = OpGetSyntaxTree -> P ed -> step env ed op = Ok (ed', out) -> P ed'.
Lemma keeps_render_carets : keeps (on_editor P) render_carets.
Proof. unfold Component.render_carets, call_get_caret. keeps. Qed.
Lemma keeps_update_input : keeps (on_editor P) update_input.
Proof. unfold Component.update_input, call_get_syntax_tree. keeps; apply keeps_render_carets. Qed.
End Query.
(** An invariant of the editor is kept by every event. *)
Section Invariant.
Variable P : Editor -> Prop.
Hypothesis HP : forall ed op ed' out, P ed -> step env ed op = Ok (ed', out) -> P ed'.
Let keeps_render_carets : keeps (on_editor P) render_carets. Proof. apply keeps_render_carets. eauto. Qed.
Let keeps_update_input : keeps (on_editor P) update_input. Proof. apply keeps_update_input. eauto. Qed.
Lemma keeps_task t : keeps (on_editor P) (do_task t).
Proof. destruct t as [| |[]|]; cbn [Component.do_task]; keeps; apply keeps_update_input. Qed.
Lemma keeps_tasks l : keeps (on_editor P) (run_tasks l).
Proof. induction l as [|t l IH]; cbn [Component.run_tasks]; keeps; auto using keeps_task. Qed.
Lemma keeps_pointer p : keeps (on_editor P) (pointer_position p).
Proof. unfold pointer_position. keeps. Qed.
Lemma keeps_mathml m : keeps (on_editor P) (set_mathml env renderers normalize segment m).
Proof. destruct m; cbn [set_mathml]; keeps. apply keeps_update_input. Qed.
Lemma keeps_dispatch e : keeps (on_editor P) (dispatch e).
Proof.
  destruct e as [k|t| |[]|[]|[[json text]|]|[] p|[] p|d p|[] p|m| |m]; cbn [Component.dispatch]; keeps; auto using keeps_update_input, keeps_render_carets, keeps_tasks, keeps_pointer, keeps_mathml.
  - unfold on_key. keeps. apply keeps_update_input.
  - unfold handle_copy. keeps.
  - unfold handle_copy. keeps.
  - unfold call_paste. keeps.
Qed.
Lemma keeps_new connected c : component_new env renderers connected = Ok c -> P (@editor_new SyntaxNode) -> on_editor P c.
Proof.
  unfold component_new. intros H H0. apply bind_ok in H as ([ed t]&Et&H). apply bind_ok in H as (x&Ex&H).
  match type of H with context [Component.update_input _ _ ?c0] => pose proof (@keeps_update_input c0) as K; destruct (Component.update_input env renderers c0) as [c1 [[]|]]; inv H end.
  apply K. intros ed2 E. cbn in E. inv E. apply (HP (op := OpGetSyntaxTree) (out := OutTree t) H0). cbn [step]. now rewrite Et.
Qed.
Lemma reached_editor c ed : P (@editor_new SyntaxNode) -> reached env renderers normalize segment c -> co_editor c = Some ed -> P ed.
Proof.
  intros H0 (connected&c0&l&Hn&->) E. pose proof (keeps_new Hn H0) as K. clear Hn. revert c0 K E. induction l as [|e l IH]; cbn [run_events]; intros c0 K E; [now apply K|].
  apply (IH _ (keeps_dispatch (e := e) K) E).
Qed.
End Invariant.
Lemma reached_reachable c ed : reached env renderers normalize segment c -> co_editor c = Some ed -> reachable env ed.
Proof.
  apply reached_editor with (P := reachable env).
  - intros ed0 op ed1 out (ops&H) Hs. exists (ops ++ [op]). revert H. generalize (@editor_new SyntaxNode). induction ops as [|o ops IH]; cbn [run app]; intros ed2 H.
    + inv H. now rewrite Hs.
    + destruct (step env ed2 o) as [[ed3 out3]|]; [|discriminate]. cbn [bind] in H |- *. auto.
  - exists []. reflexivity.
Qed.
Lemma reached_fresh c ed : reached env renderers normalize segment c -> co_editor c = Some ed -> fresh env ed.
Proof. intros H E. eapply reachable_fresh, reached_reachable; eauto. Qed.

(** ** The queue *)
(** A handler that neither reads nor changes the queue *)
Definition unaware A (h : Handler A) : Prop := forall c l, h (set_tasks l c) = let (c', r) := h c in (set_tasks l c', r).
Lemma unaware_handle A B (h : Handler A) (f : A -> Handler B) : unaware h -> (forall a, unaware (f a)) -> unaware (handle h f).
Proof. intros H Hf c l. unfold handle. rewrite H. destruct (h c) as [c1 [a|k]]; [apply Hf|reflexivity]. Qed.
Lemma unaware_get B (f : Component -> Handler B) : (forall c c2 l, f (set_tasks l c) c2 = f c c2) -> (forall c, unaware (f c)) -> unaware (handle get f).
Proof. intros Hf Hu c l. rewrite !handle_get, Hf. apply Hu. Qed.
Lemma unaware_ret A (a : A) : unaware (ret a). Proof. intros c l. reflexivity. Qed.
Lemma unaware_lift A (r : Res A) : unaware (lift r). Proof. intros c l. reflexivity. Qed.
Lemma unaware_modify f : (forall c l, f (set_tasks l c) = set_tasks l (f c)) -> unaware (modify f).
Proof. intros H c l. unfold modify. now rewrite H. Qed.
Lemma unaware_call op : unaware (call op).
Proof. intros c l. unfold Component.call. cbn [set_tasks co_editor]. destruct (co_editor c) as [ed|]; [|reflexivity]. destruct (step env ed op) as [[ed' out]|]; reflexivity. Qed.
Ltac unaware := repeat match goal with
  | |- unaware (handle get _) => apply unaware_get; [reflexivity|intros]
  | |- unaware (handle _ _) => apply unaware_handle; [|intros]
  | |- unaware (call _) => apply unaware_call
  | |- unaware (ret _) => apply unaware_ret
  | |- unaware (lift _) => apply unaware_lift
  | |- unaware (modify _) => apply unaware_modify; reflexivity
  | |- unaware match ?x with _ => _ end => destruct x
  end.
Lemma unaware_carets : unaware render_carets.
Proof. unfold Component.render_carets, call_get_caret. unaware. Qed.
Lemma unaware_update : unaware update_input.
Proof. unfold Component.update_input, call_get_syntax_tree. unaware; apply unaware_carets. Qed.
Lemma unaware_task t : unaware (do_task t).
Proof. destruct t as [| |[]|]; cbn [Component.do_task]; unaware; apply unaware_update. Qed.
Lemma set_tasks_same c : set_tasks (co_tasks c) c = c. Proof. now destruct c. Qed.
Lemma unaware_keeps A (h : Handler A) c c' r : unaware h -> h c = (c', r) -> co_tasks c' = co_tasks c.
Proof. intros H E. pose proof (H c (co_tasks c)) as K. rewrite set_tasks_same, E in K. inv K. match goal with X : c' = _ |- _ => rewrite X end. reflexivity. Qed.
(** Every task is run exactly once, in order, whether others throw or not, if there are at least
    as many timers as tasks. *)
Lemma timers_tasks n : forall c, List.length (co_tasks c) <= n ->
  run_events env renderers normalize segment c (repeat EvTimer n) = set_tasks [] (fold_left (fun c t => fst (do_task t c)) (co_tasks c) c).
Proof.
  assert (R : forall l c, co_tasks c = l -> exists l1 l2, l = l1 ++ l2 /\ (l = [] \/ List.length l2 < List.length l) /\
    fst (run_tasks l c) = set_tasks l2 (fold_left (fun c t => fst (do_task t c)) l1 c)).
  { induction l as [|t l IH]; intros c E; [exists [], []; cbn; repeat split; auto; rewrite <- E; symmetry; apply set_tasks_same|]. cbn [Component.run_tasks]. rewrite handle_modify. unfold handle.
    rewrite (unaware_task t c l). destruct (do_task t c) as [c1 [[]|k]] eqn:Et.
    - destruct (IH (set_tasks l c1) eq_refl) as (l1&l2&->&L&F). exists (t :: l1), l2. split; [reflexivity|]. split; [right; cbn; rewrite app_length; lia|]. rewrite F. cbn [fold_left]. rewrite Et. cbn [fst].
      generalize (l1 ++ l2). intros l. clear. revert c1. induction l1 as [|t l1 IH]; intros c1; cbn [fold_left]; [reflexivity|]. rewrite (unaware_task t c1 l). destruct (do_task t c1). cbn [fst]. apply IH.
    - exists [t], l. split; [reflexivity|]. split; [right; cbn; lia|]. cbn [fold_left fst]. now rewrite Et. }
  assert (G : forall l c l0, fold_left (fun c t => fst (do_task t c)) l (set_tasks l0 c) = set_tasks l0 (fold_left (fun c t => fst (do_task t c)) l c)).
  { induction l as [|t l IH]; intros c l0; cbn [fold_left]; [reflexivity|]. rewrite (unaware_task t c l0). destruct (do_task t c). cbn [fst]. apply IH. }
  induction n as [|n IH]; intros c L; cbn [repeat run_events].
  - destruct (co_tasks c) eqn:E; [cbn [fold_left]; rewrite <- E; symmetry; apply set_tasks_same|cbn in L; lia].
  - cbn [Component.dispatch]. rewrite handle_get. destruct (R _ c eq_refl) as (l1&l2&E&L2&F). rewrite F. rewrite IH by (cbn; destruct L2 as [L2|]; [rewrite L2 in E; destruct l1, l2; cbn; [lia|..]; discriminate|lia]).
    cbn [set_tasks co_tasks]. rewrite E, fold_left_app, G. reflexivity.
Qed.

(** ** What is on the screen after an event *)
Lemma set_editor_same c ed : co_editor c = Some ed -> set_editor (Some ed) c = c.
Proof. destruct c; cbn. now intros ->. Qed.
Lemma call_ok op c c' out : call op c = (c', Ok out) -> exists ed ed', co_editor c = Some ed /\ step env ed op = Ok (ed', out) /\ c' = set_editor (Some ed') c.
Proof. unfold Component.call. destruct (co_editor c) as [ed|]; [|discriminate]. destruct (step env ed op) as [[ed' o]|] eqn:E; intros H; inv H. exists ed, ed'. auto. Qed.
Lemma copy_ok c c' : handle_copy env c = (c', Ok tt) -> exists ed s, co_editor c = Some ed /\ copy env ed = Ok s /\ c' = set_clipboard (Some s) c.
Proof.
  unfold handle_copy. intros H. apply handle_ok in H as (c1&out&H&H2). apply call_ok in H as (ed&ed'&E&Hs&->). cbn [step] in Hs. apply bind_ok in Hs as (s&Es&Hs). inv Hs. inv H2. exists ed', s. rewrite set_editor_same by exact E. auto.
Qed.
Lemma get_caret_ok c c' sel : call_get_caret env c = (c', Ok sel) -> c' = c /\ exists ed, co_editor c = Some ed /\ get_caret ed = Ok sel.
Proof.
  unfold call_get_caret. intros H. apply handle_ok in H as (c1&out&H&H2). apply call_ok in H as (ed&ed'&E&Hs&->). cbn [step] in Hs. apply bind_ok in Hs as (s&Es&Hs). inv Hs. inv H2.
  split; [now apply set_editor_same|eauto].
Qed.
Lemma get_tree_ok c c' t : call_get_syntax_tree env c = (c', Ok t) -> exists ed ed', co_editor c = Some ed /\ get_syntax_tree env ed = Ok (ed', t) /\ c' = set_editor (Some ed') c.
Proof.
  unfold call_get_syntax_tree. intros H. apply handle_ok in H as (c1&out&H&H2). apply call_ok in H as (ed&ed'&E&Hs&->). cbn [step] in Hs. apply bind_ok in Hs as ([ed2 t2]&Es&Hs). inv Hs. inv H2. eauto.
Qed.
Lemma carets_ok c c' : render_carets c = (c', Ok tt) -> co_connected c = false /\ c' = c \/
  co_connected c = true /\ exists ed sel d, co_editor c = Some ed /\ get_caret ed = Ok sel /\ draw_caret (co_result c) sel = Ok d /\ c' = set_carets [d] c.
Proof.
  unfold Component.render_carets. intros H. rewrite handle_get in H. destruct (co_connected c) eqn:Ec; cbn [negb] in H; [right|left; now inv H]. split; [reflexivity|].
  apply handle_ok in H as (c2&sel&H&H2). apply get_caret_ok in H as (->&ed&Ed&Es). rewrite !handle_modify, handle_get in H2. apply handle_lift in H2 as (d&Hd&H2). inv H2.
  exists ed, sel, d. auto.
Qed.
Lemma draw_shows c ed sel d : get_caret ed = Ok sel -> draw_caret (co_result c) sel = Ok d -> co_carets c = [d] -> shows_caret c ed.
Proof.
  intros Es Ed Ec. exists sel. split; [exact Es|]. destruct sel as [m|m]; cbn [draw_caret] in Ed.
  - apply bind_ok in Ed as ([[a b] l]&Ev&Ed). apply bind_ok in Ed as (y&Ey&Ed). inv Ed. unfold get_viewport_selection in Ev. apply bind_ok in Ev as (x&Ex&Ev). apply bind_ok in Ev as (o&_&Ev).
    apply bind_ok in Ev as (a'&Ea&Ev). apply bind_ok in Ev as (b'&Eb&Ev). inv Ev. do 4 eexists. split; [exact Ex|]. split; [exact Ea|]. split; [exact Eb|]. split; [exact Ec|]. intros E. now rewrite E, Nat.eqb_refl.
  - apply bind_ok in Ed as (x&_&Ed). apply bind_ok in Ed as (y&_&Ed). inv Ed. eexists _, _. split; [|split; [reflexivity|split; [|exact Ec]]]; lia.
Qed.
Lemma carets_show c c' ed : render_carets c = (c', Ok tt) -> co_editor c = Some ed ->
  co_editor c' = Some ed /\ co_connected c' = co_connected c /\ (forall doc, shows env renderers c doc -> shows env renderers c' doc) /\ (co_connected c' = true -> shows_caret c' ed).
Proof.
  intros H E. apply carets_ok in H as [(Ec&->)|(Ec&ed'&sel&d&Ed&Es&Hd&->)].
  - repeat split; auto. congruence.
  - rewrite E in Ed. inv Ed. split; [destruct c; exact E|]. split; [now destruct c|]. split; [intros doc H; destruct c; exact H|]. intros _. eapply draw_shows; [exact Es| |reflexivity]. destruct c; exact Hd.
Qed.
Lemma update_ok c c' : update_input c = (c', Ok tt) -> on_editor (fresh env) c -> up_to_date env renderers c' /\ document c' = document c /\ co_connected c' = co_connected c.
Proof.
  unfold Component.update_input. intros H F. apply handle_ok in H as (c1&t&H&H2). apply get_tree_ok in H as (ed&ed'&Ed&Et&->).
  assert (Ft : env_parse env (ed_input ed') = Ok t /\ ed_input ed' = ed_input ed).
  { specialize (F _ Ed). unfold get_syntax_tree in Et. destruct (ed_parsed ed) as [t0|] eqn:Ep; [inv Et; auto|]. apply bind_ok in Et as (r&Er&Et). inv Et. auto. }
  rewrite handle_modify in H2. apply handle_lift in H2 as (x&Hx&H2). rewrite handle_modify in H2. apply handle_lift in H2 as (row&Er&H2). inv Er.
  apply handle_lift in H2 as ([]&_&H2). rewrite handle_modify in H2. apply handle_ok in H2 as (c2&[]&H&H2).
  match type of H with _ ?c0 = _ => set (c1 := c0) in H end. assert (E1 : co_editor c1 = Some ed') by (destruct c; reflexivity).
  assert (S1 : shows env renderers c1 (ed_input ed')). { exists t, row. destruct c. repeat split; try assumption; apply Ft. }
  destruct (carets_show H E1) as (E2&N2&S2&_). destruct (carets_show H2 E2) as (E3&N3&S3&K3). split; [|split].
  - exists ed'. auto.
  - unfold document. rewrite E3, Ed. cbn. f_equal. apply Ft.
  - rewrite N3, N2. now destruct c.
Qed.
Lemma up_to_date_tasks c l : up_to_date env renderers c -> up_to_date env renderers (set_tasks l c).
Proof. intros H. destruct c. exact H. Qed.
Lemma fresh_tasks c l : on_editor (fresh env) c -> on_editor (fresh env) (set_tasks l c).
Proof. intros H. destruct c. exact H. Qed.
Let fresh_call op := @keeps_call (fresh env) op (fun ed ed' out => step_fresh (env := env) (ed := ed) (op := op) (ed' := ed') (out := out)).
Definition draws_task (t : InputType) : bool := match t with DeleteBackward | DeleteForward | InsertText (Some _) => true | _ => false end.
Lemma task_ok t c c' : do_task t c = (c', Ok tt) -> on_editor (fresh env) c -> up_to_date env renderers c \/ draws_task t = true -> up_to_date env renderers c'.
Proof.
  intros H F U. assert (G : forall op, (handle (call op) (fun _ => update_input)) c = (c', Ok tt) -> up_to_date env renderers c').
  { intros op H0. apply handle_ok in H0 as (c1&out&H0&H2). apply update_ok in H2; [apply H2|]. pose proof (fresh_call (op := op) F) as K. now rewrite H0 in K. }
  destruct t as [| |[data|]|]; cbn [Component.do_task] in H; try (eapply G; exact H); inv H; destruct U as [U|U]; auto; discriminate.
Qed.
Lemma tasks_ok l : forall c c', run_tasks l c = (c', Ok tt) -> on_editor (fresh env) c -> up_to_date env renderers c \/ existsb draws_task l = true -> up_to_date env renderers c'.
Proof.
  induction l as [|t l IH]; cbn [Component.run_tasks existsb]; intros c c' H F U; [inv H; destruct U as [U|U]; [exact U|discriminate]|].
  rewrite handle_modify in H. apply handle_ok in H as (c1&[]&H&H2). pose proof (keeps_task (step_fresh (env := env)) (t := t) (fresh_tasks (l := l) F)) as K.
  rewrite H in K. eapply IH; [exact H2|exact K|]. destruct (existsb draws_task l); [now right|left]. rewrite orb_false_r in U. eapply task_ok; [exact H|now apply fresh_tasks|].
  destruct U as [U|U]; [left; now apply up_to_date_tasks|now right].
Qed.
Lemma position_ok p c c' pos : pointer_position p c = (c', Ok pos) -> c' = c /\ get_layout_position (to_bounds p) (to_place p) (co_result c) = Ok (mp_row pos, mp_offset pos).
Proof.
  unfold pointer_position. intros H. rewrite handle_get in H. apply handle_lift in H as (x&Hx&H). inv H. split; [reflexivity|]. cbn. now rewrite <- surjective_pairing.
Qed.
(** An event that draws the formula anew. *)
Lemma redraw_ok e c c' : on_editor (fresh env) c -> redraws c e = true -> dispatch e c = (c', Ok tt) -> up_to_date env renderers c'.
Proof.
  intros F R H.
  assert (G : forall op c c', on_editor (fresh env) c -> (handle (call op) (fun _ => update_input)) c = (c', Ok tt) -> up_to_date env renderers c').
  { intros op c0 c0' F0 H0. apply handle_ok in H0 as (c1&out&H0&H2). apply update_ok in H2; [apply H2|]. pose proof (fresh_call (op := op) F0) as K. now rewrite H0 in K. }
  assert (M : forall m c c', on_editor (fresh env) c -> set_mathml env renderers normalize segment m c = (c', Ok tt) -> up_to_date env renderers c').
  { intros [m|] c0 c0' F0 H0; cbn [set_mathml] in H0; [|inv H0]. apply handle_lift in H0 as (x&Hx&H0). rewrite handle_get in H0. eapply G; eauto. }
  destruct e as [k|t| |[]|[]|[[json text]|]|[] p|[] p|d p|[] p|m| |m]; cbn [redraws] in R; try discriminate; cbn [Component.dispatch] in H.
  - unfold on_key in H. destruct k; apply handle_ok in H as (c1&[]&H&H2); try (apply handle_ok in H as (c2&out&H&H3); inv H3; eapply G; [exact F|]; erewrite handle_eq; [exact H2|exact H]). inv H. now apply update_ok in H2.
  - rewrite handle_get in H. eapply tasks_ok; eauto.
  - apply handle_ok in H as (c1&[]&H&H2). apply copy_ok in H as (ed&s&_&_&->). eapply G; [|exact H2]. destruct c; exact F.
  - apply handle_ok in H as (c1&[]&H&H2). unfold call_paste in H. apply handle_ok in H as (c2&out&H&H3). match type of H with call ?op c = _ => pose proof (fresh_call (op := op) F) as K end. rewrite H in K.
    assert (c1 = c2) by (destruct out; inv H3; reflexivity). subst. now apply update_ok in H2.
  - apply handle_ok in H as (c1&pos&H&H2). apply position_ok in H as (->&_). rewrite handle_modify in H2. eapply G; [|exact H2]. destruct c; exact F.
  - rewrite handle_modify in H. eapply M; [|exact H]. destruct c; exact F.
  - eapply M; eauto.
Qed.
(** A step that leaves the document as it is. *)
Lemma passive_call op c c' out ed : call op c = (c', Ok out) -> co_editor c = Some ed -> is_passive op = true -> ~ autocorrect_pending env ed ->
  exists ed', c' = set_editor (Some ed') c /\ step env ed op = Ok (ed', out) /\ ed_input ed' = ed_input ed.
Proof. intros H E Hp Ha. apply call_ok in H as (ed0&ed'&E0&Hs&->). rewrite E in E0. inv E0. exists ed'. split; [reflexivity|]. split; [exact Hs|]. exact (proj1 (passive_same Hp Ha Hs)). Qed.
Lemma redraw_carets op c c' ed : (handle (call op) (fun _ => render_carets)) c = (c', Ok tt) -> co_editor c = Some ed -> is_passive op = true -> ~ autocorrect_pending env ed ->
  shows env renderers c (ed_input ed) -> up_to_date env renderers c'.
Proof.
  intros H E Hp Ha S. apply handle_ok in H as (c1&out&H&H2). destruct (passive_call H E Hp Ha) as (ed'&->&_&Ei). destruct (carets_show (ed := ed') H2 ltac:(now destruct c)) as (E2&_&S2&K2).
  exists ed'. split; [exact E2|]. split; [|exact K2]. apply S2. rewrite Ei. destruct c; exact S.
Qed.
Lemma event_ok e c c' : on_editor (fresh env) c -> up_to_date env renderers c -> dispatch e c = (c', Ok tt) ->
  (drags e = true -> forall ed, co_editor c = Some ed -> ~ autocorrect_pending env ed) -> up_to_date env renderers c'.
Proof.
  intros F U H D. destruct (redraws c e) eqn:R; [eapply redraw_ok; eauto|]. pose proof U as (ed&Ed&S&K).
  destruct e as [k|t| |[]|[]|[[json text]|]|[] p|[] p|d p|[] p|m| |m]; cbn [redraws] in R; try discriminate; cbn [Component.dispatch] in H; try (inv H; exact U).
  - rewrite handle_get in H. eapply tasks_ok; eauto.
  - apply copy_ok in H as (ed0&s&_&_&->). destruct c; exact U.
  - rewrite handle_modify in H. apply handle_ok in H as (c1&pos&H&H2). apply position_ok in H as (->&_). apply handle_ok in H2 as (c2&out&H&H2).
    destruct (passive_call (ed := ed) H ltac:(destruct c; exact Ed) eq_refl (D eq_refl _ Ed)) as (ed'&->&_&Ei). apply handle_ok in H2 as (c2&out2&H2&H3). apply call_ok in H2 as (ed1&ed2&E1&H2&->).
    assert (ed1 = ed') by (destruct c; cbn in E1; congruence). subst ed1. cbn [step] in H2. inv H2. destruct (carets_show (ed := finish_selection ed') H3 ltac:(now destruct c)) as (E2&_&S2&K2).
    exists (finish_selection ed'). split; [exact E2|]. split; [|exact K2]. apply S2. change (ed_input (finish_selection ed')) with (ed_input ed'). rewrite Ei. destruct c; exact S.
  - rewrite handle_get in H. destruct (co_pointer_down _); [|now inv H]. apply handle_ok in H as (c1&pos&H&H2). apply position_ok in H as (->&_).
    destruct (d =? 2); [eapply redraw_carets; [exact H2|exact Ed|reflexivity|now apply D|exact S]|]. destruct (d =? 3); [eapply redraw_carets; [exact H2|exact Ed|reflexivity|now apply D|exact S]|]. inv H2. exact U.
  - rewrite handle_get in H. destruct (true && _); [|now inv H]. apply handle_ok in H as (c1&pos&H&H2). apply position_ok in H as (->&_).
    eapply redraw_carets; [exact H2|exact Ed|reflexivity|now apply D|exact S].
  - exists ed. inv H. split; [destruct c; exact Ed|]. split; [destruct c; exact S|discriminate].
Qed.
Lemma new_ok connected c : component_new env renderers connected = Ok c -> up_to_date env renderers c /\ document c = Some [] /\ co_tasks c = [].
Proof.
  unfold component_new. intros H. apply bind_ok in H as ([ed t]&Et&H). apply bind_ok in H as (x&Ex&H).
  assert (Ht : env_parse env [] = Ok t /\ ed = set_parsed (@editor_new SyntaxNode) (Some t)) by (unfold get_syntax_tree in Et; cbn in Et; apply bind_ok in Et as (r&Er&Et); inv Et; auto). destruct Ht as [Ht ->].
  match type of H with context [Component.update_input _ _ ?c0] => destruct (Component.update_input env renderers c0) as [c1 [[]|]] eqn:Eu; inv H end.
  pose proof (unaware_keeps unaware_update Eu) as E. apply update_ok in Eu as (U&D&_).
  - split; [exact U|]. split; [now rewrite D|]. exact E.
  - intros ed E0. inv E0. intros t' E'. cbn in E'. inv E'. exact Ht.
Qed.
(** Drawing does not change a working editor, even if it throws. *)
Lemma carets_alive c ed sel : co_editor c = Some ed -> get_caret ed = Ok sel -> co_editor (fst (render_carets c)) = Some ed.
Proof.
  intros E H. unfold Component.render_carets. rewrite handle_get. destruct (co_connected c); [|exact E]. cbn [negb]. unfold call_get_caret, Component.call. unfold handle at 1 2. rewrite E. cbn [step]. rewrite H. cbn [bind].
  unfold ret. rewrite !handle_modify, handle_get. unfold handle, lift. destruct (draw_caret _ _); reflexivity.
Qed.
Lemma update_alive c ed ed' t sel : co_editor c = Some ed -> get_syntax_tree env ed = Ok (ed', t) -> get_caret ed' = Ok sel -> co_editor (fst (update_input c)) = Some ed'.
Proof.
  intros E Et Hc. unfold Component.update_input, call_get_syntax_tree, Component.call. unfold handle at 1 2. rewrite E. cbn [step]. rewrite Et. cbn [bind]. unfold ret. rewrite handle_modify. unfold handle at 1, lift at 1.
  destruct (render_all renderers t) as [x|k]; [|reflexivity]. rewrite handle_modify. unfold handle at 1, lift at 1. cbn [get_element]. unfold handle at 1, lift at 1. destruct (assert_ _); [|reflexivity]. rewrite handle_modify.
  match goal with |- context [handle _ _ ?c0] => set (c1 := c0) end. assert (E1 : co_editor c1 = Some ed') by reflexivity. unfold handle. pose proof (carets_alive E1 Hc) as E2. destruct (render_carets c1) as [c2 [[]|k]]; [|exact E2]. exact (carets_alive E2 Hc).
Qed.
(** After a panic nothing works anymore, and the screen stays as it is. *)
Definition stuck A (h : Handler A) : Prop := forall c, co_editor c = None ->
  let c' := fst (h c) in co_editor c' = None /\ co_tree c' = co_tree c /\ co_result c' = co_result c /\ co_drawn c' = co_drawn c /\ co_carets c' = co_carets c.
Lemma stuck_ret A (a : A) : stuck (ret a). Proof. intros c E. cbn. auto. Qed.
Lemma stuck_lift A (r : Res A) : stuck (lift r). Proof. intros c E. cbn. auto. Qed.
Lemma stuck_modify f : (forall c, co_editor (f c) = co_editor c /\ co_tree (f c) = co_tree c /\ co_result (f c) = co_result c /\ co_drawn (f c) = co_drawn c /\ co_carets (f c) = co_carets c) -> stuck (modify f).
Proof. intros H c E. cbn. destruct (H c) as (H1&H2). split; [congruence|exact H2]. Qed.
Lemma stuck_handle A B (h : Handler A) (f : A -> Handler B) : stuck h -> (forall a, stuck (f a)) -> stuck (handle h f).
Proof.
  intros Hh Hf c E. destruct (Hh c E) as (E1&E2&E3&E4&E5). unfold handle. destruct (h c) as [c1 [a|k]]; cbn [fst] in *; [|auto]. destruct (Hf a c1 E1) as (F1&F2&F3&F4&F5). repeat split; congruence.
Qed.
Lemma stuck_get B (f : Component -> Handler B) : (forall c, stuck (f c)) -> stuck (handle get f).
Proof. intros H c E. rewrite handle_get. now apply H. Qed.
Lemma stuck_call op : stuck (call op).
Proof. intros c E. unfold Component.call. rewrite E. cbn. auto. Qed.
Lemma stuck_call_then A op (f : Out SyntaxNode -> Handler A) : stuck (handle (call op) f).
Proof. intros c E. unfold handle, Component.call. rewrite E. cbn. auto. Qed.
Lemma stuck_carets : stuck render_carets.
Proof. apply stuck_get. intros c0. destruct (negb (co_connected c0)); [apply stuck_ret|]. intros c E. unfold call_get_caret. rewrite handle_assoc. exact (stuck_call_then _ _ E). Qed.
Lemma stuck_update : stuck update_input.
Proof. intros c E. unfold Component.update_input, call_get_syntax_tree. rewrite handle_assoc. exact (stuck_call_then _ _ E). Qed.
Lemma stuck_task t : stuck (do_task t).
Proof. destruct t as [| |[data|]|]; cbn [Component.do_task]; try apply stuck_call_then; apply stuck_ret. Qed.
Lemma stuck_tasks l : stuck (run_tasks l).
Proof. induction l as [|t l IH]; [apply stuck_ret|]. cbn [Component.run_tasks]. apply stuck_handle; [now apply stuck_modify|]. intros _. apply stuck_handle; [apply stuck_task|]. intros _. exact IH. Qed.
Lemma stuck_position p : stuck (pointer_position p).
Proof. apply stuck_get. intros c. apply stuck_handle; [apply stuck_lift|]. intros pos. apply stuck_ret. Qed.
Lemma stuck_mathml m : stuck (set_mathml env renderers normalize segment m).
Proof. destruct m as [x|]; [|apply stuck_lift]. apply stuck_handle; [apply stuck_lift|]. intros parsed. apply stuck_get. intros c. apply stuck_call_then. Qed.
Lemma stuck_dispatch e : stuck (dispatch e).
Proof.
  destruct e as [k|t| |[]|[]|[[json text]|]|[] p|[] p|d p|[] p|m| |m]; cbn [Component.dispatch]; try apply stuck_ret; try apply stuck_call_then.
  - intros c E. destruct k; unfold on_key; rewrite ?handle_assoc, ?handle_ret; try exact (stuck_call_then _ _ E). exact (stuck_update E).
  - apply stuck_get. intros c. now apply stuck_modify.
  - apply stuck_get. intros c. apply stuck_tasks.
  - apply stuck_handle; [apply stuck_call_then|]. intros _. apply stuck_call_then.
  - apply stuck_handle; [|intros; apply stuck_update]. apply stuck_call_then.
  - apply stuck_handle; [apply stuck_position|]. intros pos. apply stuck_handle; [now apply stuck_modify|]. intros _. apply stuck_call_then.
  - apply stuck_handle; [now apply stuck_modify|]. intros _. apply stuck_handle; [apply stuck_position|]. intros pos. apply stuck_call_then.
  - apply stuck_get. intros c. destruct (co_pointer_down c); [|apply stuck_ret]. apply stuck_handle; [apply stuck_position|]. intros pos. destruct (d =? 2); [apply stuck_call_then|]. destruct (d =? 3); [apply stuck_call_then|apply stuck_ret].
  - apply stuck_get. intros c. destruct (true && co_pointer_down c); [|apply stuck_ret]. apply stuck_handle; [apply stuck_position|]. intros pos. apply stuck_call_then.
  - apply stuck_handle; [now apply stuck_modify|]. intros _. apply stuck_mathml.
  - now apply stuck_modify.
  - apply stuck_mathml.
Qed.
Lemma stuck_events l : forall c, co_editor c = None -> let c' := run_events env renderers normalize segment c l in
  co_editor c' = None /\ co_tree c' = co_tree c /\ co_result c' = co_result c /\ co_drawn c' = co_drawn c /\ co_carets c' = co_carets c.
Proof.
  induction l as [|e l IH]; cbn [run_events]; intros c E; [cbn; auto|]. destruct (stuck_dispatch e E) as (E1&E2&E3&E4&E5). destruct (IH _ E1) as (F1&F2&F3&F4&F5). cbv zeta. repeat split; congruence.
Qed.
(** Setting the attribute. *)
Lemma mathml_ok m c c' : set_mathml env renderers normalize segment m c = (c', Ok tt) -> exists math root errors ed ed' out,
  m = Some math /\ from_element normalize segment math = Ok (root, errors) /\ co_editor c = Some ed /\
  step env ed (OpSpliceAtRange (mkMinRange [] (fst (syn_range (co_tree c))) (snd (syn_range (co_tree c)))) root) = Ok (ed', out) /\ update_input (set_editor (Some ed') c) = (c', Ok tt).
Proof.
  destruct m as [math|]; cbn [set_mathml]; [|discriminate]. intros H. apply handle_lift in H as ([root errors]&Ef&H). rewrite handle_get in H. cbn [fst] in H. apply handle_ok in H as (c1&out&H&H2).
  apply call_ok in H as (ed&ed'&E&Hs&->). exists math, root, errors, ed, ed', out. auto.
Qed.
Lemma undo_same ed1 ed2 ed1' b : ed_input ed1 = ed_input ed2 -> ed_undo ed1 = ed_undo ed2 -> undo env ed1 = Ok (ed1', b) ->
  exists ed2', undo env ed2 = Ok (ed2', b) /\ ed_input ed2' = ed_input ed1' /\ (b = true -> ed_caret ed2' = ed_caret ed1').
Proof.
  intros Ei Eu. unfold undo. rewrite Eu. destruct (undo_undo _ _) as [u [a|]]; [|intros H; inv H; exists ed2; split; [reflexivity|split; [congruence|discriminate]]]. intros H. apply bind_ok in H as (x&Hx&H). inv H. unfold apply_action in *. cbn in *.
  rewrite Ei in Hx. apply bind_ok in Hx as (d&Hd&Hx). rewrite Hd. cbn [bind]. inv Hx. eexists. split; [reflexivity|]. split; reflexivity.
Qed.
(** Drawing only remembers the syntax tree. *)
Lemma update_keeps (P : Editor -> Prop) : (forall e p, P e -> P (set_parsed e p)) -> keeps (on_editor P) update_input.
Proof.
  intros H. apply keeps_update_input. intros e1 op e2 out [-> | ->] He Hs; cbn [step] in Hs; apply bind_ok in Hs as (y&Hy&Hs); [inv Hs; exact He|]. destruct y as [e3 t3]. destruct (parse_step Hy) as (q&->). inv Hs. auto.
Qed.
Lemma new_caret connected c ed : component_new env renderers connected = Ok c -> co_editor c = Some ed -> ed_caret ed = default_caret.
Proof.
  unfold component_new. intros H E. apply bind_ok in H as ([ed0 t]&Et&H). apply bind_ok in H as (x&_&H). destruct (parse_step Et) as (p&->).
  match type of H with context [Component.update_input _ _ ?c0] => pose proof (@update_keeps (fun e => ed_caret e = default_caret) (fun e p H => H) c0) as K; destruct (Component.update_input env renderers c0) as [c2 [[]|]]; inv H end.
  apply K; [|exact E]. intros e1 E1. cbn in E1. inv E1. reflexivity.
Qed.
Lemma run_events_app l1 l2 : forall c, run_events env renderers normalize segment c (l1 ++ l2) = run_events env renderers normalize segment (run_events env renderers normalize segment c l1) l2.
Proof. induction l1 as [|e l1 IH]; intros c; cbn [app run_events]; auto. Qed.
Lemma reached_next c e : reached env renderers normalize segment c -> reached env renderers normalize segment (fst (dispatch e c)).
Proof. intros (b&c0&l&Hn&->). exists b, c0, (l ++ [e]). split; [exact Hn|]. rewrite run_events_app. reflexivity. Qed.
End Facts.
