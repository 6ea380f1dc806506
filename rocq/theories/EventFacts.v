(** The calls that events make. *)
From Coq Require Import String.
From Verif Require Import Base Str Grid Node Focus Edit Caret Autocomplete Editor NameMap Syntax SyntaxFind Render Layout FromMathML
  Component SpecEditor SpecComponent SpecEvent BaseFacts EditorFacts ComponentFacts.
Open Scope list_scope.
Open Scope nat_scope.
Set Implicit Arguments.
Unset Strict Implicit.

Section Events.
Variable env : Env SyntaxNode.
Variable renderers : Renderers.
Variable normalize : str -> str.
Variable segment : str -> list str.
Notation Editor := (MathEditor SyntaxNode).
Notation dispatch := (dispatch env renderers normalize segment).
Notation update_input := (update_input env renderers).
Notation render_carets := (render_carets env).
Notation do_task := (do_task env renderers segment).
Notation run_tasks := (run_tasks env renderers segment).
Notation call := (call env).
Notation event_calls := (event_calls normalize segment).

Lemma run_app (ed : Editor) a b : run env ed (a ++ b) = (ed' <- run env ed a ;; run env ed' b).
Proof. revert ed. induction a as [|op a IH]; intros ed; [reflexivity|]. cbn [run app]. destruct (step env ed op) as [[ed1 out]|k]; [|reflexivity]. cbn [bind]. apply IH. Qed.

(** ** The calls of a handler *)
Definition does A (ops : list Op) (h : Handler A) (c : Component) : Prop := forall ed, co_editor c = Some ed ->
  co_connected (fst (h c)) = co_connected c /\ outcome env ed ops (co_editor (fst (h c))) (match snd (h c) with Ok _ => Ok tt | Panic k => Panic k end).
Lemma does_pure A (h : Handler A) c : co_editor (fst (h c)) = co_editor c -> co_connected (fst (h c)) = co_connected c -> does [] h c.
Proof.
  intros E Ec ed He. rewrite E, He. split; [exact Ec|]. destruct (snd (h c)) as [a|k]; [now apply outcome_done|]. now apply outcome_threw with (before := []) (after := []).
Qed.
(** A handler that throws may have been about to make any calls. *)
Lemma does_throw A (h : Handler A) c c' k ops : h c = (c', Panic k) -> co_editor c' = co_editor c -> co_connected c' = co_connected c -> does ops h c.
Proof. intros H E Ec ed He. rewrite H. cbn [fst snd]. rewrite E, He. split; [exact Ec|]. now apply outcome_threw with (before := []) (after := ops). Qed.
Lemma does_call op c : does [op] (call op) c.
Proof.
  intros ed He. unfold Component.call. rewrite He. destruct (step env ed op) as [[ed' out]|k] eqn:E; cbn [fst snd co_editor co_connected set_editor]; (split; [reflexivity|]).
  - apply outcome_done. cbn [run]. now rewrite E.
  - now apply outcome_panicked with (before := []) (op := op) (after := []) (ed' := ed).
Qed.
Lemma does_handle A B ops ops' (h : Handler A) (f : A -> Handler B) c : does ops h c ->
  (forall c1 a, h c = (c1, Ok a) -> co_connected c1 = co_connected c -> does ops' (f a) c1) -> does (ops ++ ops') (handle h f) c.
Proof.
  intros H Hf ed He. destruct (H ed He) as [Hc Ho]. unfold handle. destruct (h c) as [c1 [a|k]]; cbn [fst snd] in *.
  - inversion Ho as [ed1 Hr E1 E1'| |]; subst. symmetry in E1. destruct (Hf c1 a eq_refl Hc ed1 E1) as [Hc' Ho']. split; [congruence|].
    destruct (f a c1) as [c2 r]. cbn [fst snd] in *. inversion Ho' as [ed2 Hr2 F2 F3|before after ed2 k Eo Hr2 F2 F3|before op after ed2 k Eo Hr2 Hs F2 F3]; subst.
    + apply outcome_done. rewrite run_app, Hr. exact Hr2.
    + apply outcome_threw with (before := ops ++ before) (after := after); [now rewrite app_assoc|]. rewrite run_app, Hr. exact Hr2.
    + apply outcome_panicked with (before := ops ++ before) (op := op) (after := after) (ed' := ed2); [now rewrite <- app_assoc| |exact Hs]. rewrite run_app, Hr. exact Hr2.
  - split; [exact Hc|]. inversion Ho as [|before after ed2 k' Eo Hr2 E2 E3|before op after ed2 k' Eo Hr2 Hs E2 E3]; subst.
    + apply outcome_threw with (before := before) (after := after ++ ops'); [now rewrite app_assoc|exact Hr2].
    + apply outcome_panicked with (before := before) (op := op) (after := after ++ ops') (ed' := ed2); [now rewrite <- app_assoc|exact Hr2|exact Hs].
Qed.
Lemma does_more A (ops ops' : list Op) (h : Handler A) c : (forall c' a, h c = (c', Ok a) -> ops' = []) -> does ops h c -> does (ops ++ ops') h c.
Proof.
  intros H Hd ed He. destruct (Hd ed He) as [Hc Ho]. split; [exact Hc|]. destruct (h c) as [c1 [a|k]]; cbn [fst snd] in *.
  - rewrite (H c1 a eq_refl), app_nil_r. exact Ho.
  - inversion Ho as [|before after ed2 k' Eo Hr2 E2 E3|before op after ed2 k' Eo Hr2 Hs E2 E3]; subst.
    + apply outcome_threw with (before := before) (after := after ++ ops'); [now rewrite app_assoc|exact Hr2].
    + apply outcome_panicked with (before := before) (op := op) (after := after ++ ops') (ed' := ed2); [now rewrite <- app_assoc|exact Hr2|exact Hs].
Qed.
Lemma does_then A B ops (h : Handler A) (f : A -> Handler B) c : does [] h c -> (forall c1 a, h c = (c1, Ok a) -> co_connected c1 = co_connected c -> does ops (f a) c1) -> does ops (handle h f) c.
Proof. intros H Hf. exact (does_handle H Hf). Qed.
Lemma does_modify f c : co_editor (f c) = co_editor c -> co_connected (f c) = co_connected c -> does [] (modify f) c.
Proof. intros E Ec. now apply does_pure. Qed.
Lemma does_ret A (a : A) c : does [] (ret a) c. Proof. now apply does_pure. Qed.
Lemma does_lift A (a : Res A) c : does [] (lift a) c. Proof. now apply does_pure. Qed.
Lemma does_get c : does [] get c. Proof. now apply does_pure. Qed.
Ltac easy_does := match goal with
  | |- does [] (modify _) _ => apply does_modify; reflexivity
  | |- does [] (ret _) _ => apply does_ret
  | |- does [] (lift _) _ => apply does_lift
  | |- does [] get _ => apply does_get
  end.
Lemma does_last A B op (h : Handler A) (f : A -> Handler B) c : does [op] h c -> (forall c1 a, does [] (f a) c1) -> does [op] (handle h f) c.
Proof. intros H Hf. exact (@does_handle _ _ [op] [] h f c H (fun c1 a _ _ => Hf c1 a)). Qed.
Lemma does_caret c : does [OpGetCaret] (call_get_caret env) c.
Proof. unfold call_get_caret. apply does_last; [apply does_call|]. intros c1 []; easy_does. Qed.
Lemma does_tree c : does [OpGetSyntaxTree] (call_get_syntax_tree env) c.
Proof. unfold call_get_syntax_tree. apply does_last; [apply does_call|]. intros c1 []; easy_does. Qed.
Lemma does_carets c : does (caret_calls (co_connected c)) render_carets c.
Proof.
  unfold Component.render_carets, caret_calls. intros ed He. revert ed He. apply does_then; [easy_does|]. intros c1 c2 E _. inversion E; subst c1 c2. clear E.
  destruct (co_connected c); cbn [negb]; [|easy_does]. apply does_last; [apply does_caret|]. intros c1 sel.
  apply does_then; [easy_does|]. intros c2 [] _ _. apply does_then; [easy_does|]. intros c3 [] _ _. apply does_then; [easy_does|]. intros c4 c5 _ _.
  apply does_then; [easy_does|]. intros c6 d _ _. easy_does.
Qed.
Lemma does_update c : does (redraw_calls (co_connected c)) update_input c.
Proof.
  unfold Component.update_input, redraw_calls. apply (@does_handle _ _ [OpGetSyntaxTree]); [apply does_tree|]. intros c1 t _ E1. rewrite <- E1. clear E1.
  apply does_then; [easy_does|]. intros c2 [] _ E2. rewrite <- E2. apply does_then; [easy_does|]. intros c3 x _ E3. rewrite <- E3.
  apply does_then; [easy_does|]. intros c4 [] _ E4. rewrite <- E4. apply does_then; [easy_does|]. intros c5 row _ E5. rewrite <- E5.
  apply does_then; [easy_does|]. intros c6 [] _ E6. rewrite <- E6. apply does_then; [easy_does|]. intros c7 [] _ E7. rewrite <- E7.
  apply does_handle; [apply does_carets|]. intros c8 [] _ E8. rewrite <- E8. apply does_carets.
Qed.
Lemma does_redraw A op (h : Handler A) c : does [op] h c -> does (op :: redraw_calls (co_connected c)) (handle h (fun _ => update_input)) c.
Proof. intros H. apply (@does_handle _ _ [op]); [exact H|]. intros c1 a _ E. rewrite <- E. apply does_update. Qed.
Lemma does_task t c : does (match task_op segment t with Some op => op :: redraw_calls (co_connected c) | None => [] end) (do_task t) c.
Proof. destruct t as [| |[data|]|]; cbn [Component.do_task task_op]; try easy_does; apply does_redraw, does_call. Qed.
Lemma does_tasks l c : does (flat_map (fun t => match task_op segment t with Some op => op :: redraw_calls (co_connected c) | None => [] end) l) (run_tasks l) c.
Proof.
  revert c. induction l as [|t l IH]; intros c; cbn [Component.run_tasks flat_map]; [easy_does|].
  apply does_then; [easy_does|]. intros c1 [] _ E1. rewrite <- E1. apply does_handle; [apply does_task|]. intros c2 [] _ E2. rewrite <- E2. apply IH.
Qed.
Lemma position_cases p c : pointer_position p c = match shown_at c p with Some pos => (c, Ok pos) | None => (c, snd (pointer_position p c)) end /\
  (shown_at c p = None -> exists k, snd (pointer_position p c) = Panic k).
Proof.
  unfold pointer_position, shown_at, handle, get, lift, ret. destruct (get_layout_position _ _ _) as [[row offset]|k]; cbn; split; auto; [discriminate|eauto].
Qed.
Lemma does_point B p (f : MinPos -> Handler B) ops c : (forall pos, shown_at c p = Some pos -> does (ops pos) (f pos) c) -> does (at_point c p ops) (handle (pointer_position p) f) c.
Proof.
  intros H. unfold at_point. destruct (position_cases p c) as [E Ek]. destruct (shown_at c p) as [pos|].
  - intros ed He. rewrite (handle_eq f E). apply H; auto.
  - destruct (Ek eq_refl) as (k&Ek'). rewrite Ek' in E. apply does_throw with (c' := c) (k := k); auto. unfold handle. now rewrite E.
Qed.
Lemma does_load c m : does (load_calls normalize segment c (co_connected c) m) (set_mathml env renderers normalize segment m) c.
Proof.
  unfold load_calls. destruct m as [x|]; cbn [set_mathml]; [|easy_does]. destruct (from_element normalize segment x) as [[nodes errs]|k] eqn:E.
  - unfold lift at 1. intros ed He. rewrite (@handle_eq _ _ _ _ c c (nodes, errs)) by reflexivity. rewrite handle_get. revert ed He. apply does_redraw, does_call.
  - apply does_throw with (c' := c) (k := k); reflexivity.
Qed.
Lemma str_nil A (s : str) (a b : A) : match s with [] => a | _ => b end = if str_eqb s [] then a else b.
Proof. destruct s; reflexivity. Qed.
Lemma events_outcome c e ed c' r : co_editor c = Some ed -> dispatch e c = (c', r) -> outcome env ed (event_calls c e) (co_editor c') r.
Proof.
  intros He H.
  assert (K : does (event_calls c e) (dispatch e) c -> outcome env ed (event_calls c e) (co_editor c') r).
  { intros D. destruct (D ed He) as [_ O]. rewrite H in O. cbn [fst snd] in O. destruct r as [[]|k]; exact O. }
  destruct e as [k|t| |[]|[]|[[json text]|]|[] p|[] p|d p|[] p|m| |m].
  - apply K. cbn [Component.dispatch SpecEvent.event_calls]. unfold on_key. destruct k; cbn [key_op]; try (apply does_redraw; apply does_last; [apply does_call|intros; easy_does]).
    apply does_then; [easy_does|]. intros c1 [] _ E1. rewrite <- E1. apply does_update.
  - apply K. cbn [Component.dispatch SpecEvent.event_calls]. apply does_then; [easy_does|]. intros c1 c2 _ _. easy_does.
  - apply K. cbn [Component.dispatch SpecEvent.event_calls]. apply does_then; [easy_does|]. intros c1 c2 E _. inversion E; subst. apply does_tasks.
  - apply K. cbn [Component.dispatch SpecEvent.event_calls]. unfold handle_copy. apply does_last; [apply does_call|]. intros c1 []; easy_does.
  - apply K. apply does_pure; reflexivity.
  - apply K. cbn [Component.dispatch SpecEvent.event_calls]. unfold handle_copy. apply (@does_handle _ _ [OpCopy]); [apply does_last; [apply does_call|intros c1 []; easy_does]|].
    intros c1 [] _ E1. rewrite <- E1. apply does_redraw, does_call.
  - apply K. apply does_pure; reflexivity.
  - apply K. cbn [Component.dispatch SpecEvent.event_calls]. rewrite str_nil. apply does_redraw. unfold call_paste. apply does_last; [apply does_call|]. intros c1 []; easy_does.
  - apply K. apply does_pure; reflexivity.
  - apply K. cbn [Component.dispatch SpecEvent.event_calls]. apply does_point. intros pos _. apply does_then; [easy_does|]. intros c1 [] _ E1. rewrite <- E1. apply does_redraw, does_call.
  - apply K. apply does_pure; reflexivity.
  - cbn [Component.dispatch SpecEvent.event_calls] in *. rewrite handle_modify in H. set (c1 := set_pointer_down false c) in *.
    assert (D : does (at_point c1 p (fun pos => OpExtendSelection pos :: OpFinishSelection :: caret_calls (co_connected c1)))
      (handle (pointer_position p) (fun pos => handle (call (OpExtendSelection pos)) (fun _ => handle (call OpFinishSelection) (fun _ => render_carets)))) c1).
    { apply does_point. intros pos _. apply (@does_handle _ _ [_]); [apply does_call|]. intros c2 a _ E2. rewrite <- E2. apply (@does_handle _ _ [_]); [apply does_call|].
      intros c3 b _ E3. rewrite <- E3. apply does_carets. }
    destruct (D ed He) as [_ O]. rewrite H in O. cbn [fst snd] in O. destruct r as [[]|k]; exact O.
  - apply K. apply does_pure; reflexivity.
  - apply K. cbn [Component.dispatch SpecEvent.event_calls]. apply does_then; [easy_does|]. intros c1 c2 E _. inversion E; subst c1 c2. clear E. destruct (co_pointer_down c); [|easy_does].
    apply does_point. intros pos _. destruct d as [|[|[|[|d]]]]; cbn [Nat.eqb]; try easy_does; apply (@does_handle _ _ [_]); try apply does_call; intros c1 a _ E1; rewrite <- E1; apply does_carets.
  - apply K. cbn [Component.dispatch SpecEvent.event_calls]. apply does_then; [easy_does|]. intros c1 c2 E _. inversion E; subst c1 c2. clear E. cbn [andb]. destruct (co_pointer_down c); [|easy_does].
    apply does_point. intros pos _. apply (@does_handle _ _ [_]); [apply does_call|]. intros c1 a _ E1. rewrite <- E1. apply does_carets.
  - apply K. cbn [Component.dispatch SpecEvent.event_calls]. apply does_then; [easy_does|]. intros c1 c2 E _. inversion E; subst c1 c2. clear E. cbn [andb]. easy_does.
  - cbn [Component.dispatch SpecEvent.event_calls] in *. rewrite handle_modify in H. destruct (@does_load (set_connected true c) m ed He) as [_ O]. rewrite H in O. cbn [fst snd] in O. destruct r as [[]|k]; exact O.
  - cbn [Component.dispatch SpecEvent.event_calls] in *. inversion H; subst. cbn [co_editor set_connected]. rewrite He. now apply outcome_done.
  - apply K. cbn [Component.dispatch SpecEvent.event_calls]. apply does_load.
Qed.

(** ** What is remembered *)
Definition memory (c : Component) := (co_pointer_down c, co_connected c, co_clipboard c, co_tasks c).
Lemma memory_call s op : keeps (fun c => memory c = s) (call op).
Proof. intros c H. unfold Component.call. destruct (co_editor c) as [ed|]; [|exact H]. destruct (step env ed op) as [[ed' out]|k]; exact H. Qed.
Lemma memory_modify s f : (forall c, memory (f c) = memory c) -> keeps (fun c => memory c = s) (modify f).
Proof. intros H c Hc. cbn. now rewrite H. Qed.
Ltac memories := repeat match goal with
  | |- keeps _ (handle _ _) => apply keeps_handle; [|intros]
  | |- keeps _ (Component.call _ _) => apply memory_call
  | |- keeps _ (ret _) => apply keeps_ret
  | |- keeps _ (lift _) => apply keeps_lift
  | |- keeps _ get => apply keeps_get
  | |- keeps _ (modify _) => apply memory_modify; reflexivity
  | |- keeps _ match ?x with _ => _ end => destruct x
  end.
Lemma memory_carets s : keeps (fun c => memory c = s) render_carets.
Proof. unfold Component.render_carets, call_get_caret. memories. Qed.
Lemma memory_update s : keeps (fun c => memory c = s) update_input.
Proof. unfold Component.update_input, call_get_syntax_tree. memories; apply memory_carets. Qed.
Lemma memory_task s t : keeps (fun c => memory c = s) (do_task t).
Proof. destruct t as [| |[]|]; cbn [Component.do_task]; memories; apply memory_update. Qed.
Lemma memory_load s m : keeps (fun c => memory c = s) (set_mathml env renderers normalize segment m).
Proof. destruct m; cbn [set_mathml]; memories. apply memory_update. Qed.
Lemma memory_pointer s p : keeps (fun c => memory c = s) (pointer_position p).
Proof. unfold pointer_position. memories. Qed.
Lemma memory_same A (h : Handler A) c : (forall s, keeps (fun c => memory c = s) h) -> memory (fst (h c)) = memory c.
Proof. intros H. exact (H (memory c) c eq_refl). Qed.
Lemma memory_tasks l : forall c, co_tasks c = l -> let c' := fst (run_tasks l c) in
  (co_pointer_down c', co_connected c', co_clipboard c') = (co_pointer_down c, co_connected c, co_clipboard c) /\
  match snd (run_tasks l c) with Ok _ => co_tasks c' = [] | Panic _ => exists handled t, l = handled ++ t :: co_tasks c' end.
Proof.
  induction l as [|t l IH]; intros c Hc; cbn [Component.run_tasks]; [split; [reflexivity|exact Hc]|]. rewrite handle_modify.
  pose proof (memory_same (set_tasks l c) (fun s => @memory_task s t)) as M. unfold handle. destruct (do_task t (set_tasks l c)) as [c1 [[]|k]]; cbn [fst snd] in *; unfold memory in M;
    cbn [co_pointer_down co_connected co_clipboard co_tasks set_tasks] in M; injection M as E1 E2 E3 E4.
  - destruct (IH c1 E4) as [IH1 IH2]. split; [congruence|]. destruct (run_tasks l c1) as [c2 [[]|k]]; cbn [fst snd] in *; [exact IH2|]. destruct IH2 as (handled&t'&E).
    exists (t :: handled), t'. now rewrite E at 1.
  - split; [congruence|]. exists [], t. now rewrite E4.
Qed.
Lemma events_memory c e c' r : dispatch e c = (c', r) ->
  co_pointer_down c' = pointer_after c e /\ co_connected c' = connected_after c e /\ co_clipboard c' = clipboard_after env c e /\ tasks_after c e r (co_tasks c').
Proof.
  intros H. assert (Ec : c' = fst (dispatch e c)) by now rewrite H.
  assert (K : memory c' = (pointer_after c e, connected_after c e, clipboard_after env c e, co_tasks c) -> (forall l, tasks_after c e r l <-> l = co_tasks c) ->
    co_pointer_down c' = pointer_after c e /\ co_connected c' = connected_after c e /\ co_clipboard c' = clipboard_after env c e /\ tasks_after c e r (co_tasks c')).
  { unfold memory. intros E Ht. inversion E as [[E1 E2 E3 E4]]. repeat split; try assumption. now apply Ht. }
  destruct e as [k|t| |[]|[]|[[json text]|]|[] p|[] p|d p|[] p|m| |m]; try (apply K; [|reflexivity]; subst c'; cbn [Component.dispatch pointer_after connected_after clipboard_after]);
    try reflexivity.
  - apply memory_same. intros s. unfold on_key. destruct k; memories; apply memory_update.
  - cbn [Component.dispatch] in H. rewrite handle_get in H. inversion H; subst. repeat split.
  - clear K. cbn [Component.dispatch] in H. rewrite handle_get in H. destruct (@memory_tasks (co_tasks c) c eq_refl) as [M T]. rewrite H in M, T. cbn [fst snd] in M, T. inversion M as [[E1 E2 E3]].
    cbn [pointer_after connected_after clipboard_after tasks_after]. auto.
  - unfold handle_copy, Component.call, handle. destruct (co_editor c) as [ed|]; [|reflexivity]. destruct (step env ed OpCopy) as [[ed' []]|k]; reflexivity.
  - assert (M : memory (fst (handle_copy env c)) = (co_pointer_down c, co_connected c, clipboard_after env c (EvCut true), co_tasks c)).
    { unfold handle_copy, Component.call, handle, clipboard_after. destruct (co_editor c) as [ed|]; [|reflexivity]. destruct (step env ed OpCopy) as [[ed' []]|k]; reflexivity. }
    unfold clipboard_after in M. rewrite <- M. unfold handle at 1. destruct (handle_copy env c) as [c1 [[]|k]]; cbn [fst]; [|reflexivity]. apply memory_same. intros s. memories. apply memory_update.
  - apply memory_same. intros s. unfold call_paste. memories; apply memory_update.
  - destruct (position_cases p c) as [E Ek]. destruct (shown_at c p) as [pos|].
    + rewrite (handle_eq _ E), handle_modify. rewrite memory_same; [reflexivity|]. intros s. memories. apply memory_update.
    + destruct (Ek eq_refl) as (k&Ek'). rewrite Ek' in E. unfold handle. rewrite E. reflexivity.
  - rewrite handle_modify, memory_same; [reflexivity|]. intros s. memories; first [apply memory_pointer|apply memory_carets].
  - apply memory_same. intros s. memories; first [apply memory_pointer|apply memory_carets].
  - apply memory_same. intros s. memories; first [apply memory_pointer|apply memory_carets].
  - rewrite handle_modify, memory_same; [reflexivity|]. intros s. apply memory_load.
  - apply memory_same. intros s. apply memory_load.
Qed.

(** ** The primary button *)
Lemma new_released connected c : component_new env renderers connected = Ok c -> co_pointer_down c = false.
Proof.
  unfold component_new. intros H. apply bind_ok in H as ([ed t]&_&H). apply bind_ok in H as (x&_&H). set (c0 := mkComponent _ _ _ _ _ _ _ _ _) in H.
  pose proof (memory_same c0 (fun s => @memory_update s)) as M. destruct (update_input c0) as [c1 [[]|k]]; [|discriminate H]. inversion H; subst c1. unfold memory in M. cbn [fst] in M. now inversion M.
Qed.
Lemma held_only l : forall c b, (co_pointer_down c = true -> b = true) -> co_pointer_down (run_events env renderers normalize segment c l) = true -> held b l = true.
Proof.
  induction l as [|e l IH]; intros c b Hb H; cbn [run_events held] in *; [auto|]. destruct (dispatch e c) as [c1 r] eqn:E. destruct (events_memory E) as (P&_). cbn [fst] in H.
  destruct e as [| | | | | |[]|[]| |[]| | |]; (eapply IH; [|exact H]); rewrite P; cbn [pointer_after]; auto; discriminate.
Qed.
Lemma held_false connected c l : component_new env renderers connected = Ok c -> held false l = false -> co_pointer_down (run_events env renderers normalize segment c l) = false.
Proof.
  intros H Hl. destruct (co_pointer_down _) eqn:E; [|reflexivity]. apply held_only with (b := false) in E; [congruence|]. rewrite (new_released H). auto.
Qed.
Lemma released_ignored c e : co_pointer_down c = false -> match e with EvPointerMove _ _ | EvMouseDown _ _ => True | _ => False end -> dispatch e c = (c, Ok tt).
Proof. intros E H. destruct e; try contradiction; cbn [Component.dispatch]; rewrite handle_get, E, ?Bool.andb_false_r; reflexivity. Qed.

(** ** The operations that are used *)
Lemma carets_used b : Forall used_by_element (caret_calls b). Proof. destruct b; repeat constructor. Qed.
Lemma redraw_used b : Forall used_by_element (redraw_calls b). Proof. constructor; [exact I|]. apply Forall_app. auto using carets_used. Qed.
Lemma point_used c p ops : (forall pos, Forall used_by_element (ops pos)) -> Forall used_by_element (at_point c p ops).
Proof. intros H. unfold at_point. destruct (shown_at c p); auto. Qed.
Lemma load_used c b m : Forall used_by_element (load_calls normalize segment c b m).
Proof. unfold load_calls. destruct m as [x|]; [|constructor]. destruct (from_element normalize segment x) as [[nodes errs]|k]; constructor; [exact I|apply redraw_used]. Qed.
Lemma events_used c e : Forall used_by_element (event_calls c e).
Proof.
  assert (Cons : forall op l, used_by_element op -> Forall used_by_element l -> Forall used_by_element (op :: l)) by (intros; constructor; auto).
  destruct e as [k|t| |[]|[]|[[json text]|]|[] p|[] p|d p|[] p|m| |m]; cbn [SpecEvent.event_calls]; try apply load_used; try apply Forall_nil.
  - destruct k; cbn [key_op]; first [apply redraw_used|apply Cons; [exact I|apply redraw_used]].
  - apply Forall_flat_map, Forall_forall. intros t _. destruct t as [| |[]|]; cbn [task_op]; try apply Forall_nil; (apply Cons; [exact I|apply redraw_used]).
  - repeat constructor.
  - apply Cons, Cons; try exact I. apply redraw_used.
  - apply Cons; [exact I|apply redraw_used].
  - apply point_used. intros pos. apply Cons; [exact I|apply redraw_used].
  - apply point_used. intros pos. apply Cons, Cons; try exact I. apply carets_used.
  - destruct (co_pointer_down c); [|constructor]. apply point_used. intros pos. destruct d as [|[|[|[|d]]]]; try apply Forall_nil; (apply Cons; [exact I|apply carets_used]).
  - destruct (co_pointer_down c); [|constructor]. apply point_used. intros pos. apply Cons; [exact I|apply carets_used].
Qed.
Lemma outcome_run ed calls ed' r : outcome env ed calls (Some ed') r -> exists before after, calls = before ++ after /\ run env ed before = Ok ed'.
Proof. intros H. inversion H as [ed1 Hr|before after ed1 k E Hr|]; subst; [exists calls, []; now rewrite app_nil_r|eauto]. Qed.
Lemma no_editor c e : co_editor c = None -> co_editor (fst (dispatch e c)) = None.
Proof.
  intros H. assert (K : on_editor (fun _ => False) c) by (intros ed E; congruence).
  assert (K' : on_editor (fun _ => False) (fst (dispatch e c))) by (apply keeps_dispatch; [contradiction|exact K]).
  destruct (co_editor (fst (dispatch e c))) as [ed|] eqn:E; [|reflexivity]. destruct (K' ed E).
Qed.
Lemma reached_used c ed : reached env renderers normalize segment c -> co_editor c = Some ed -> exists ops, Forall used_by_element ops /\ run env (@editor_new SyntaxNode) ops = Ok ed.
Proof.
  intros (connected&c0&l&Hn&->). intros H.
  assert (K0 : on_editor (fun ed => exists ops, Forall used_by_element ops /\ run env (@editor_new SyntaxNode) ops = Ok ed) c0).
  { intros ed0 E0. unfold component_new in Hn. apply bind_ok in Hn as ([ed1 t]&Et&Hn). apply bind_ok in Hn as (x&_&Hn). set (c1 := mkComponent _ _ _ _ _ _ _ _ _) in Hn.
    destruct (@does_update c1 ed1 eq_refl) as [_ O]. destruct (update_input c1) as [c2 [[]|k]]; inversion Hn; subst c2. cbn [fst snd] in O. rewrite E0 in O. apply outcome_run in O as (before&after&E&Hr).
    exists (OpGetSyntaxTree :: before). split.
    - constructor; [exact I|]. pose proof (redraw_used (co_connected c1)) as U. rewrite E in U. now apply Forall_app in U.
    - cbn [run step]. rewrite Et. exact Hr. }
  clear Hn. revert c0 K0 H. induction l as [|e l IH]; intros c0 K0 H; cbn [run_events] in H; [now apply K0|]. apply (IH (fst (dispatch e c0))); [|exact H].
  intros ed1 E1. destruct (co_editor c0) as [ed0|] eqn:E0; [|rewrite (@no_editor c0 e E0) in E1; discriminate E1]. destruct (K0 ed0 E0) as (ops&U&Hr).
  destruct (dispatch e c0) as [c1 r] eqn:D. cbn [fst] in E1. pose proof (events_outcome E0 D) as O. rewrite E1 in O. apply outcome_run in O as (before&after&E&Hr2).
  exists (ops ++ before). split.
  - apply Forall_app. split; [exact U|]. pose proof (events_used c0 e) as V. rewrite E in V. now apply Forall_app in V.
  - rewrite run_app, Hr. exact Hr2.
Qed.
End Events.
