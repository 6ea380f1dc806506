(** Undo, redo and the cached syntax tree. *)
From Verif Require Import Base Str Grid Node Focus Edit Caret Autocomplete Editor Spec SpecEditor SpecMove BaseFacts
  TreeFacts OrderFacts EditFacts TreeProofs MoveFacts MoveProofs EditorFacts.
Set Implicit Arguments.
Unset Strict Implicit.

(** ** The undo/redo manager *)
Definition same_timeline {T} (m : UndoRedoManager T) (t : Timeline T) : Prop :=
  tl_actions t = rev (undo_stack m) ++ redo_stack m /\ tl_cursor t = length (undo_stack m).

Lemma call_same T (inverse : T -> T) m t c : same_timeline m t ->
  same_timeline (fst (um_call inverse m c)) (fst (tl_call inverse t c)) /\
  snd (um_call inverse m c) = snd (tl_call inverse t c).
Proof.
  destruct m as [us rs], t as [as_ k]. intros [Ha Hk]. cbn in Ha, Hk. subst. destruct c as [a| |]; cbn.
  - split; auto. split; cbn; [|lia]. rewrite <- (rev_length us), firstn_app, Nat.sub_diag, firstn_all. cbn. now rewrite !app_nil_r.
  - destruct us as [|u us]; cbn; [split; auto; now split|]. split.
    + split; cbn; auto. now rewrite <- app_assoc.
    + rewrite <- app_assoc, nth_error_app2; rewrite rev_length; auto. now rewrite Nat.sub_diag.
  - rewrite nth_error_app2; rewrite rev_length; auto. rewrite Nat.sub_diag. destruct rs as [|r rs]; cbn; [split; auto; now split|].
    split; auto. split; cbn; [now rewrite <- app_assoc|lia].
Qed.
Lemma calls_same T (inverse : T -> T) cs m t : same_timeline m t ->
  same_timeline (fst (calls (um_call inverse) m cs)) (fst (calls (tl_call inverse) t cs)) /\
  snd (calls (um_call inverse) m cs) = snd (calls (tl_call inverse) t cs).
Proof.
  revert m t. induction cs as [|c cs IH]; intros m t H; [cbn; auto|]. cbn [calls].
  pose proof (call_same inverse c H) as [H1 H2].
  destruct (um_call inverse m c) as [m1 r1], (tl_call inverse t c) as [t1 r2]. cbn in H1, H2. subst r2.
  specialize (IH _ _ H1). destruct (calls _ m1 cs), (calls _ t1 cs). cbn in *. destruct IH. split; congruence.
Qed.
Lemma um_timeline T (inverse : T -> T) cs :
  let (m, rs) := calls (um_call inverse) undo_new cs in
  let (t, rs') := calls (tl_call inverse) (mkTimeline [] 0) cs in
  rs = rs' /\ can_undo m = (0 <? tl_cursor t) /\ can_redo m = (tl_cursor t <? length (tl_actions t)).
Proof.
  pose proof (@calls_same T inverse cs undo_new (mkTimeline [] 0) ltac:(now split)) as [H1 H2].
  destruct (calls _ undo_new cs) as [[us rs] r], (calls _ (mkTimeline [] 0) cs) as [t r']. destruct H1 as [Ha Hk]. cbn in *.
  split; auto. rewrite Ha, Hk, app_length, rev_length. unfold can_undo, can_redo. cbn [undo_stack redo_stack].
  split.
  - destruct us; reflexivity.
  - symmetry. destruct rs; [apply Nat.ltb_ge|apply Nat.ltb_lt]; cbn [length]; lia.
Qed.

Section Ed.
Context {SyntaxNode : Type}.
Variable env : Env SyntaxNode.
Implicit Type ed : MathEditor SyntaxNode.
Let cfg := env_cfg env.

(** ** Undoing *)
Lemma committed_app_inv ces ces' d d' : committed cfg d (ces ++ ces') d' -> exists d1, committed cfg d ces d1 /\ committed cfg d1 ces' d'.
Proof.
  revert d. induction ces as [|c ces IH]; intros d H; [exists d; split; [constructor|auto]|].
  inversion H as [|? ? dm ? ? C1 C2]; subst. destruct (IH _ C2) as (d1&H1&H2). exists d1. split; auto. econstructor; eauto.
Qed.

Lemma undo_times_spec ces d ed' stk : committed cfg d ces (ed_input ed') -> undo_stack (ed_undo ed') = rev ces ++ stk ->
  exists ed2, undo_times env (length ces) ed' = Ok ed2 /\ ed_input ed2 = d /\ undo_stack (ed_undo ed2) = stk /\
    match ces with [] => ed2 = ed' | c :: _ => ed_caret ed2 = ce_before c end.
Proof.
  revert ed'. induction ces as [|ce ces IH] using rev_ind; intros ed' Hc Hs.
  - inversion Hc; subst. exists ed'. auto.
  - apply committed_app_inv in Hc as (d1&H1&H2). inversion H2 as [|? ? d2 ? ? C1 C2]; subst. inversion C2; subst.
    rewrite rev_app_distr in Hs. cbn in Hs. rewrite app_length, Nat.add_comm. cbn [length Nat.add].
    unfold undo_times. cbn [repeat run step]. unfold undo, undo_undo. rewrite Hs. unfold apply_action.
    cbn [set_undo ed_input caret_edit_inverse ce_edits]. fold cfg. rewrite (chain_inverse C1). cbn [bind].
    match goal with |- context [run env ?e _] => destruct (IH e) as (ed2&Hr&Hi&Hu&Hca) end; cbn; auto.
    exists ed2. split; [exact Hr|]. split; auto. split; auto. destruct ces; cbn in *; [subst ed2; reflexivity|auto].
Qed.

Lemma advanced_recorded ed ces ed' : advanced env ed ces ed' -> recorded_steps ed ed' = length ces.
Proof. intros [_ H _ _]. unfold recorded_steps. rewrite H, app_length, rev_length. lia. Qed.

Lemma parse_step ed ed' t : get_syntax_tree env ed = Ok (ed', t) -> exists p, ed' = set_parsed ed p.
Proof.
  unfold get_syntax_tree. destruct (ed_parsed ed) eqn:E; intros H; [inv H; exists (ed_parsed ed'); now destruct ed'|].
  apply bind_ok in H as (r&_&H). inv H. eauto.
Qed.

Lemma undo_restores ed op ed' out : step env ed op = Ok (ed', out) -> is_undo_redo op = false ->
  appends op (recorded_steps ed ed') /\
  exists ed2, undo_times env (recorded_steps ed ed') ed' = Ok ed2 /\ ed_input ed2 = ed_input ed /\
    undo_stack (ed_undo ed2) = undo_stack (ed_undo ed) /\
    (recorded_steps ed ed' > 0 -> ~ autocorrect_pending env ed \/ recorded_steps ed ed' = 2 \/ is_direct op = true ->
     ed_caret ed2 = ed_caret ed).
Proof.
  intros H Hop. destruct (match op with OpGetSyntaxTree => true | _ => false end) eqn:Est.
  - destruct op; try discriminate. cbn [step] in H. apply bind_ok in H as ([ed1 t]&Ht&H). inv H.
    apply parse_step in Ht as (p&->). unfold recorded_steps. cbn. rewrite Nat.sub_diag. split; auto.
    exists (set_parsed ed p). split; auto.
  - destruct (@step_advanced _ env _ _ _ _ H Hop) as (ces&A&Hap&_&Hf); [intros ->; discriminate|].
    pose proof (advanced_recorded A) as E. rewrite E. split; auto.
    destruct (undo_times_spec (adv_committed A) (adv_undo A)) as (ed2&H1&H2&H3&H4). exists ed2. repeat split; auto.
    intros Hn Hp. specialize (Hf Hp). destruct ces; cbn in *; [lia|congruence].
Qed.

Lemma undo_redo_same ed ed1 : reachable env ed -> undo env ed = Ok (ed1, true) ->
  exists ed2, redo env ed1 = Ok (ed2, true) /\ ed_input ed2 = ed_input ed.
Proof.
  intros Hr H. destruct (reachable_hist Hr) as (h&Hi). destruct (undo_hist Hi) as (ed1'&b&Hu&Hh). rewrite H in Hu. inv Hu.
  destruct (past h); destruct Hh as [Hb Hh]; [discriminate|].
  destruct (redo_hist Hh) as (ed2&b&Hre&Hh2). cbn in Hh2. destruct Hh2 as [-> Hh2]. exists ed2. split; auto.
  symmetry. exact (hi_present Hh2).
Qed.
Lemma redo_undo_same ed ed1 : reachable env ed -> redo env ed = Ok (ed1, true) ->
  exists ed2, undo env ed1 = Ok (ed2, true) /\ ed_input ed2 = ed_input ed.
Proof.
  intros Hr H. destruct (reachable_hist Hr) as (h&Hi). destruct (redo_hist Hi) as (ed1'&b&Hu&Hh). rewrite H in Hu. inv Hu.
  destruct (future h); destruct Hh as [Hb Hh]; [discriminate|].
  destruct (undo_hist Hh) as (ed2&b&Hre&Hh2). cbn in Hh2. destruct Hh2 as [-> Hh2]. exists ed2. split; auto.
  symmetry. exact (hi_present Hh2).
Qed.

Definition rooted (h : History) : Prop := last (past h) (present h) = [].
Lemma last_default (A : Type) (l : list A) x d d' : last (x :: l) d = last (x :: l) d'.
Proof. revert x. induction l as [|y l IH]; intros x; auto. cbn [last] in *. apply IH. Qed.
Lemma last_cons (A : Type) (l : list A) x d : last (x :: l) d = last l x.
Proof. destruct l; auto. change (last (a :: l) d = last (a :: l) x). apply last_default. Qed.
Lemma hist_step_rooted h op (out : Out SyntaxNode) h' : hist_step h op out h' -> rooted h -> rooted h'.
Proof. unfold rooted. intros H Hr. destruct H; cbn [past present] in *; rewrite ?last_cons in *; auto. Qed.
Lemma step_hist_rooted ed h op ed' out : hist_inv env ed h -> rooted h -> step env ed op = Ok (ed', out) ->
  exists h', hist_inv env ed' h' /\ rooted h'.
Proof. intros Hi Hr H. destruct (step_hist Hi H) as (h'&H1&H2). exists h'. split; auto. eapply hist_step_rooted; eauto. Qed.
Lemma reachable_rooted ed : reachable env ed -> exists h, hist_inv env ed h /\ rooted h.
Proof.
  intros [ops H]. assert (G : exists h, hist_inv env (@editor_new SyntaxNode) h /\ rooted h) by
    (exists empty_history; split; [apply hist_inv_new|reflexivity]).
  revert H G. generalize (@editor_new SyntaxNode). induction ops as [|op ops IH]; intros ed0 H (h&Hi&Hr).
  - inv H. eauto.
  - cbn in H. apply bind_ok in H as ([ed1 o]&Hs&H). eapply IH; [exact H|]. eapply step_hist_rooted; eauto.
Qed.
Lemma undo_at_root ed ed' : reachable env ed -> undo env ed = Ok (ed', false) -> ed_input ed = [] /\ ed' = ed.
Proof.
  intros Hr H. destruct (reachable_rooted Hr) as (h&Hi&Hh). destruct (undo_hist Hi) as (ed1'&b&Hu&Hx). rewrite H in Hu. inv Hu.
  unfold rooted in Hh. destruct (past h); destruct Hx as [Hb Hx]; [|discriminate]. subst. split; auto.
  cbn in Hh. now rewrite <- (hi_present Hi).
Qed.
Lemma undo_all ed h : hist_inv env ed h -> rooted h -> exists ed', undo_times env (length (past h)) ed = Ok ed' /\
  undo env ed' = Ok (ed', false) /\ ed_input ed' = [].
Proof.
  remember (length (past h)) as n. revert ed h Heqn. induction n as [|n IH]; intros ed h Hn Hi Hr.
  - destruct h as [[|] d f]; [|discriminate]. exists ed. split; auto. destruct (undo_hist Hi) as (ed1&b&Hu&Hx). cbn in Hx.
    destruct Hx as [-> ->]. split; auto. unfold rooted in Hr. cbn in Hr. rewrite <- (hi_present Hi). exact Hr.
  - destruct h as [[|p ps] d f]; [discriminate|]. destruct (undo_hist Hi) as (ed1&b&Hu&Hx). cbn in Hx. destruct Hx as [-> Hx].
    destruct (IH ed1 (mkHistory ps p (ed_input ed :: f)) ltac:(cbn in *; lia) Hx) as (ed'&H1&H2).
    { unfold rooted in *. cbn [past present] in *. now rewrite last_cons in Hr. }
    exists ed'. split; auto. unfold undo_times in *. cbn [repeat run step]. rewrite Hu. exact H1.
Qed.
Lemma undo_everything ed : reachable env ed -> exists n ed', undo_times env n ed = Ok ed' /\
  undo env ed' = Ok (ed', false) /\ ed_input ed' = [].
Proof. intros Hr. destruct (reachable_rooted Hr) as (h&Hi&Hh). exists (length (past h)). eapply undo_all; eauto. Qed.
Lemma undo_redo_total ed : reachable env ed ->
  (exists ed' b, undo env ed = Ok (ed', b)) /\ (exists ed' b, redo env ed = Ok (ed', b)).
Proof.
  intros Hr. destruct (reachable_hist Hr) as (h&Hi). destruct (undo_hist Hi) as (a&b&H&_). destruct (redo_hist Hi) as (c&d&H'&_). eauto 6.
Qed.

(** ** The cached syntax tree *)
Definition fresh ed : Prop := forall t, ed_parsed ed = Some t -> env_parse env (ed_input ed) = Ok t.
Lemma step_fresh ed op ed' out : fresh ed -> step env ed op = Ok (ed', out) -> fresh ed'.
Proof.
  intros F H. destruct (is_undo_redo op) eqn:Eop.
  - destruct op; try discriminate; cbn [step] in H; apply bind_ok in H as ([ed1 b]&Hu&H); inv H.
    + unfold undo in Hu. destruct (undo_undo _ _) as [u [act|]]; [|now inv Hu]. apply bind_ok in Hu as (ed2&Ha&Hu). inv Hu.
      unfold apply_action in Ha. apply bind_ok in Ha as (i&_&Ha). inv Ha. intros t Ht. discriminate.
    + unfold redo in Hu. destruct (undo_redo _) as [u [act|]]; [|now inv Hu]. apply bind_ok in Hu as (ed2&Ha&Hu). inv Hu.
      unfold apply_action in Ha. apply bind_ok in Ha as (i&_&Ha). inv Ha. intros t Ht. discriminate.
  - destruct (match op with OpGetSyntaxTree => true | _ => false end) eqn:Est.
    + destruct op; try discriminate. cbn [step] in H. apply bind_ok in H as ([ed1 t]&Ht&H). inv H.
      unfold get_syntax_tree in Ht. destruct (ed_parsed ed) eqn:Ep; [now inv Ht|]. apply bind_ok in Ht as (r&Hr&Ht). inv Ht.
      intros t' Ht'. cbn in *. congruence.
    + destruct (@step_advanced _ env _ _ _ _ H Eop) as (ces&A&_); [intros ->; discriminate|].
      intros t Ht. rewrite (adv_parsed A) in Ht. destruct ces; [|discriminate]. pose proof (adv_committed A) as Hc. assert (E1 : ed_input ed' = ed_input ed) by (inversion Hc; congruence).
      rewrite E1. exact (F t Ht).
Qed.
Lemma reachable_fresh ed : reachable env ed -> fresh ed.
Proof.
  intros [ops H]. assert (G : fresh (@editor_new SyntaxNode)) by (intros t Ht; discriminate).
  revert H G. generalize (@editor_new SyntaxNode). induction ops as [|op ops IH]; intros ed0 H G.
  - now inv H.
  - cbn in H. apply bind_ok in H as ([ed1 o]&Hs&H). eapply IH; [exact H|]. eapply step_fresh; eauto.
Qed.
Lemma syntax_tree_fresh ed : reachable env ed ->
  match env_parse env (ed_input ed) with
  | Ok t => exists ed', get_syntax_tree env ed = Ok (ed', t) /\ ed_input ed' = ed_input ed
  | Panic k => get_syntax_tree env ed = Panic k
  end.
Proof.
  intros Hr. pose proof (reachable_fresh Hr) as F. unfold get_syntax_tree. destruct (ed_parsed ed) as [t|] eqn:Ep.
  - rewrite (F t Ep). eauto.
  - destruct (env_parse env (ed_input ed)); cbn; eauto.
Qed.

(** ** Operations that do not edit *)
Lemma undo_eta T (a b : UndoRedoManager T) : undo_stack a = undo_stack b -> redo_stack a = redo_stack b -> a = b.
Proof. destruct a, b; cbn; congruence. Qed.
Lemma passive_same ed op ed' out : is_passive op = true -> ~ autocorrect_pending env ed -> step env ed op = Ok (ed', out) ->
  ed_input ed' = ed_input ed /\ ed_undo ed' = ed_undo ed.
Proof.
  intros Hp Hn H. destruct (match op with OpGetSyntaxTree => true | _ => false end) eqn:Est.
  - destruct op; try discriminate. cbn [step] in H. apply bind_ok in H as ([ed1 t]&Ht&H). inv H.
    apply parse_step in Ht as (p&->). auto.
  - destruct (@step_advanced _ env _ _ _ _ H) as (ces&A&_&Hces&_); [destruct op; auto; discriminate|intros ->; discriminate|].
    rewrite (Hces Hp Hn) in A. destruct A as [A1 A2 A3 A4]. inversion A1. split; auto. apply undo_eta; auto.
Qed.
End Ed.
