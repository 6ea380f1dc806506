(** What documents are made of. *)
From Coq Require Import String Permutation.
From Verif Require Import Base Str Grid Node Focus Edit Caret Autocomplete Editor NameMap Syntax SyntaxFind Render Layout FromMathML Component
  Spec SpecAuto SpecEditor SpecMove SpecSafety SpecComponent SpecEvent SpecPlain SpecContent BaseFacts
  TreeFacts EditFacts AutoFacts PopupFacts EditorFacts HistoryFacts OpFacts SpliceFacts SafetyFacts PlainFacts EventFacts.
Open Scope list_scope.
Open Scope nat_scope.
Set Implicit Arguments.
Unset Strict Implicit.
Implicit Type Q : Part -> Prop.

Lemma made_nil Q : made_of Q [].
Proof. intros x []. Qed.
Lemma made_symbols Q vs : (forall s, In s vs -> Q (PartSymbol s)) -> made_of Q (map Symbol vs).
Proof. intros H x Hx. apply in_row_parts in Hx as (n&Hn&Hx). apply in_map_iff in Hn as (s&<-&Hn). destruct Hx as [<-|[]]. auto. Qed.
Lemma made_row Q doc p row : made_of Q doc -> row_get doc p = Some row -> made_of Q row.
Proof. intros H E x Hx. apply H. eapply row_get_parts; eauto. Qed.
Lemma made_sub Q r r' : made_of Q r -> (forall n, In n r' -> In n r) -> made_of Q r'.
Proof. intros H Hi x Hx. apply H. apply in_row_parts in Hx as (n&Hn&Hx). apply in_row_parts. eauto. Qed.
Lemma made_nodes_replaced Q doc p l r vs doc' : nodes_replaced doc p l r vs doc' -> made_of Q doc -> made_of Q vs -> made_of Q doc'.
Proof.
  intros (row&_&_&H) Hq Vq x Hx. apply (replaced_parts_in H) in Hx as [Hx|Hx]; auto.
  assert (Hrow : made_of Q row) by exact (made_row Hq (replaced_get_old H)).
  rewrite !row_parts_app, !in_app_iff in Hx. destruct Hx as [Hx|[Hx|Hx]]; auto.
  - refine (made_sub Hrow _ Hx). intros n Hn. rewrite <- (firstn_skipn l row). apply in_app_iff. auto.
  - refine (made_sub Hrow _ Hx). intros n Hn. rewrite <- (firstn_skipn r row). apply in_app_iff. auto.
Qed.
Lemma made_content Q doc p i v g : made_of Q doc -> node_get doc p i = Some (Container v g) -> made_of Q (concat (gvalues g)).
Proof.
  intros Hq H x Hx. unfold node_get in H. destruct (row_get doc p) as [row|] eqn:E; [|discriminate].
  apply Hq. eapply row_get_parts; [exact E|]. apply in_row_parts. exists (Container v g).
  split; [eapply nth_error_In; eauto|]. destruct g as [cells w]. rewrite node_parts_container. now right.
Qed.
Lemma removal_made cfg Q doc q d es m doc' : removal cfg doc q d es m doc' -> made_of Q doc -> chain cfg doc es doc' /\ made_of Q doc'.
Proof.
  intros H Hp. destruct H as [es m doc' C _ (i&s&Hi&Hn&Hrep) ->|es m doc' p i k content C _ (v&g&Hn&->&_&Hrep) Hk ->|m q' Hm ->].
  - split; auto. exact (made_nodes_replaced Hrep Hp (@made_nil Q)).
  - split; auto. exact (made_nodes_replaced Hrep Hp (made_content Hp Hn)).
  - split; [constructor|auto].
Qed.

Section Ed.
Context {SyntaxNode : Type}.
Variable env : Env SyntaxNode.
Variable Q : Part -> Prop.
Implicit Type ed : MathEditor SyntaxNode.
Let cfg := env_cfg env.

(** The invariant: the document, and the ones in the history *)
Inductive made_past : InputRow -> list CaretEdit -> Prop :=
| made_past_nil d : made_past d []
| made_past_cons p ce d stk : chain cfg p (ce_edits ce) d -> made_of Q p -> made_past p stk -> made_past d (ce :: stk).
Inductive made_future : InputRow -> list CaretEdit -> Prop :=
| made_future_nil d : made_future d []
| made_future_cons d ce f stk : chain cfg d (ce_edits ce) f -> made_of Q f -> made_future f stk -> made_future d (ce :: stk).
Record kept ed : Prop := mkKept {
  ke_doc : made_of Q (ed_input ed);
  ke_past : made_past (ed_input ed) (undo_stack (ed_undo ed));
  ke_future : made_future (ed_input ed) (redo_stack (ed_undo ed)) }.

Lemma kept_new : kept (@editor_new SyntaxNode).
Proof. split; cbn; [apply made_nil|constructor|constructor]. Qed.
Lemma kept_same ed ed' : kept ed -> ed_input ed' = ed_input ed -> ed_undo ed' = ed_undo ed -> kept ed'.
Proof. intros [H1 H2 H3] E1 E2. split; rewrite ?E1, ?E2; auto. Qed.
Lemma kept_built ed cb es ca ed1 ce doc' : kept ed -> builder_finish env ed cb es ca = Ok (ed1, ce) -> chain cfg (ed_input ed) es doc' -> made_of Q doc' -> kept ed1.
Proof.
  intros S Hb C Hp. pose proof (builder_finish_inv Hb) as (Ece&_&[[-> E]|(Hne&input&Hi&E)]).
  - apply (kept_same S); now rewrite E.
  - pose proof (chain_apply C) as C'. unfold cfg in C'. rewrite C' in Hi. inv Hi. destruct S as [H1 H2 H3].
    split; cbn [ed_input ed_undo undo_push undo_stack redo_stack]; [exact Hp| |constructor]. eapply made_past_cons; cbn [ce_edits]; eauto.
Qed.
Lemma kept_moved ed cb ca ed1 ce : kept ed -> builder_finish env ed cb [] ca = Ok (ed1, ce) -> kept ed1.
Proof. intros K H. eapply kept_built; [exact K|exact H|constructor|apply K]. Qed.
Lemma undo_kept ed ed' b : kept ed -> undo env ed = Ok (ed', b) -> kept ed'.
Proof.
  intros [H1 H2 H3] H. unfold undo, undo_undo in H. destruct (undo_stack (ed_undo ed)) as [|ce stk] eqn:E; [inv H; split; auto; now rewrite E|].
  apply bind_ok in H as (ed2&Ha&H). inv H. unfold apply_action in Ha. apply bind_ok in Ha as (d&Hd&Ha). inv Ha.
  inversion H2 as [|p ce0 d0 stk0 C P1 P2]; subst.
  pose proof (chain_inverse C) as Hi. cbn [set_undo ed_input caret_edit_inverse ce_edits] in Hd. unfold cfg in Hi. rewrite Hi in Hd. inv Hd.
  split; auto; cbn. eapply made_future_cons; eauto.
Qed.
Lemma redo_kept ed ed' b : kept ed -> redo env ed = Ok (ed', b) -> kept ed'.
Proof.
  intros [H1 H2 H3] H. unfold redo, undo_redo in H. destruct (redo_stack (ed_undo ed)) as [|ce stk] eqn:E; [inv H; split; auto; now rewrite E|].
  apply bind_ok in H as (ed2&Ha&H). inv H. unfold apply_action in Ha. apply bind_ok in Ha as (d&Hd&Ha). inv Ha.
  inversion H3 as [|d0 ce0 f stk0 C P1 P2]; subst.
  pose proof (chain_apply C) as Hi. cbn [set_undo ed_input] in Hd. unfold cfg in Hi. rewrite Hi in Hd. inv Hd.
  split; auto; cbn. eapply made_past_cons; eauto.
Qed.
Lemma splice_kept ed range vs ed' : kept ed -> splice_at_range env ed range vs = Ok ed' -> made_of Q vs -> kept ed'.
Proof.
  intros K H Hvs. unfold splice_at_range in H. cbv zeta in H. apply bind_ok in H as (r&Hr&H). apply rg_from_minimal_inv in Hr as [G _].
  apply bind_ok in H as ([es mr]&Hrep&H). apply bind_ok in H as (s&_&H). apply bind_ok in H as (e&_&H). apply bind_ok in H as ([ed1 ce]&Hb&H). inv H.
  destruct (replace_range_replaces cfg G Hrep) as (doc'&C&Hn&_). assert (K1 : kept ed1); [|apply (kept_same K1); reflexivity].
  eapply kept_built; [exact K|exact Hb|exact C|]. exact (made_nodes_replaced Hn (ke_doc K) Hvs).
Qed.
Lemma insert_kept ed vs ed' act : kept ed -> insert_nodes_at_caret env ed vs = Ok (ed', act) -> made_of Q vs -> kept ed'.
Proof.
  intros K H Hvs. unfold insert_nodes_at_caret in H. apply bind_ok in H as (c&Hc&H). destruct (c_selection c) as [r|] eqn:Es; [|discriminate].
  pose proof (caret_row_good Hc Es) as G. apply bind_ok in H as (x&Hx&H). apply insert_at_range_inv in Hx as (es&rg&Hrep&->).
  apply bind_ok in H as ([ed1 ce]&Hb&H). inv H. destruct (replace_range_replaces cfg G Hrep) as (doc'&C&Hn&_).
  eapply kept_built; [exact K|exact Hb|exact C|]. exact (made_nodes_replaced Hn (ke_doc K) Hvs).
Qed.

Variable good : AutocompleteRule -> Prop.
Hypothesis good_made : forall rule, good rule -> made_of Q (rule_result rule).
Lemma finish_kept ed a ce ed' : kept ed -> finish_autocorrect env ed a ce = Ok ed' -> (forall b, a = Some b -> good (ac_rule b)) -> kept ed'.
Proof.
  unfold finish_autocorrect. intros K H Ha. apply bind_ok in H as (a'&Hf&H). destruct a as [b|]; cbn [autocorrect_finish] in Hf; [|inv Hf; cbn in H; inv H; auto].
  apply bind_ok in Hf as (r&_&Hf). inv Hf. cbn [apply_autocorrect] in H. apply bind_ok in H as (c&_&H). destruct (c_selection c); [|inv H; auto].
  cbv zeta in H. apply bind_ok in H as (ar&_&H). destruct (rg_contains _ _); [inv H; auto|]. apply bind_ok in H as (v&_&H). apply bind_ok in H as (ms&_&H). destruct (negb _); [inv H; auto|].
  apply (splice_kept K H). cbn [ac_rule]. apply good_made. exact (Ha _ eq_refl).
Qed.
Definition due_good ed : Prop := forall ed1 r m, get_autocomplete env ed = Ok (ed1, Some r) -> In m (ar_matches r) -> good (m_rule m).
Lemma start_good ed ed1 a : due_good ed -> start_autocorrect env ed = Ok (ed1, a) -> forall b, a = Some b -> good (ac_rule b).
Proof.
  unfold start_autocorrect. intros D H b ->. apply bind_ok in H as ([ed2 r]&Hg&H). destruct r as [r|]; [|discriminate]. apply bind_ok in H as (a'&Ha&H). inv H.
  unfold results_start_autocorrect in Ha. apply bind_ok in Ha as (m&Hm&Ha). unfold get_selected in Hm. apply unwrap_ok in Hm. destruct (is_complete_match m); cbn in Ha; [|discriminate]. inv Ha. cbn [ac_rule].
  eapply D; [exact Hg|]. eapply nth_error_In; eauto.
Qed.
Ltac started ed1 a x H Hr D :=
  let Ha := fresh "Ha" in let E := fresh in
  apply bind_ok in H as ([ed1 a]&Ha&H); pose proof (start_good D Ha) as Hr; pose proof (start_autocorrect_only Ha) as (x&E); subst ed1.
Lemma step_kept ed op ed' out : kept ed -> (forall m, due_good (set_selection_mode ed m)) -> gives Q env op -> step env ed op = Ok (ed', out) -> kept ed'.
Proof.
  intros K D0 Hop H. assert (D : due_good ed) by (destruct ed as [i p c s a u]; exact (D0 s)).
  assert (Ka : forall x, kept (set_autocomplete ed x)) by (intros x; apply (kept_same K); reflexivity).
  destruct op; cbn [step gives] in *.
  - apply bind_ok in H as (ed1&Hm&H). inv H. unfold move_caret in Hm. started ed1 a x Hm Hr D.
    apply bind_ok in Hm as (c&_&Hm). apply bind_ok in Hm as (c'&_&Hm). apply bind_ok in Hm as ([ed2 ce]&Hb&Hm). exact (finish_kept (kept_moved (Ka x) Hb) Hm Hr).
  - apply bind_ok in H as ([ed1 b]&Hm&H). inv H. unfold select_with_caret in Hm. started ed1 a x Hm Hr D.
    apply bind_ok in Hm as (c&_&Hm). destruct (c_selection c); [|discriminate]. apply bind_ok in Hm as (ne&_&Hm). destruct ne as [ne|]; [|inv Hm; auto].
    apply bind_ok in Hm as ([ed2 ce]&Hb&Hm). apply bind_ok in Hm as (ed3&Hf&Hm). inv Hm. exact (finish_kept (kept_moved (Ka x) Hb) Hf Hr).
  - apply bind_ok in H as ([ed1 b]&Hm&H). inv H. unfold editor_remove_at_caret in Hm. started ed1 a x Hm Hr D. cbn [set_autocomplete ed_input ed_caret] in Hm.
    apply bind_ok in Hm as (c&Hc&Hm). destruct (c_selection c) as [r|] eqn:Es; [|discriminate]. pose proof (caret_row_good Hc Es) as G.
    apply bind_ok in Hm as (y&Hy&Hm). destruct y as [[es p]|]; [|inv Hm; auto].
    apply bind_ok in Hm as ([ed2 ce]&Hb&Hm). apply bind_ok in Hm as (ed3&Hf&Hm). inv Hm.
    assert (X : exists doc', chain cfg (ed_input ed) es doc' /\ made_of Q doc').
    { assert (Hrr : (r0 <- remove_range r ;; Ok (Some r0)) = Ok (Some (es, p)) -> exists doc', chain cfg (ed_input ed) es doc' /\ made_of Q doc').
      { intros Hq. apply bind_ok in Hq as ([es' p']&Er&Hq). inv Hq. destruct (remove_range_replaces cfg G Er) as (doc'&C&Hn&_).
        exists doc'. split; [exact C|]. exact (made_nodes_replaced Hn (ke_doc K) (@made_nil Q)). }
      assert (Hp : forall d, remove_at_caret_position cfg (rg_start_position r) d = Ok (Some (es, p)) -> exists doc', chain cfg (ed_input ed) es doc' /\ made_of Q doc').
      { intros d Hd. destruct (remove_position_removal (good_start G) Hd) as (doc'&Hrm). exists doc'. exact (removal_made Hrm (ke_doc K)). }
      unfold remove_at_caret in Hy. destruct (negb (rg_is_collapsed r)); [exact (Hrr Hy)|]. destruct m; eauto. }
    destruct X as (doc'&C&Hd). refine (finish_kept (kept_built (Ka x) Hb C Hd) Hf Hr).
  - apply bind_ok in H as (ed1&Hm&H). inv H. unfold insert_at_caret in Hm. started ed1 a x Hm Hr D.
    apply bind_ok in Hm as ([ed2 act]&Hi&Hm). pose proof (insert_kept (Ka x) Hi (made_symbols Hop)) as K2. destruct act as [ce|]; [|inv Hm; auto]. exact (finish_kept K2 Hm Hr).
  - inv H. apply (kept_same K); reflexivity.
  - apply bind_ok in H as ([ed1 b]&Hm&H). inv H. exact (undo_kept K Hm).
  - apply bind_ok in H as ([ed1 b]&Hm&H). inv H. exact (redo_kept K Hm).
  - apply bind_ok in H as (ed1&Hm&H). inv H. unfold start_selection in Hm. started ed1 a x Hm Hr (D0 (Some m)).
    apply bind_ok in Hm as ([ed2 ce]&Hb&Hm). refine (finish_kept (kept_moved _ Hb) Hm Hr). apply (kept_same K); reflexivity.
  - apply bind_ok in H as (ed1&Hm&H). inv H. unfold extend_selection in Hm. started ed1 a x Hm Hr D.
    apply bind_ok in Hm as ([ed2 ce]&Hb&Hm). exact (finish_kept (kept_moved (Ka x) Hb) Hm Hr).
  - inv H. apply (kept_same K); reflexivity.
  - apply bind_ok in H as (s&_&H). inv H. exact K.
  - apply bind_ok in H as ([ed1 b]&Hm&H). inv H. unfold paste in Hm. started ed1 a x Hm Hr D. destruct (negb json); [discriminate|].
    destruct (env_deserialize env data) as [nodes|]; [|inv Hm; auto].
    apply bind_ok in Hm as ([ed2 act]&Hi&Hm). pose proof (insert_kept (Ka x) Hi (Hop _ eq_refl)) as K2. destruct act as [ce|]; [|inv Hm; auto].
    apply bind_ok in Hm as (ed3&Hf&Hm). inv Hm. exact (finish_kept K2 Hf Hr).
  - apply bind_ok in H as ([ed1 b]&Hm&H). inv H. unfold open_autocomplete in Hm. apply bind_ok in Hm as ([ed2 r]&Hg&Hm). inv Hm. apply get_autocomplete_only in Hg as (x&->). auto.
  - apply bind_ok in H as ([ed1 b]&Hm&H). inv H. unfold finish_autocomplete in Hm. destruct (negb accept); [inv Hm; auto|]. apply bind_ok in Hm as ([ed2 r]&Hg&Hm).
    pose proof (get_autocomplete_only Hg) as (x&->). destruct r as [r|]; [|inv Hm; auto]. apply bind_ok in Hm as (m&Hs&Hm). cbv zeta in Hm. apply bind_ok in Hm as (ed3&Hsp&Hm). inv Hm.
    apply (splice_kept (Ka x) Hsp). apply good_made. eapply D; [exact Hg|]. unfold get_selected in Hs. apply unwrap_ok in Hs. eapply nth_error_In; eauto.
  - apply bind_ok in H as ([ed1 b]&Hm&H). inv H. unfold move_in_autocomplete in Hm. apply bind_ok in Hm as ([ed2 r]&Hg&Hm).
    pose proof (get_autocomplete_only Hg) as (x&->). destruct r as [r|]; [|inv Hm; auto]. apply bind_ok in Hm as (m&Hs&Hm). inv Hm. apply (kept_same K); reflexivity.
  - apply bind_ok in H as (c&_&H). inv H. exact K.
  - apply bind_ok in H as ([ed1 t]&Hm&H). inv H. apply parse_step in Hm as (p&->). apply (kept_same K); reflexivity.
  - apply bind_ok in H as (ed1&Hm&H). inv H. exact (splice_kept K Hm Hop).
Qed.
End Ed.

(** Rules that are due have been typed. *)
Lemma concat_length_ge (l : list str) : (forall s, In s l -> s <> []) -> length l <= length (concat l).
Proof.
  induction l as [|s l IH]; intros H; [cbn; lia|]. cbn [concat length]. rewrite app_length.
  assert (s <> []) by (apply H; now left). assert (length l <= length (concat l)) by (apply IH; intros; apply H; now right). destruct s; [congruence|cbn [length]; lia].
Qed.
Section Rules.
Context {SyntaxNode : Type}.
Variable env : Env SyntaxNode.
Variable Q : Part -> Prop.
Definition usable (rule : AutocompleteRule) : Prop :=
  In rule (env_rules env) /\ ((forall s, Q (PartSymbol s) -> s <> []) -> 2 <= length (rule_parser rule)).
Lemma due_usable (ed : MathEditor SyntaxNode) : made_of Q (ed_input ed) -> due_good env usable ed.
Proof.
  intros Hq ed1 r m Hg Hm. destruct (get_autocomplete_inv Hg) as (ms&p&c&Hst&_&_&Hc&range&Es&_&_&Hms). destruct (popup_shown Hst) as (Hperm&_).
  assert (Hin : In m ms) by (eapply Permutation_in; eauto). apply (rules_matches_inv Hms) in Hin as (rule&ms'&Hr&Hm'&Hin).
  destruct (match_sound Hm' Hin) as (syms&rest&(before&Hf)&_&Hp&->&_&Hmin&_). split; [exact Hr|]. intros Hne. rewrite Hp, app_length.
  assert (length syms <= length (concat syms)); [|lia]. apply concat_length_ge. intros s Hs. apply Hne. apply Hq.
  pose proof (caret_row_good Hc Es) as [Gc _]. eapply row_get_parts; [exact (canonical_row Gc)|]. apply in_row_parts. exists (Symbol s). split; [|now left].
  cbn [rg_start_position pos_focus pos_offset] in Hf. rewrite <- (firstn_skipn (rg_start range) (fr_row (rg_focus range))). apply in_app_iff. left. rewrite Hf. apply in_app_iff. right. now apply in_map.
Qed.
Hypothesis Hrules : rules_give Q (env_rules env).
Lemma run_kept ops ed ed' : kept env Q ed -> Forall (gives Q env) ops -> run env ed ops = Ok ed' -> kept env Q ed'.
Proof.
  revert ed. induction ops as [|op ops IH]; intros ed K Hops H; [now inv H|]. cbn [run] in H. apply bind_ok in H as ([ed1 o]&Hs&H). inv Hops. eapply IH; [|eassumption|exact H].
  eapply (@step_kept _ env Q usable); [|exact K| |eassumption|exact Hs]. 
  - intros rule [Hr Hl]. now apply Hrules.
  - intros m. apply due_usable. cbn. apply K.
Qed.
End Rules.

(** In a page *)
Section Page.
Variable env : Env SyntaxNode.
Variable renderers : Renderers.
Variable normalize : str -> str.
Variable segment : str -> list str.
Variable Q : Part -> Prop.
Hypothesis Hrules : rules_give Q (env_rules env).
Hypothesis Hsegment : forall text s, In s (segment text) -> Q (PartSymbol s).
Definition kept_page (c : Component) : Prop := forall ed, co_editor c = Some ed -> kept env Q ed.

Lemma redraw_gives b : Forall (gives Q env) (redraw_calls b).
Proof. destruct b; repeat constructor. Qed.
Lemma caret_gives b : Forall (gives Q env) (caret_calls b).
Proof. destruct b; repeat constructor. Qed.
Lemma load_gives c b x : (forall nodes range, (exists y, x = Some y /\ from_element normalize segment y = Ok (nodes, range)) -> made_of Q nodes) -> Forall (gives Q env) (load_calls normalize segment c b x).
Proof.
  intros H. destruct x as [x|]; [|constructor]. cbn [load_calls]. destruct (from_element normalize segment x) as [[nodes range]|] eqn:E; [|constructor].
  constructor; [|apply redraw_gives]. cbn. eapply H. eauto.
Qed.
Lemma event_calls_give c e : event_gives Q env normalize segment e -> Forall (gives Q env) (event_calls normalize segment c e).
Proof.
  intros H. pose proof (redraw_gives (co_connected c)) as R. pose proof (caret_gives (co_connected c)) as C.
  assert (P : forall p f, (forall pos, Forall (gives Q env) (f pos)) -> Forall (gives Q env) (at_point c p f)) by (intros p f Hf; unfold at_point; destruct (shown_at c p); [apply Hf|constructor]).
  destruct e as [k|t| |b|b|[[j t]|]|pr p|pr p|d p|pr p|x| |x]; cbn [event_calls event_gives] in *; try apply Forall_nil.
  - destruct k; cbn [key_op]; [constructor; [exact I|]..|]; exact R.
  - induction (co_tasks c) as [|t l IH]; [constructor|]. cbn [flat_map]. apply Forall_app. split; [|exact IH].
    destruct t as [| |[data|]|]; cbn [task_op]; try apply Forall_nil; (constructor; [|exact R]); try exact I. cbn. intros s. apply Hsegment.
  - destruct b; repeat constructor.
  - destruct b; [|constructor]. do 2 (constructor; [exact I|]). exact R.
  - constructor; [exact H|exact R].
  - destruct pr; [|constructor]. apply P. intros pos. constructor; [exact I|exact R].
  - destruct pr; [|constructor]. apply P. intros pos. do 2 (constructor; [exact I|]). exact C.
  - destruct (co_pointer_down c); [|constructor]. apply P. intros pos. destruct d as [|[|[|[|d]]]]; try apply Forall_nil; (constructor; [exact I|exact C]).
  - destruct pr; [|constructor]. destruct (co_pointer_down c); [|constructor]. apply P. intros pos. constructor; [exact I|exact C].
  - apply load_gives. intros nodes range (y&->&E). exact (H _ _ E).
  - apply load_gives. intros nodes range (y&->&E). exact (H _ _ E).
Qed.
Lemma dispatch_kept c e : kept_page c -> event_gives Q env normalize segment e -> kept_page (fst (dispatch env renderers normalize segment e c)).
Proof.
  intros K He ed' E. destruct (dispatch env renderers normalize segment e c) as [c' r] eqn:D. cbn [fst] in E.
  destruct (co_editor c) as [ed|] eqn:E0.
  - pose proof (events_outcome E0 D) as O. rewrite E in O. apply outcome_run in O as (before&after&Ec&Hr).
    pose proof (event_calls_give c He) as G. rewrite Ec in G. apply Forall_app in G as [G _]. exact (run_kept Hrules (K _ E0) G Hr).
  - pose proof (@no_editor env renderers normalize segment c e E0) as N. rewrite D in N. cbn [fst] in N. congruence.
Qed.
Lemma new_kept connected c : component_new env renderers connected = Ok c -> kept_page c.
Proof.
  intros Hn ed0 E0. unfold component_new in Hn. apply bind_ok in Hn as ([ed1 t]&Et&Hn). apply bind_ok in Hn as (x&_&Hn). set (c1 := mkComponent _ _ _ _ _ _ _ _ _) in Hn.
  destruct (@does_update env renderers c1 ed1 eq_refl) as [_ O]. destruct (update_input env renderers c1) as [c2 [[]|k]]; inversion Hn; subst c2. cbn [fst snd] in O. rewrite E0 in O. apply outcome_run in O as (before&after&E&Hr).
  pose proof (redraw_gives (co_connected c1)) as G. rewrite E in G. apply Forall_app in G as [G _]. refine (run_kept Hrules _ G Hr).
  apply parse_step in Et as (p&->). eapply kept_same; [exact (kept_new env Q)|reflexivity|reflexivity].
Qed.
Lemma page_kept connected c l : component_new env renderers connected = Ok c -> Forall (event_gives Q env normalize segment) l -> kept_page (run_events env renderers normalize segment c l).
Proof.
  intros H. apply new_kept in H. revert c H. induction l as [|e l IH]; intros c K Hl; [exact K|]. inversion Hl; subst. cbn [run_events]. apply IH; [|assumption]. now apply dispatch_kept.
Qed.
End Page.
