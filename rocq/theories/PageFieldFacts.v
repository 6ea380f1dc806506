(** A page with a row of symbols is a text field (C96). *)
From Coq Require Import String.
From Verif Require Import Base Str Grid Node Focus Edit Caret Autocomplete Editor Rules NameMap Syntax Pratt Grammar SyntaxFind Render Layout Json FromMathML
  Spec SpecSyntax SpecAuto SpecMove SpecEditor SpecSafety SpecText SpecSelect SpecRemove SpecLeave SpecField SpecRender SpecDom SpecView SpecClick Component SpecComponent SpecEvent SpecPageField
  BaseFacts TreeFacts EditFacts MoveFacts OrderFacts ParseFacts ParseTotal GrammarFacts FindFacts RenderFacts EditorFacts HistoryFacts PopupFacts OpFacts SpliceFacts TypingFacts SafetyFacts SafetyProofs
  TextFacts PropsRender PropsSafety PropsEditor ComponentFacts ComponentProofs EventFacts FieldFacts.
Open Scope list_scope.
Open Scope nat_scope.
Set Implicit Arguments.
Unset Strict Implicit.

(** Documents that consist of symbols can be drawn. *)
Lemma symbols_row t p row : row_get (map Symbol t) p = Some row -> p = [] /\ row = map Symbol t.
Proof.
  destruct p as [|[i j] p]; cbn; [intros H; now inv H|]. intros H. exfalso. destruct (nth_error (map Symbol t) i) as [n|] eqn:E; [|discriminate].
  apply nth_error_In in E. apply in_map_iff in E as (x&<-&_). discriminate.
Qed.
Lemma symbols_drawn xs xc t : exists x, draw xs xc (map Symbol t) = Ok x.
Proof.
  assert (S : forall p row i v c, row_get (map Symbol t) p = Some row -> nth_error row i = Some (Container v c) -> False).
  { intros p row i v c H E. apply symbols_row in H as [_ ->]. apply nth_error_In in E. apply in_map_iff in E as (x&E&_). discriminate. }
  apply C50_drawn_partial.
  - apply wf_symbols.
  - intros p row H k v c E. elim (S _ _ _ _ _ H E).
  - intros p row H k (v&c&E&_). elim (S _ _ _ _ _ H E).
  - intros p row H k (v&c&E&_). elim (S _ _ _ _ _ H E).
Qed.
(** Every point is at an offset in the text. *)
Lemma click_total xs xc t p : exists k, click xs xc t p = Some k /\ k <= List.length t.
Proof.
  destruct (symbols_drawn xs xc t) as (x&D). unfold click. rewrite D.
  destruct (C54_click_partial xs xc _ x (to_bounds p) (to_place p) (wf_symbols (vs := t)) D) as (q&o&row&El&Hr&Ho).
  - intros q row Hq Hr. apply symbols_row in Hr as [-> _]. now elim Hq.
  - apply symbols_row in Hr as [-> ->]. rewrite El. rewrite map_length in Ho. eauto.
Qed.
Lemma symbols_of_inv nodes : forall vs, symbols_of nodes = Some vs -> nodes = map Symbol vs /\ Forall (fun s => s <> []) vs.
Proof.
  induction nodes as [|n nodes IH]; intros vs H; cbn in H; [inv H; split; [reflexivity|apply Forall_nil]|]. destruct n as [v g|s]; [discriminate|].
  destruct (str_eqb s []) eqn:E; [discriminate|]. destruct (symbols_of nodes) as [ws|]; [|discriminate]. inv H. destruct (IH _ eq_refl) as [-> F]. split; [reflexivity|].
  constructor; [|exact F]. intros ->. discriminate.
Qed.

Section Page.
Variable cfg : Cfg.
Variable xs xc : N -> bool.
Variable normalize : str -> str.
Variable segment : str -> list str.
Variable start : bool.
Notation env := (page cfg xs xc).
Notation rs := default_renderers.
Notation Editor := (MathEditor SyntaxNode).
Notation dispatch := (dispatch env rs normalize segment).
Notation run_events := (run_events env rs normalize segment).
Notation update_input := (update_input env rs).
Notation render_carets := (render_carets env).
Notation do_task := (do_task env rs segment).
Notation run_tasks := (run_tasks env rs segment).
Notation call := (call env).
Notation inv_field := (inv_field env [] [] start).
Notation field_run := (field_run cfg start []).

Let Hasc : Forall ascii_rule (env_rules env) := proj1 C20_default_rules.
Let Hnil : proper nonempty [].
Proof. apply proper_nil. Qed.

Lemma inv_doc s ed : inv_field s ed -> ed_input ed = map Symbol (f_text (s_field s)).
Proof. intros I. pose proof (if_row I) as H. cbn in H. now inv H. Qed.
Lemma inv_parsed s ed t : inv_field s ed -> inv_field s (set_parsed ed t).
Proof. intros [H1 H2 H3 H4 H5]. split; assumption. Qed.
Lemma inv_placed s ed : inv_field s ed -> placed ed.
Proof. intros I. split; [exact (if_wf Hnil I)|exact (if_valid I)]. Qed.
Lemma inv_draw s ed : inv_field s ed -> exists x, draw xs xc (ed_input ed) = Ok x.
Proof. intros I. rewrite (inv_doc I). apply symbols_drawn. Qed.
Definition kept (s : Session) (ed : Editor) : Prop := inv_field s ed /\ fresh env ed.
Definition good (s : Session) (c : Component) : Prop := up_to_date env rs c /\ exists ed, co_editor c = Some ed /\ kept s ed.
Lemma kept_query s ed op ed' out : op = OpGetCaret \/ op = OpGetSyntaxTree -> kept s ed -> step env ed op = Ok (ed', out) -> kept s ed'.
Proof.
  intros Hop [I F] H. split; [|eapply step_fresh; eauto]. destruct Hop as [-> | ->]; cbn [step] in H.
  - apply bind_ok in H as (sel&_&H). now inv H.
  - apply bind_ok in H as ([ed1 t]&Ht&H). inv H. apply parse_step in Ht as (p&->). now apply inv_parsed.
Qed.
Lemma update_good s c ed : co_editor c = Some ed -> kept s ed -> exists c', update_input c = (c', Ok tt) /\ good s c'.
Proof.
  intros E [I F]. destruct (update_placed E (inv_placed I) F (inv_draw I)) as (c'&H). exists c'. split; [exact H|].
  assert (F0 : on_editor (fresh env) c) by (intros ed0 E0; rewrite E in E0; inv E0; exact F).
  destruct (update_ok H F0) as (U&_&_). split; [exact U|]. destruct U as (ed'&E'&_). exists ed'. split; [exact E'|].
  pose proof (@keeps_update_input env rs (kept s) (@kept_query s) c) as K. rewrite H in K. apply K; [|exact E']. intros ed0 E0. rewrite E in E0. inv E0. split; assumption.
Qed.
Lemma carets_good s c ed : co_editor c = Some ed -> kept s ed -> shows env rs c (ed_input ed) -> exists c', render_carets c = (c', Ok tt) /\ good s c'.
Proof.
  intros E [I F] Sh. destruct (carets_total E (inv_placed I) Sh) as (c'&H). exists c'. split; [exact H|]. destruct (carets_show rs H E) as (E'&_&S'&K). split; [exists ed; auto|]. exists ed. repeat split; auto; apply I.
Qed.
(** One operation *)
Lemma op_kept s s' c ed op : co_editor c = Some ed -> kept s ed -> Forall (fun s => s <> []) (typed_symbols op) -> leaves_alone env ed op -> field_run s [op] = Some s' ->
  exists ed' out, call op c = (set_editor (Some ed') c, Ok out) /\ step env ed op = Ok (ed', out) /\ kept s' ed'.
Proof.
  intros E [I F] Hv Hq H. cbn [SpecField.field_run] in H. destruct (field_step cfg start [] s op) as [s1|] eqn:Es; [|discriminate]. inv H.
  destruct (field_step_inv Hasc Hnil I Hv Hq Es) as (ed'&out&Hs&I'). exists ed', out. split; [unfold Component.call; now rewrite E, Hs|]. split; [exact Hs|]. split; [exact I'|eapply step_fresh; eauto].
Qed.
Lemma op_good s s' c ed op : co_editor c = Some ed -> kept s ed -> Forall (fun s => s <> []) (typed_symbols op) -> leaves_alone env ed op -> field_run s [op] = Some s' ->
  exists c', handle (call op) (fun _ => update_input) c = (c', Ok tt) /\ good s' c'.
Proof.
  intros E K Hv Hq H. destruct (op_kept E K Hv Hq H) as (ed'&out&Hc&_&K'). rewrite (handle_eq _ Hc). eapply update_good; [|exact K']. reflexivity.
Qed.
(** Pasting *)
Lemma paste_kept s ed data vs : kept s ed -> deserialize_input_nodes 4294967295 data = Some (map Symbol vs) -> Forall (fun s => s <> []) vs ->
  exists ed' s', step env ed (OpPaste data true) = Ok (ed', OutNone _) /\ kept s' ed' /\ field_run s [OpInsertAtCaret vs] = Some s'.
Proof.
  intros [I F] Hd Hv. destruct (@pasted_wf _ env ed _ data (map Symbol vs) (if_get Hnil I) (if_matcher Hasc Hnil I) (if_wf Hnil I) (wf_symbols (vs := vs)) Hd) as (ed'&ce&Hs&R&Hc&A&Ha&Hb).
  exists ed'. eexists. split; [exact Hs|]. split; [|reflexivity]. split; [|eapply step_fresh; eauto]. rewrite map_length in Hc.
  eapply (edit_inv I); [reflexivity|exact Hv|exact R|exact Hc|exact A|exact Ha|exact Hb].
Qed.
(** Tasks *)
Lemma all_along_app (P : Editor -> Op -> Prop) a : forall ed b ed', all_along env P ed (a ++ b) -> run env ed a = Ok ed' -> all_along env P ed' b.
Proof.
  induction a as [|op a IH]; intros ed b ed' H Hr; cbn in Hr; [inv Hr; exact H|]. apply bind_ok in Hr as ([ed1 out]&Hs&Hr). destruct H as [_ H]. exact (IH _ _ _ (H _ _ Hs) Hr).
Qed.
Lemma nonempty_check vs : forallb (fun x : str => negb (str_eqb x [])) vs = true -> Forall (fun s : str => s <> []) vs.
Proof. intros H. rewrite forallb_forall in H. apply Forall_forall. intros x Hx ->. specialize (H _ Hx). discriminate. Qed.
Lemma pf_run_inv s ops s' : pf_run cfg start s ops = Some s' -> field_run (pf_session s) ops = Some (pf_session s') /\ pf_tasks s' = pf_tasks s /\ pf_down s' = pf_down s /\ pf_clipboard s' = pf_clipboard s.
Proof. unfold pf_run. destruct (field_run (pf_session s) ops) as [f|]; [|discriminate]. intros H. inv H. auto. Qed.
Lemma pf_task_inv s t s' : pf_task cfg segment start s t = Some s' -> pf_tasks s' = pf_tasks s /\ pf_down s' = pf_down s /\ pf_clipboard s' = pf_clipboard s /\
  match task_op segment t with
  | Some op => Forall (fun s => s <> []) (typed_symbols op) /\ field_run (pf_session s) [op] = Some (pf_session s')
  | None => s' = s
  end.
Proof.
  destruct t as [| |[data|]|]; cbn [pf_task task_op]; intros H.
  - apply pf_run_inv in H as (H&H1&H2&H3). repeat split; auto. apply Forall_nil.
  - apply pf_run_inv in H as (H&H1&H2&H3). repeat split; auto. apply Forall_nil.
  - unfold pf_insert in H. destruct (forallb _ _) eqn:E; [|discriminate]. apply pf_run_inv in H as (H&H1&H2&H3). repeat split; auto. now apply nonempty_check.
  - now inv H.
  - now inv H.
Qed.
Lemma good_tasks s l c : good s c -> good s (set_tasks l c).
Proof. intros H. destruct c. exact H. Qed.
Lemma task_good s s' t c : good (pf_session s) c -> pf_task cfg segment start s t = Some s' ->
  (forall ed, co_editor c = Some ed -> all_along env (leaves_alone env) ed (match task_op segment t with Some op => op :: redraw_calls (co_connected c) | None => [] end)) ->
  exists c', do_task t c = (c', Ok tt) /\ good (pf_session s') c'.
Proof.
  intros G H Hq. pose proof (pf_task_inv H) as (_&_&_&Hop). pose proof G as (_&ed&E&K). specialize (Hq _ E).
  destruct t as [| |[data|]|]; cbn [Component.do_task task_op] in *.
  1-3: destruct Hop as [Hv Hr]; destruct Hq as [Hq _]; exact (op_good E K Hv Hq Hr).
  all: subst s'; eexists; (split; [reflexivity|exact G]).
Qed.
Lemma tasks_good l : forall s s' c, good (pf_session s) c -> pf_run_tasks cfg segment start s l = Some s' ->
  (forall ed, co_editor c = Some ed -> all_along env (leaves_alone env) ed (flat_map (fun t => match task_op segment t with Some op => op :: redraw_calls (co_connected c) | None => [] end) l)) ->
  exists c', run_tasks l c = (c', Ok tt) /\ good (pf_session s') c'.
Proof.
  induction l as [|t l IH]; intros s s' c G H Hq; cbn [pf_run_tasks Component.run_tasks] in *; [inv H; eexists; split; [reflexivity|exact G]|].
  destruct (pf_task cfg segment start s t) as [s1|] eqn:Et; [|discriminate]. rewrite handle_modify. cbn [flat_map] in Hq. pose proof G as (_&ed&E&_).
  assert (Ec : co_connected (set_tasks l c) = co_connected c) by (destruct c; reflexivity). assert (E1 : co_editor (set_tasks l c) = Some ed) by (destruct c; exact E).
  assert (Hpre : forall a b ed0, all_along env (leaves_alone env) ed0 (a ++ b) -> all_along env (leaves_alone env) ed0 a).
  { clear. induction a as [|op a IH]; intros b ed0 H; [exact I|]. destruct H as [H1 H2]. split; [exact H1|]. intros ed' out Hs. exact (IH _ _ (H2 _ _ Hs)). }
  destruct (@task_good s s1 t (set_tasks l c) (good_tasks l G) Et) as (c1&H1&G1).
  { intros ed0 E0. rewrite E1 in E0. inv E0. rewrite Ec. exact (Hpre _ _ _ (Hq _ E)). }
  rewrite (handle_eq _ H1). apply (IH s1 s' c1 G1 H). intros ed1 Ed1.
  pose proof (@does_task env rs segment t (set_tasks l c) ed E1) as [Hcc Ho]. rewrite H1 in Hcc, Ho. cbn [fst snd] in Hcc, Ho. rewrite Ed1 in Ho. inversion Ho as [ed2 Hr| |]; subst.
  rewrite Hcc, Ec. rewrite Ec in Hr. exact (all_along_app (Hq _ E) Hr).
Qed.
(** What is shown at a point *)
Lemma good_point s c p k : good s c -> click xs xc (f_text (s_field s)) p = Some k -> pointer_position p c = (c, Ok (mkMinPos [] k)) /\ shown_at c p = Some (mkMinPos [] k).
Proof.
  intros ((ed&E&Sh&_)&ed0&E0&I&_) H. rewrite E in E0. inv E0. apply shows_draw in Sh as (x&D&Ex). rewrite (inv_doc I) in D. unfold click in H. rewrite D in H.
  unfold pointer_position, shown_at. rewrite handle_get, Ex. unfold handle, lift. destruct (get_layout_position _ _ x) as [[[|] o]|]; inv H. split; reflexivity.
Qed.
Lemma good_down s b c : good s c -> good s (set_pointer_down b c).
Proof. intros H. destruct c. exact H. Qed.
Lemma good_clipboard s b c : good s c -> good s (set_clipboard b c).
Proof. intros H. destruct c. exact H. Qed.
(** The document stays as it is. *)
Lemma moved_doc s ed s' ed' : kept s ed -> kept s' ed' -> f_text (s_field s') = f_text (s_field s) -> ed_input ed' = ed_input ed.
Proof. intros [I _] [I' _] H. now rewrite (inv_doc I), (inv_doc I'), H. Qed.
Lemma moved_text s op s' : match op with OpStartSelection _ _ | OpExtendSelection _ | OpFinishSelection => True | _ => False end -> field_run s [op] = Some s' -> f_text (s_field s') = f_text (s_field s).
Proof.
  intros Hop H. cbn [SpecField.field_run] in H. destruct (field_step cfg start [] s op) as [s1|] eqn:E; [|discriminate]. inv H.
  assert (A : forall f a b f', f_at f a b = Some f' -> f_text f' = f_text f) by (intros f a b f'; unfold f_at; destruct (_ && _); [|discriminate]; intros H; now inv H).
  destruct op; try contradiction; cbn [field_step field_edit field_move] in E.
  - destruct p as [q k]. destruct (rowindices_eqb q []); [|discriminate]. destruct (f_at _ _ _) as [f'|] eqn:Ef; [|discriminate]. inv E. exact (A _ _ _ _ Ef).
  - destruct p as [q k]. destruct (rowindices_eqb q []); [|discriminate]. destruct (f_at _ _ _) as [f'|] eqn:Ef; [|discriminate]. inv E. exact (A _ _ _ _ Ef).
  - inv E. reflexivity.
Qed.
(** An operation after which only the caret is drawn *)
Lemma drag_good s s' c op : good s c -> match op with OpStartSelection _ _ | OpExtendSelection _ => True | _ => False end ->
  (forall ed, co_editor c = Some ed -> leaves_alone env ed op) -> field_run s [op] = Some s' ->
  exists c', handle (call op) (fun _ => render_carets) c = (c', Ok tt) /\ good s' c'.
Proof.
  intros ((ed&E&Sh&Kc)&ed0&E0&K) Hop Hq H. rewrite E in E0. inv E0. destruct (@op_kept s s' c ed0 op E K) as (ed'&out&Hc&_&K'); auto; [destruct op; try contradiction; apply Forall_nil|].
  rewrite (handle_eq _ Hc). eapply carets_good; [reflexivity|exact K'|]. rewrite (moved_doc K K'); [exact Sh|]. apply moved_text with (op := op); [destruct op; auto|exact H].
Qed.
Lemma field_run_two s a b s' : field_run s [a; b] = Some s' -> exists s1, field_run s [a] = Some s1 /\ field_run s1 [b] = Some s'.
Proof. cbn [SpecField.field_run]. destruct (field_step cfg start [] s a) as [s1|]; [|discriminate]. intros H. exists s1. split; [reflexivity|exact H]. Qed.
(** What is copied *)
Lemma copy_kept s ed : kept s ed -> step env ed OpCopy = Ok (ed, OutText _ (serialize_input_nodes (map Symbol (f_selected (s_field s))))).
Proof.
  intros [I _]. destruct (copied env (if_get Hnil I)) as (vs&(row&Hr&_&Ev)&Hs). rewrite Hs. do 3 f_equal. cbn [mr_row] in Hr. rewrite (if_row I) in Hr. inv Hr.
  unfold f_selected. rewrite map_firstn, map_skipn. reflexivity.
Qed.

(** ** Every event *)
Definition remembers (s : PageField) (c : Component) : Prop := co_tasks c = pf_tasks s /\ co_pointer_down c = pf_down s /\ co_clipboard c = pf_clipboard s.
Lemma event_good e s s' c : good (pf_session s) c -> remembers s c -> pf_event cfg xs xc segment start s e = Some s' ->
  (forall ed, co_editor c = Some ed -> all_along env (leaves_alone env) ed (event_calls normalize segment c e)) ->
  exists c', dispatch e c = (c', Ok tt) /\ good (pf_session s') c' /\ remembers s' c'.
Proof.
  intros G (Mt&Md&Mc) H Hq. pose proof G as (U&ed&E&K). specialize (Hq _ E).
  assert (D : (exists c', dispatch e c = (c', Ok tt) /\ good (pf_session s') c') /\
    pf_down s' = pointer_after c e /\ pf_clipboard s' = clipboard_after env c e /\ pf_tasks s' = match e with EvBeforeInput t => co_tasks c ++ [t] | EvTimer => [] | _ => co_tasks c end).
  { rewrite Mt. unfold clipboard_after, pointer_after. rewrite Md, Mc, E.
    assert (St : s' = s -> dispatch e c = (c, Ok tt) -> exists c', dispatch e c = (c', Ok tt) /\ good (pf_session s') c') by (intros -> Hd; eauto).
    destruct e as [k|t| |[]|[]|[[json text]|]|[] p|[] p|d p|[] p|m| |m]; cbn [pf_event event_calls] in H, Hq.
    - destruct (key_op k) as [op|] eqn:Ek.
      + apply pf_run_inv in H as (H&->&->&->). split; [|auto]. destruct Hq as [Hq _]. destruct (@op_good (pf_session s) (pf_session s') c ed op E K) as (c'&Hc&G'); auto.
        { destruct k; inv Ek; apply Forall_nil. }
        exists c'. split; [|exact G']. cbn [Component.dispatch]. unfold on_key. destruct k; inv Ek; rewrite handle_assoc; exact Hc.
      + inv H. split; [|auto]. destruct k; try discriminate. cbn [Component.dispatch]. unfold on_key. rewrite handle_ret. exact (update_good E K).
    - inv H. cbn [set_pf_tasks pf_down pf_clipboard pf_tasks pf_session]. split; [|auto]. cbn [Component.dispatch]. rewrite handle_get. eexists. split; [reflexivity|]. now apply good_tasks.
    - cbn [Component.dispatch]. rewrite handle_get. rewrite Mt in *.
      assert (M : forall l s0 s1, pf_run_tasks cfg segment start s0 l = Some s1 -> pf_tasks s1 = pf_tasks s0 /\ pf_down s1 = pf_down s0 /\ pf_clipboard s1 = pf_clipboard s0).
      { clear. induction l as [|t l IH]; intros s0 s1 H; cbn in H; [now inv H|]. destruct (pf_task cfg segment start s0 t) as [s2|] eqn:Et; [|discriminate].
        apply pf_task_inv in Et as (E1&E2&E3&_). destruct (IH _ _ H) as (->&->&->). auto. }
      destruct (M _ _ _ H) as (M1&M2&M3). cbn in M1, M2, M3. split; [|auto]. eapply tasks_good; [|exact H|].
      + exact G.
      + intros ed0 E0. rewrite E in E0. inv E0. exact Hq.
    - inv H. cbn [pf_copy pf_down pf_clipboard pf_tasks pf_session]. rewrite (copy_kept K). split; [|auto]. cbn [Component.dispatch]. unfold handle_copy.
      unfold Component.call. unfold handle at 1. rewrite E, (copy_kept K). eexists. split; [reflexivity|]. rewrite set_editor_same by exact E. now apply good_clipboard.
    - inv H. auto.
    - apply pf_run_inv in H as (H&->&->&->). cbn [pf_copy pf_down pf_clipboard pf_tasks pf_session] in *. rewrite (copy_kept K). split; [|auto]. cbn [Component.dispatch].
      destruct Hq as [_ Hq]. specialize (Hq _ _ (copy_kept K)). destruct Hq as [Hq _].
      unfold handle_copy. rewrite handle_assoc. unfold Component.call at 1. unfold handle at 1. rewrite E, (copy_kept K). rewrite set_editor_same by exact E. rewrite handle_modify.
      apply (@op_good (pf_session s) (pf_session s') (set_clipboard (Some (serialize_input_nodes (map Symbol (f_selected (s_field (pf_session s)))))) c) ed); auto; try (destruct c; exact E); try exact H. apply Forall_nil.
    - inv H. auto.
    - destruct (deserialize_input_nodes _ _) as [nodes|] eqn:Ed; [|discriminate]. destruct (symbols_of nodes) as [vs|] eqn:Ev; [|discriminate]. apply symbols_of_inv in Ev as [-> Fv].
      apply pf_run_inv in H as (H&->&->&->). split; [|auto]. cbn [Component.dispatch]. destruct (paste_kept K Ed Fv) as (ed'&s1&Hs&K1&H1). assert (X : s1 = pf_session s') by congruence. subst s1. clear H1.
      rewrite (@str_nil str json text json). unfold call_paste. rewrite handle_assoc. unfold Component.call. unfold handle at 1. rewrite E, Hs. rewrite handle_ret.
      eapply update_good; [reflexivity|exact K1].
    - inv H. auto.
    - unfold pf_at in H. cbn [set_pf_down pf_text pf_session] in H. unfold pf_text in H. cbn [pf_session] in H. destruct (click xs xc _ p) as [k|] eqn:Ek; [|discriminate]. apply pf_run_inv in H as (H&->&->&->). cbn [pf_session pf_down pf_clipboard pf_tasks set_pf_down] in *.
      destruct (good_point G Ek) as [Hp Hsh]. unfold at_point in Hq. rewrite Hsh in *. split; [|auto]. cbn [Component.dispatch]. rewrite (handle_eq _ Hp), handle_modify. destruct Hq as [Hq _].
      apply (@op_good (pf_session s) (pf_session s') (set_pointer_down true c) ed); auto; try (destruct c; exact E). apply Forall_nil.
    - inv H. auto.
    - unfold pf_at in H. cbn [set_pf_down pf_text pf_session] in H. unfold pf_text in H. cbn [pf_session] in H. destruct (click xs xc _ p) as [k|] eqn:Ek; [|discriminate]. apply pf_run_inv in H as (H&->&->&->). cbn [pf_session pf_down pf_clipboard pf_tasks set_pf_down] in *.
      destruct (good_point G Ek) as [_ Hsh]. unfold at_point in Hq. rewrite Hsh in *. split; [|auto]. cbn [Component.dispatch]. rewrite handle_modify.
      destruct (good_point (good_down false G) Ek) as [Hp _]. rewrite (handle_eq _ Hp). apply field_run_two in H as (s1&H1&H2). destruct Hq as [Hq _].
      assert (E' : co_editor (set_pointer_down false c) = Some ed) by (destruct c; exact E).
      destruct (@op_kept (pf_session s) s1 _ ed (OpExtendSelection (mkMinPos [] k)) E' K) as (ed1&out&Hc&_&K1); auto; [apply Forall_nil|]. rewrite (handle_eq _ Hc).
      destruct (@op_kept s1 (pf_session s') (set_editor (Some ed1) (set_pointer_down false c)) ed1 OpFinishSelection eq_refl K1) as (ed2&out2&Hc2&_&K2); auto; [apply Forall_nil|exact I|]. rewrite (handle_eq _ Hc2).
      eapply carets_good; [reflexivity|exact K2|]. destruct U as (ed0&E0&Sh&_). rewrite E in E0. inv E0. rewrite (moved_doc K K2); [destruct c; exact Sh|].
      rewrite (@moved_text _ OpFinishSelection _ I H2). exact (@moved_text _ (OpExtendSelection (mkMinPos [] k)) _ I H1).
    - inv H. auto.
    - cbn [Component.dispatch]. rewrite handle_get, Md. destruct (pf_down s) eqn:Ed; cbn [andb] in H; [|inv H; rewrite Ed; split; [eexists; split; [reflexivity|exact G]|auto]].
      assert (Hpt : exists k, click xs xc (f_text (s_field (pf_session s))) p = Some k) by (destruct (click_total xs xc (f_text (s_field (pf_session s))) p) as (k&Hk&_); eauto). destruct Hpt as (k&Ek).
      destruct (good_point G Ek) as [Hp Hsh]. rewrite (handle_eq _ Hp). unfold at_point in Hq. rewrite Md, Hsh in Hq.
      destruct (d =? 2) eqn:E2; [|destruct (d =? 3) eqn:E3]; cbn [orb] in H.
      + apply Nat.eqb_eq in E2. subst d. unfold pf_at, pf_text in H. rewrite Ek in H. apply pf_run_inv in H as (H&->&->&->). split; [|auto].
        apply drag_good with (s := pf_session s); [exact G|exact I| |exact H]. intros ed0 E0. rewrite E in E0. inv E0. exact (proj1 Hq).
      + apply Nat.eqb_eq in E3. subst d. unfold pf_at, pf_text in H. rewrite Ek in H. apply pf_run_inv in H as (H&->&->&->). split; [|auto].
        apply drag_good with (s := pf_session s); [exact G|exact I| |exact H]. intros ed0 E0. rewrite E in E0. inv E0. exact (proj1 Hq).
      + inv H. split; [eexists; split; [reflexivity|exact G]|auto].
    - cbn [Component.dispatch]. rewrite handle_get, Md. cbn [andb]. rewrite Md in Hq. destruct (pf_down s) eqn:Ed; [|inv H; rewrite Ed; split; [eexists; split; [reflexivity|exact G]|auto]].
      unfold pf_at, pf_text in H. destruct (click xs xc _ p) as [k|] eqn:Ek; [|discriminate]. apply pf_run_inv in H as (H&->&->&->).
      destruct (good_point G Ek) as [Hp Hsh]. rewrite (handle_eq _ Hp). unfold at_point in Hq. rewrite Hsh in Hq. split; [|auto].
      apply drag_good with (s := pf_session s); [exact G|exact I| |exact H]. intros ed0 E0. rewrite E in E0. inv E0. exact (proj1 Hq).
    - inv H. auto.
    - discriminate H.
    - inv H. split; [|auto]. cbn [Component.dispatch]. eexists. split; [reflexivity|]. destruct U as (ed0&E0&Sh&_). split; [exists ed0; split; [exact E0|split; [exact Sh|discriminate]]|]. exists ed. auto.
    - discriminate H. }
  destruct D as ((c'&Hd&G')&M1&M2&M3). exists c'. split; [exact Hd|]. split; [exact G'|]. destruct (events_memory Hd) as (P1&_&P3&P4).
  split; [|split; congruence]. rewrite M3. unfold tasks_after in P4. destruct e; exact P4.
Qed.
Lemma events_good l : forall s s' c, good (pf_session s) c -> remembers s c -> pf_events cfg xs xc segment start s l = Some s' -> events_alone env rs normalize segment c l ->
  events_quiet env rs normalize segment c l /\ good (pf_session s') (run_events c l) /\ remembers s' (run_events c l).
Proof.
  induction l as [|e l IH]; intros s s' c G M H Hq; cbn [pf_events Component.run_events events_quiet] in *; [inv H; auto|].
  destruct (pf_event cfg xs xc segment start s e) as [s1|] eqn:Es; [|discriminate]. destruct Hq as [Hq1 Hq2]. destruct (event_good G M Es Hq1) as (c1&Hd&G1&M1).
  rewrite Hd in *. cbn [fst snd] in *. destruct (IH _ _ _ G1 M1 H Hq2) as (A&B&C). auto.
Qed.
Lemma page_field c ed f l s' : reached env rs normalize segment c -> up_to_date env rs c -> co_editor c = Some ed ->
  ed_input ed = map Symbol (f_text f) -> Forall (fun s => s <> []) (f_text f) -> ed_caret ed = field_caret [] f -> f_anchor f <= List.length (f_text f) -> f_cursor f <= List.length (f_text f) ->
  (start = true -> ed_undo ed = undo_new) -> events_alone env rs normalize segment c l ->
  pf_events cfg xs xc segment start (mkPageField (mkSession [] f []) (co_tasks c) (co_pointer_down c) (co_clipboard c)) l = Some s' ->
  events_quiet env rs normalize segment c l /\ shows_page env rs s' (run_events c l).
Proof.
  intros R U E Hdoc Hne Hcar L1 L2 Hst Hq H.
  assert (I : inv_field (mkSession [] f []) ed).
  { split; cbn [s_field s_past s_future].
    - exists []. rewrite Hdoc. constructor.
    - exact Hcar.
    - repeat split; assumption.
    - constructor. intros X. now rewrite (Hst X).
    - constructor. intros X. now rewrite (Hst X). }
  assert (G : good (pf_session (mkPageField (mkSession [] f []) (co_tasks c) (co_pointer_down c) (co_clipboard c))) c).
  { split; [exact U|]. exists ed. split; [exact E|]. split; [exact I|]. apply (reachable_fresh (env := env)). eapply reached_reachable; eauto. }
  destruct (@events_good l _ s' c G) as (A&(U'&ed'&E'&I'&_)&M1&M2&M3); auto; [repeat split|]. split; [exact A|].
  split; [|auto]. exists ed'. split; [exact E'|]. split; [exact (inv_doc I')|exact (if_caret I')].
Qed.
End Page.
(** A new element shows an empty field. *)
Lemma new_empty cfg xs xc connected c : component_new (page cfg xs xc) default_renderers connected = Ok c ->
  exists ed, co_editor c = Some ed /\ ed_input ed = [] /\ ed_caret ed = field_caret [] (mkField [] 0 0) /\ ed_undo ed = undo_new /\
    co_tasks c = [] /\ co_pointer_down c = false /\ co_clipboard c = None.
Proof.
  intros H. destruct (new_ok H) as ((ed&E&_)&_&Ht). exists ed. split; [exact E|]. unfold component_new in H. apply bind_ok in H as ([ed0 t]&Et&H). apply bind_ok in H as (x&Ex&H).
  set (P := fun ed : MathEditor SyntaxNode => ed_input ed = [] /\ ed_caret ed = field_caret [] (mkField [] 0 0) /\ ed_undo ed = undo_new).
  assert (HP : forall ed op ed' out, op = OpGetCaret \/ op = OpGetSyntaxTree -> P ed -> step (page cfg xs xc) ed op = Ok (ed', out) -> P ed').
  { intros ed1 op ed' out Hop Hed Hs. destruct Hop as [-> | ->]; cbn [step] in Hs.
    - apply bind_ok in Hs as (sel&_&Hs). now inv Hs.
    - apply bind_ok in Hs as ([ed2 t2]&Ht2&Hs). inv Hs. apply parse_step in Ht2 as (p&->). exact Hed. }
  match type of H with context [Component.update_input ?e ?r ?c0] => pose proof (@keeps_update_input e r P HP c0) as K; pose proof (@memory_update e r _ c0 eq_refl) as M; destruct (Component.update_input e r c0) as [c1 [[]|]]; inv H end.
  cbn [fst] in K, M. assert (Hed : P ed).
  { apply K; [|exact E]. intros ed1 E1. cbn in E1. inv E1. apply parse_step in Et as (p&->). repeat split. }
  destruct Hed as (H1&H2&H3). repeat (split; [assumption|]). unfold memory in M. inv M. auto.
Qed.
