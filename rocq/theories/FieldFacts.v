(** In a row of symbols the editor is a text field (C95). *)
From Verif Require Import Base Str Grid Node Focus Edit Caret Autocomplete Editor Spec SpecAuto SpecEditor SpecMove SpecSafety SpecSelect SpecRemove SpecLeave SpecField
  BaseFacts GridFacts TreeFacts OrderFacts EditFacts TreeProofs MoveFacts MoveProofs SpecTrack TrackFacts AutoFacts MatchExact PopupFacts EditorFacts HistoryFacts
  OpFacts SafetyFacts SafetyProofs SpliceFacts TypingFacts SelectFacts RemoveFacts LeaveFacts.
Set Implicit Arguments.
Unset Strict Implicit.

Lemma map_firstn A B (f : A -> B) n l : map f (firstn n l) = firstn n (map f l).
Proof. revert l; induction n as [|n IH]; intros [|x l]; cbn; auto. now rewrite IH. Qed.
Lemma map_skipn A B (f : A -> B) n l : map f (skipn n l) = skipn n (map f l).
Proof. revert l; induction n as [|n IH]; intros [|x l]; cbn; auto. Qed.

Section Field.
Variable SyntaxNode : Type.
Variable env : Env SyntaxNode.
Hypothesis Hascii : Forall ascii_rule (env_rules env).
Implicit Type ed : MathEditor SyntaxNode.
Let cfg := env_cfg env.
Variable doc0 : InputRow.
Variable p : RowIndices.
Hypothesis Hdoc0 : proper nonempty doc0.
Variable fresh : bool.

(** ** The document with this text in the row [p] *)
Definition with_text (t : list str) (doc : InputRow) : Prop := exists row, replaced p row (map Symbol t) doc0 doc.
Lemma with_text_unique t d1 d2 : with_text t d1 -> with_text t d2 -> d1 = d2.
Proof.
  intros (r1&H1) (r2&H2). pose proof (replaced_get_old H1) as E1. rewrite (replaced_get_old H2) in E1. injection E1 as <-.
  exact (replaced_unique H1 H2).
Qed.
Lemma with_text_row t d : with_text t d -> row_get d p = Some (map Symbol t).
Proof. intros (r&H). exact (replaced_get_new H). Qed.
Lemma with_text_proper t d : with_text t d -> Forall (fun s => s <> []) t -> proper nonempty d.
Proof.
  intros (r&H) Ht. eapply proper_nodes_replaced with (l := 0) (r := length r); [|exact Hdoc0|apply (@proper_symbols nonempty t)].
  - exists r. split; [lia|]. split; [lia|]. cbn [firstn app]. rewrite skipn_all, app_nil_r. exact H.
  - intros s Hs. rewrite Forall_forall in Ht. exact (Ht _ Hs).
Qed.
Lemma with_text_replace t d a b vs d' : with_text t d -> nodes_replaced d p a b (map Symbol vs) d' ->
  with_text (firstn a t ++ vs ++ skipn b t) d' /\ a <= b /\ b <= length t.
Proof.
  intros H (row&H1&H2&H3). pose proof (replaced_get_old H3) as E. rewrite (with_text_row H) in E. injection E as <-. rewrite map_length in H2.
  destruct H as (r&H). split; [|auto]. exists r. eapply replaced_trans; [exact H|]. rewrite !map_app, map_firstn, map_skipn. exact H3.
Qed.

Definition good_field (f : Field) : Prop :=
  f_anchor f <= length (f_text f) /\ f_cursor f <= length (f_text f) /\ Forall (fun s => s <> []) (f_text f).
Lemma at_good f a b f' : good_field f -> f_at f a b = Some f' -> good_field f' /\ f_text f' = f_text f /\ f_anchor f' = a /\ f_cursor f' = b.
Proof.
  intros (_&_&H) E. unfold f_at in E. destruct (a <=? length (f_text f)) eqn:Ea; [|discriminate]. destruct (b <=? length (f_text f)) eqn:Eb; [|discriminate].
  cbn in E. injection E as <-. apply Nat.leb_le in Ea, Eb. repeat split; auto.
Qed.
Lemma replace_good f a b vs : good_field f -> a <= b -> b <= length (f_text f) -> Forall (fun s => s <> []) vs -> good_field (f_replace f a b vs).
Proof.
  intros (H1&H2&H3) Ha Hb Hv. unfold good_field, f_replace. cbn [f_text f_anchor f_cursor].
  rewrite !app_length, firstn_length, skipn_length. split; [lia|]. split; [lia|].
  rewrite Forall_forall in *. intros s Hs. rewrite !in_app_iff in Hs. destruct Hs as [Hs|[Hs|Hs]]; auto; apply H3.
  - rewrite <- (firstn_skipn a (f_text f)). apply in_app_iff. auto.
  - rewrite <- (firstn_skipn b (f_text f)). apply in_app_iff. auto.
Qed.

(** ** The invariant *)
Definition changed (b a : Field) (ce : CaretEdit) : Prop :=
  good_field b /\ good_field a /\ ce_before ce = field_caret p b /\ ce_after ce = field_caret p a /\
  exists db da, with_text (f_text b) db /\ with_text (f_text a) da /\ chain cfg db (ce_edits ce) da.
Inductive past_ok : list str -> list (Field * Field) -> list CaretEdit -> Prop :=
| past_ok_nil t stk : (fresh = true -> stk = []) -> past_ok t [] stk
| past_ok_cons b a past ce stk : changed b a ce -> past_ok (f_text b) past stk -> past_ok (f_text a) ((b, a) :: past) (ce :: stk).
Inductive future_ok : list str -> list (Field * Field) -> list CaretEdit -> Prop :=
| future_ok_nil t stk : (fresh = true -> stk = []) -> future_ok t [] stk
| future_ok_cons b a future ce stk : changed b a ce -> future_ok (f_text a) future stk -> future_ok (f_text b) ((b, a) :: future) (ce :: stk).
Record inv_field (s : Session) ed : Prop := mkInvField {
  if_doc : with_text (f_text (s_field s)) (ed_input ed);
  if_caret : ed_caret ed = field_caret p (s_field s);
  if_good : good_field (s_field s);
  if_past : past_ok (f_text (s_field s)) (s_past s) (undo_stack (ed_undo ed));
  if_future : future_ok (f_text (s_field s)) (s_future s) (redo_stack (ed_undo ed)) }.

Section Step.
Variables (s : Session) (ed : MathEditor SyntaxNode).
Hypothesis I : inv_field s ed.
Let f := s_field s.

Lemma if_proper : proper nonempty (ed_input ed).
Proof. destruct I as [Hd _ (_&_&Hg) _ _]. exact (with_text_proper Hd Hg). Qed.
Lemma if_wf : wf_row (ed_input ed).
Proof. apply if_proper. Qed.
Lemma if_row : row_get (ed_input ed) p = Some (map Symbol (f_text f)).
Proof. destruct I as [Hd _ _ _ _]. exact (with_text_row Hd). Qed.
Lemma if_pos k : k <= length (f_text f) -> valid_pos (ed_input ed) (mkMinPos p k).
Proof. intros H. exists (map Symbol (f_text f)). split; [exact if_row|]. now rewrite map_length. Qed.
Lemma if_valid : valid_caret (ed_input ed) (ed_caret ed).
Proof. destruct I as [_ -> (H1&H2&_) _ _]. split; now apply if_pos. Qed.
Lemma if_get : get_caret ed = Ok (MSelRow (mkMinRange p (f_anchor f) (f_cursor f))).
Proof.
  rewrite caret_row; [|exact if_wf|exact if_valid|].
  - rewrite (if_caret I). cbn [field_caret mc_start mc_end]. rewrite span_to_row by reflexivity. reflexivity.
  - rewrite (if_caret I). cbn [field_caret mc_start mc_end]. intros q i g j j' (_&Hj&(x&Ex)&(y&Ey)). cbn [mp_row] in *.
    rewrite Ex in Ey. rewrite <- !app_assoc in Ey. apply app_inv_head in Ey. cbn in Ey. injection Ey as Ey _. auto.
Qed.
Lemma if_matcher : exists x, get_autocomplete env ed = Ok x.
Proof.
  set (ed0 := mkEditor (ed_input ed) None (ed_caret ed) None (ed_autocomplete ed) undo_new : MathEditor SyntaxNode).
  assert (S : sound env nonempty ed0) by (split; [exact if_proper|exact if_valid|constructor|constructor]).
  destruct (autocomplete_ok S (fun s h => h) Hascii) as ([ed1 r]&H). unfold get_autocomplete in *. cbn [ed0 ed_input ed_caret ed_autocomplete] in H.
  apply bind_ok in H as (c&Hc'&H). rewrite Hc'. cbn [bind]. destruct (c_selection c) as [range|g]; [|eauto]. destruct (rg_is_collapsed range); [|eauto]. cbv zeta in *.
  apply bind_ok in H as (ms&Hms&H). rewrite Hms. cbn [bind]. apply bind_ok in H as ([cur res]&Hst&H). rewrite Hst. cbn. eauto.
Qed.
Lemma if_lo : lo (mkMinRange p (f_anchor f) (f_cursor f)) = f_lo f. Proof. reflexivity. Qed.
Lemma if_hi : hi (mkMinRange p (f_anchor f) (f_cursor f)) = f_hi f. Proof. reflexivity. Qed.

(** *** Changes *)
Lemma edit_inv f' ed' ce a b vs : f' = f_replace f a b vs -> Forall (fun s => s <> []) vs -> nodes_replaced (ed_input ed) p a b (map Symbol vs) (ed_input ed') ->
  ed_caret ed' = collapsed (mkMinPos p (a + length vs)) -> advanced env ed [ce] ed' -> ce_after ce = ed_caret ed' -> ce_before ce = ed_caret ed ->
  inv_field (mkSession ((f, f') :: s_past s) f' []) ed'.
Proof.
  intros -> Hv Hr Hc [A1 A2 A3 _] Ha Hb. destruct (with_text_replace (if_doc I) Hr) as (Hd&L1&L2). fold f in Hd, L2.
  assert (G : good_field (f_replace f a b vs)) by (apply replace_good; auto; exact (if_good I)).
  assert (C : chain (env_cfg env) (ed_input ed) (ce_edits ce) (ed_input ed')).
  { inversion A1 as [|d ce' d1 ces d2 C A]; subst. inversion A; subst. exact C. }
  split; cbn [s_field s_past s_future].
  - exact Hd.
  - rewrite Hc. reflexivity.
  - exact G.
  - rewrite A2. cbn [rev app]. apply past_ok_cons; [|exact (if_past I)]. split; [exact (if_good I)|]. split; [exact G|]. split; [rewrite Hb; exact (if_caret I)|].
    split; [rewrite Ha, Hc; reflexivity|]. exists (ed_input ed), (ed_input ed'). split; [exact (if_doc I)|]. split; [exact Hd|exact C].
  - rewrite A3. constructor. reflexivity.
Qed.
Lemma typing_inv vs : Forall (fun s => s <> []) vs -> exists ed', step env ed (OpInsertAtCaret vs) = Ok (ed', OutNone _) /\
  inv_field (mkSession ((f, f_replace f (f_lo f) (f_hi f) vs) :: s_past s) (f_replace f (f_lo f) (f_hi f) vs) []) ed'.
Proof.
  intros Hv. destruct if_matcher as ([ed1 r]&Hg). destruct (start_autocorrect_ok Hg) as (a&Ha&_).
  apply get_autocomplete_only in Hg as (x&->). cbn [step]. unfold insert_at_caret. rewrite Ha. cbn [bind].
  destruct (insert_settles if_wf (wf_symbols (vs := vs)) if_get Ha) as (ed2&ce&Hi&Hfin&Hrep&Hc&A&Hca&Hcb). rewrite Hi. cbn [bind].
  rewrite Hfin. cbn [bind]. exists ed2. split; [reflexivity|]. rewrite map_length in Hc. cbn [mr_row] in *. rewrite if_lo, if_hi in Hrep. rewrite if_lo in Hc.
  eapply edit_inv; eauto.
Qed.
Lemma selection_removed mode : f_lo f < f_hi f -> exists ed', step env ed (OpRemoveAtCaret mode) = Ok (ed', OutNone _) /\
  inv_field (mkSession ((f, f_replace f (f_lo f) (f_hi f) []) :: s_past s) (f_replace f (f_lo f) (f_hi f) []) []) ed'.
Proof.
  intros L. assert (Hm : mr_start (mkMinRange p (f_anchor f) (f_cursor f)) <> mr_end (mkMinRange p (f_anchor f) (f_cursor f))) by (cbn; unfold f_lo, f_hi in L; lia).
  pose proof (not_collapsed_autocomplete env if_get Hm) as Hg. destruct (get_caret_row if_get) as (c&r&Hc&Hs&G&Er).
  cbn [step]. unfold editor_remove_at_caret, start_autocorrect. rewrite Hg. cbn [bind]. rewrite Hc. cbn [bind]. rewrite Hs.
  assert (Hne : rg_start r <> rg_end r) by (rewrite <- Er in Hm; exact Hm).
  unfold remove_at_caret, rg_is_collapsed. apply Nat.eqb_neq in Hne. rewrite Hne. cbn [negb].
  destruct (remove_range r) as [[es q]|] eqn:Hr; [|rewrite (remove_range_eq G) in Hr; discriminate]. cbn [bind].
  destruct (remove_range_replaces cfg G Hr) as (doc'&C&Hrep&Eq&Hnil).
  assert (El : rg_left r = f_lo f) by (rewrite rg_left_min; apply (f_equal lo) in Er; exact Er).
  assert (Eh : rg_right r = f_hi f) by (rewrite rg_right_max; apply (f_equal hi) in Er; exact Er).
  assert (Ei : rg_indices r = p) by (apply (f_equal mr_row) in Er; exact Er).
  rewrite El, Eh, Ei in Hrep. rewrite El, Ei in Eq. subst q. unfold builder_finish.
  destruct es as [|e es]; [congruence|]. pose proof (chain_apply C) as Ha. unfold cfg in Ha. rewrite Ha. cbn [bind].
  rewrite finish_autocorrect_none. cbn [bind]. eexists. split; [reflexivity|].
  eapply edit_inv with (vs := []) (a := f_lo f) (b := f_hi f) (ce := mkCaretEdit (ed_caret ed) (collapsed (mkMinPos p (f_lo f))) (e :: es)); [reflexivity|apply Forall_nil|exact Hrep|cbn; rewrite Nat.add_0_r; reflexivity| |reflexivity|reflexivity].
  split; cbn; try reflexivity. econstructor; [exact C|constructor].
Qed.
Lemma symbol_removed_inv mode d i : f_lo f = f_hi f -> remove_dir mode = Some d -> match d with HLeft => f_cursor f = S i | HRight => f_cursor f = i end -> i < length (f_text f) ->
  exists ed', step env ed (OpRemoveAtCaret mode) = Ok (ed', OutNone _) /\ inv_field (mkSession ((f, f_replace f i (S i) []) :: s_past s) (f_replace f i (S i) []) []) ed'.
Proof.
  intros L Hd Hi Hlt. assert (Ea : f_anchor f = f_cursor f) by (unfold f_lo, f_hi in L; lia).
  assert (Hc : ed_caret ed = collapsed (mkMinPos p (f_cursor f))) by (rewrite (if_caret I); unfold field_caret; fold f; rewrite Ea; reflexivity).
  destruct (nth_error (f_text f) i) as [x|] eqn:En; [|apply nth_error_None in En; lia].
  destruct (@symbol_remove_advanced SyntaxNode env ed _ mode d i x if_wf Hc if_matcher Hd) as (ed'&ce&Hs&Hr&Hc'&A&Hb&Ha).
  - cbn. exact Hi.
  - cbn [mp_row]. unfold node_get. rewrite if_row. cbn. apply map_nth_error. exact En.
  - exists ed'. split; [exact Hs|]. cbn [mp_row] in *.
    eapply edit_inv with (vs := []) (a := i) (b := S i); [reflexivity|apply Forall_nil|exact Hr|rewrite Nat.add_0_r; exact Hc'|exact A|exact Ha|exact Hb].
Qed.

(** Cutting nothing *)
Lemma nothing_cut : f_lo f = f_hi f -> exists ed', step env ed (OpRemoveAtCaret RemoveRange) = Ok (ed', OutNone _) /\
  inv_field (mkSession ((f, f_replace f (f_cursor f) (f_cursor f) []) :: s_past s) (f_replace f (f_cursor f) (f_cursor f) []) []) ed'.
Proof.
  intros L. assert (Ea : f_anchor f = f_cursor f) by (unfold f_lo, f_hi in L; lia).
  assert (Hcar : ed_caret ed = collapsed (mkMinPos p (f_cursor f))) by (rewrite (if_caret I); unfold field_caret; fold f; rewrite Ea; reflexivity).
  destruct if_matcher as ([ed1 r0]&Hg). destruct (start_autocorrect_ok Hg) as (a&Ha&_). apply get_autocomplete_only in Hg as (x&->).
  destruct (get_caret_row if_get) as (c&r&Hc&Hs&G&Er).
  cbn [step]. unfold editor_remove_at_caret. rewrite Ha. cbn [bind set_autocomplete ed_input ed_caret]. rewrite Hc. cbn [bind]. rewrite Hs.
  assert (El : rg_left r = f_cursor f) by (rewrite rg_left_min; apply (f_equal lo) in Er; unfold f_lo, f_hi in L; change (lo (rg_to_minimal r) = f_cursor f); rewrite Er; unfold lo; cbn; lia).
  assert (Eh : rg_right r = f_cursor f) by (rewrite rg_right_max; apply (f_equal hi) in Er; unfold f_lo, f_hi in L; change (hi (rg_to_minimal r) = f_cursor f); rewrite Er; unfold hi; cbn; lia).
  assert (Ei : rg_indices r = p) by (apply (f_equal mr_row) in Er; exact Er).
  assert (Ecol : rg_is_collapsed r = true) by (unfold rg_is_collapsed; apply Nat.eqb_eq; apply (f_equal mr_start) in Er as X; apply (f_equal mr_end) in Er as Y; cbn in X, Y; rewrite X, Y; exact Ea).
  unfold remove_at_caret. rewrite Ecol. cbn [negb]. pose proof (remove_range_eq G) as Hrm. rewrite Hrm. cbn [bind].
  destruct (remove_range_replaces cfg G Hrm) as (doc'&C&Hrep&_&_). rewrite El, Eh, Ei in Hrep. unfold builder_finish. cbn [set_autocomplete ed_input].
  pose proof (chain_apply C) as Hap. unfold cfg in Hap. rewrite Hap. cbn [bind].
  match goal with |- context [finish_autocorrect env ?e a ?c0] => set (ed2 := e); set (ce := c0) end.
  assert (Hfin : finish_autocorrect env ed2 a ce = Ok ed2).
  { destruct a as [act|]; [|reflexivity].
    destruct (pending_token if_wf Ha) as (q'&n&s'&Gq&Hcq&Hn1&Hn2&Hr&_). rewrite Hcar in Hcq.
    apply (f_equal mc_start) in Hcq. cbn in Hcq. injection Hcq as Ep Eo.
    destruct act as [rule range]. cbn [ac_range] in Hr. subst range.
    unfold finish_autocorrect, autocorrect_finish, ce. cbn [ac_range ac_rule ce_edits]. unfold range_apply_edits. cbn [apply_edits].
    rewrite map_same_row by (cbn [re_pos mp_row mr_row]; rewrite Ei; exact Ep). cbn [mr_start mr_end mr_row]. replace (pos_offset q' <=? pos_offset q' - n) with false by lia. cbn [bind].
    unfold right_map, left_map, del_pos. cbn [re_type re_pos re_values mp_offset]. rewrite (rg_nodes_length G), El, Eh, Eo, Nat.ltb_irrefl.
    replace (pos_offset q' <? pos_offset q' - n) with false by lia.
    apply apply_within with (t := pos_offset q').
    - exact (nodes_replaced_wf Hrep if_wf wf_row_nil).
    - destruct Hrep as (row'&H1&H2&Hrep). eexists. rewrite <- Ep. split; [exact (replaced_get_new Hrep)|]. cbn [mr_start mr_end].
      rewrite !app_length, firstn_length, skipn_length. cbn [length]. lia.
    - unfold ed2. cbn [ed_caret]. rewrite Ei, El, Ep, Eo. reflexivity.
    - lia.
    - lia. }
  rewrite Hfin. cbn [bind]. exists ed2. split; [reflexivity|].
  eapply edit_inv with (vs := []) (a := f_cursor f) (b := f_cursor f) (ce := ce); [reflexivity|apply Forall_nil|exact Hrep| | |reflexivity|reflexivity].
  - rewrite Nat.add_0_r. unfold ed2. cbn [ed_caret]. rewrite Ei, El. reflexivity.
  - split; try reflexivity. eapply committed_cons; [exact C|constructor].
Qed.
(** *** Movements *)
Lemma move_inv f' ed' : f_text f' = f_text f -> good_field f' -> ed_input ed' = ed_input ed -> ed_undo ed' = ed_undo ed -> ed_caret ed' = field_caret p f' ->
  inv_field (mkSession (s_past s) f' (s_future s)) ed'.
Proof.
  intros Et G E1 E2 E3. split; cbn [s_field s_past s_future]; rewrite ?Et, ?E1, ?E2.
  - exact (if_doc I).
  - exact E3.
  - exact G.
  - exact (if_past I).
  - exact (if_future I).
Qed.
(** Whether there is a completely typed token *)
Lemma if_pending : (exists q n rule, completed env ed q n rule /\ f_anchor f = f_cursor f /\ q = mkMinPos p (f_cursor f)) \/ ~ autocorrect_pending env ed.
Proof.
  destruct if_matcher as ([ed1 r]&Hg). destruct r as [r|].
  - destruct (popup_selected Hg) as (m&Hm). destruct (Nat.eq_dec (m_rule_match_length m) (byte_len (rule_parser (m_rule m)))) as [E|E].
    + left. destruct (Nat.eq_dec (f_anchor f) (f_cursor f)) as [Ea|Ea].
      * exists (mkMinPos p (f_cursor f)), (m_input_match_length m), (m_rule m). split; [|auto]. exists ed1, r, m. repeat split; auto.
        rewrite (if_caret I). unfold field_caret. fold f. rewrite Ea. reflexivity.
      * rewrite (not_collapsed_autocomplete env if_get) in Hg; [discriminate|exact Ea].
    + right. intros (ed2&r2&m2&H2&Hm2&E2). rewrite Hg in H2. injection H2 as _ <-. rewrite Hm in Hm2. injection Hm2 as <-. auto.
  - right. intros (ed2&r2&m2&H2&_). rewrite Hg in H2. discriminate.
Qed.
Lemma if_next k : k < length (f_text f) -> next_in (positions (ed_input ed)) (mkMinPos p k) (mkMinPos p (S k)).
Proof.
  intros H. apply right_step_next. destruct (nth_error (f_text f) k) as [x|] eqn:En; [|apply nth_error_None in En; lia].
  rewrite <- (Nat.add_1_r k). apply rs_symbol with (s := x). unfold node_get. rewrite if_row. cbn. apply map_nth_error. exact En.
Qed.
Lemma not_zero d k : ~ underflows cfg d (mkMinPos p (S k)).
Proof. intros (_&_&H&_). discriminate. Qed.
(** When no token is complete *)
Lemma if_start : ~ autocorrect_pending env ed -> exists x, start_autocorrect env ed = Ok (set_autocomplete ed x, None).
Proof.
  intros Hp. destruct if_matcher as ([ed1 r]&Hg). destruct (start_autocorrect_ok Hg) as (a&Ha&Hn). rewrite (Hn Hp) in Ha.
  destruct (start_autocorrect_only Ha) as (x&->). eauto.
Qed.
Lemma no_zero d k : p = [] -> ~ underflows cfg d (mkMinPos p k).
Proof. intros -> (_&_&_&q&i&H). cbn in H. destruct q; discriminate. Qed.
Lemma edge_at a b f' : f_edge p f a b = Some f' -> p = [] /\ f_at f a b = Some f'.
Proof. unfold f_edge. clear. destruct p; [auto|discriminate]. Qed.
Lemma if_length : p = [] -> length (ed_input ed) = length (f_text f).
Proof. intros Ep. pose proof if_row as H. rewrite Ep in H. cbn in H. injection H as H. now rewrite H, map_length. Qed.
(** The next position in the row, or none where the document ends *)
Definition onward d from k : Prop := follows d (ed_input ed) (mkMinPos p from) (mkMinPos p k) \/ mkMinPos p from = edge d (ed_input ed) /\ k = from.
Lemma arrow_inv d f' : (d = DLeft \/ d = DRight) -> leaves_alone env ed (OpMoveCaret d MChar) -> field_move cfg p f (OpMoveCaret d MChar) = Some f' ->
  exists ed', step env ed (OpMoveCaret d MChar) = Ok (ed', OutNone _) /\ inv_field (mkSession (s_past s) f' (s_future s)) ed'.
Proof.
  intros Hd Hq Hf. set (from := match d with DLeft => f_lo f | _ => f_hi f end).
  assert (Hto : exists k, f_at f k k = Some f' /\ onward d from k /\ ~ underflows cfg d (mkMinPos p from)).
  { destruct (if_good I) as (L1&L2&_). fold f in L1, L2. destruct Hd as [-> | ->]; cbn [field_move] in Hf.
    - subst from. destruct (f_lo f) as [|k] eqn:El.
      + apply edge_at in Hf as [Ep Hf]. exists 0. split; [exact Hf|]. split; [|now apply no_zero]. right. split; [|reflexivity]. rewrite Ep. reflexivity.
      + exists k. split; [exact Hf|]. split; [|apply not_zero]. left. cbn [follows]. apply if_next. unfold f_lo in El. lia.
    - destruct (f_hi f <? length (f_text f)) eqn:E.
      + apply Nat.ltb_lt in E. exists (S (f_hi f)). split; [exact Hf|]. split; [|intros (_&H&_); discriminate]. left. cbn [follows]. now apply if_next.
      + apply Nat.ltb_ge in E. apply edge_at in Hf as [Ep Hf]. exists (f_hi f). split; [exact Hf|]. split; [|intros (_&H&_); discriminate]. right. split; [|reflexivity].
        cbn [edge]. rewrite (if_length Ep), Ep. unfold here, from. f_equal. unfold f_hi in *. lia. }
  destruct Hto as (k&Hk&Hfo&Hu). destruct (at_good (if_good I) Hk) as (G&Et&Ea&Ec).
  assert (Hcar : collapsed (mkMinPos p k) = field_caret p f') by (unfold field_caret; rewrite Ea, Ec; reflexivity).
  assert (Hgoes : f_anchor f = f_cursor f -> goes (env_cfg env) (ed_input ed) (mkMinPos p (f_cursor f)) (OpMoveCaret d MChar) (mkMinPos p k)).
  { intros Hsame. assert (Hfrom : from = f_cursor f) by (unfold from, f_lo, f_hi; rewrite Hsame; destruct d; lia). rewrite Hfrom in *.
    destruct Hfo as [Hfo|[He ->]]; [apply goes_next; [exact Hfo|exact Hu]|apply goes_edge; [exact Hd|exact He]]. }
  destruct if_pending as [(q&n&rule&Hco&Hsame&->)|Hnp].
  - specialize (Hgoes Hsame).
    destruct (leave_step if_wf Hco Hgoes) as (Hkeep&_). destruct (Hkeep (Hq _ _ _ _ Hco Hgoes)) as (ed'&Hs&E1&E2&E3).
    exists ed'. split; [exact Hs|]. apply move_inv; auto. now rewrite E3.
  - destruct (if_start Hnp) as (x&Hs). destruct (get_caret_row if_get) as (c&r&Hc&Hr&Gr&Er).
    assert (Hnav : exists c', nav_move_caret cfg (ed_input ed) c d MChar = Ok c' /\ caret_to_minimal c' = collapsed (mkMinPos p k)).
    { pose proof (positions_NoDup (ed_input ed)) as Hnd. destruct (Nat.eq_dec (f_anchor f) (f_cursor f)) as [Hsame|Hdiff].
      - specialize (Hgoes Hsame).
        destruct (@arrow_goes SyntaxNode env (ed_input ed) _ d _ if_wf (if_pos (proj1 (proj2 (if_good I)))) Hgoes) as (c1&c'&E1&E2&E3&_).
        rewrite (if_caret I) in Hc. unfold field_caret in Hc. fold f in Hc. rewrite Hsame in Hc. unfold collapsed in E1. unfold f in *. rewrite Hc in E1. injection E1 as <-. eauto.
      - assert (Hne : rg_start r <> rg_end r).
        { apply (f_equal mr_start) in Er as X. apply (f_equal mr_end) in Er as Y. cbn in X, Y. rewrite X, Y. exact Hdiff. }
        destruct (@selection_arrows cfg _ _ _ _ if_wf Hc Hr Hne) as (HR&HL&_).
        rewrite Er in HR, HL. unfold range_right, range_left in HR, HL. cbn [mr_row mr_start mr_end] in HR, HL. fold (f_hi f) in HR. fold (f_lo f) in HL.
        destruct Hd as [-> | ->]; unfold onward in Hfo; cbn [follows edge] in Hfo.
        + destruct HL as (c'&t&E1&E2&H); [intros Ho Hz; apply Hu; repeat split; auto; apply Hz|]. exists c'. split; [exact E1|]. rewrite E2. f_equal. change from with (f_lo f) in Hfo.
          destruct Hfo as [Hfo|[He Ek]], H as [H|[[l El] Hx]].
          * exact (next_in_inj Hnd H Hfo).
          * exfalso. rewrite El in Hfo, Hnd. exact (first_not_next Hnd Hfo).
          * exfalso. rewrite He in H. destruct (positions_first (ed_input ed)) as [l El]. rewrite El in H, Hnd. exact (first_not_next Hnd H).
          * rewrite Hx, Ek. reflexivity.
        + destruct HR as (c'&t&E1&E2&H). exists c'. split; [exact E1|]. rewrite E2. f_equal. change from with (f_hi f) in Hfo.
          destruct Hfo as [Hfo|[He Ek]], H as [H|[[l El] Hx]].
          * exact (next_in_fun Hnd H Hfo).
          * exfalso. rewrite El in Hfo, Hnd. exact (last_not_next Hnd Hfo).
          * exfalso. rewrite He in H. destruct (positions_last (ed_input ed)) as [l El]. rewrite El in H, Hnd. exact (last_not_next Hnd H).
          * rewrite Hx, Ek. reflexivity. }
    destruct Hnav as (c'&E1&E2). cbn [step]. unfold move_caret. rewrite Hs. cbn [bind set_autocomplete ed_input ed_caret]. rewrite Hc. cbn [bind].
    unfold cfg in E1. rewrite E1. cbn [bind builder_finish]. rewrite finish_autocorrect_none. cbn [bind]. eexists. split; [reflexivity|].
    apply move_inv; auto. cbn [set_caret ed_caret]. now rewrite E2.
Qed.
Lemma shift_inv d f' : (d = DLeft \/ d = DRight) -> leaves_alone env ed (OpSelectWithCaret d MChar) -> field_move cfg p f (OpSelectWithCaret d MChar) = Some f' ->
  exists ed' out, step env ed (OpSelectWithCaret d MChar) = Ok (ed', out) /\ inv_field (mkSession (s_past s) f' (s_future s)) ed'.
Proof.
  intros Hd Hq Hf. cbn [leaves_alone] in Hq.
  assert (Hto : exists k, f_at f (f_anchor f) k = Some f' /\ onward d (f_cursor f) k /\ ~ underflows cfg d (mkMinPos p (f_cursor f))).
  { destruct (if_good I) as (L1&L2&_). fold f in L1, L2. destruct Hd as [-> | ->]; cbn [field_move] in Hf.
    - destruct (f_cursor f) as [|k] eqn:El.
      + apply edge_at in Hf as [Ep Hf]. exists 0. split; [exact Hf|]. split; [|now apply no_zero]. right. split; [|reflexivity]. rewrite Ep. reflexivity.
      + exists k. split; [exact Hf|]. split; [|apply not_zero]. left. cbn [follows]. apply if_next. lia.
    - destruct (f_cursor f <? length (f_text f)) eqn:E.
      + apply Nat.ltb_lt in E. exists (S (f_cursor f)). split; [exact Hf|]. split; [|intros (_&H&_); discriminate]. left. cbn [follows]. now apply if_next.
      + apply Nat.ltb_ge in E. apply edge_at in Hf as [Ep Hf]. exists (f_cursor f). split; [exact Hf|]. split; [|intros (_&H&_); discriminate]. right. split; [|reflexivity].
        cbn [edge]. rewrite (if_length Ep), Ep. unfold here. f_equal. lia. }
  destruct Hto as (k&Hk&Hfo&Hu). destruct (at_good (if_good I) Hk) as (G&Et&Ea&Ec). pose proof (positions_NoDup (ed_input ed)) as Hnd.
  destruct (@select_step SyntaxNode env ed d _ if_wf if_get if_matcher Hq Hd Hu) as (ed'&E1&[(Hs&E2&He)|(q&Hs&E2&E3)]); exists ed'; eexists; (split; [exact Hs|]).
  - unfold range_end in He. cbn [mr_row mr_end] in He. destruct Hfo as [Hfo|[_ Ek]].
    + exfalso. rewrite He in Hfo. destruct Hd as [-> | ->]; cbn [follows edge] in Hfo.
      * destruct (positions_first (ed_input ed)) as [l El]. rewrite El in Hfo, Hnd. exact (first_not_next Hnd Hfo).
      * destruct (positions_last (ed_input ed)) as [l El]. rewrite El in Hfo, Hnd. exact (last_not_next Hnd Hfo).
    + apply move_inv; auto.
      * exact (proj2 (@passive_same SyntaxNode env _ (OpSelectWithCaret d MChar) _ _ eq_refl Hq Hs)).
      * rewrite E2, (if_caret I). unfold field_caret. fold f. rewrite Ea, Ec, Ek. reflexivity.
  - unfold range_end in E3. cbn [mr_row mr_end] in E3. destruct Hfo as [Hfo|[He _]].
    + assert (Hqk : q = mkMinPos p k) by (destruct Hd as [-> | ->]; cbn [follows] in *; [exact (next_in_inj Hnd E3 Hfo)|exact (next_in_fun Hnd E3 Hfo)]).
      apply move_inv; auto.
      * exact (proj2 (@passive_same SyntaxNode env _ (OpSelectWithCaret d MChar) _ _ eq_refl Hq Hs)).
      * rewrite E2, Hqk, (if_caret I). unfold field_caret. fold f. rewrite Ea, Ec. reflexivity.
    + exfalso. rewrite He in E3. destruct Hd as [-> | ->]; cbn [follows edge] in E3.
      * destruct (positions_first (ed_input ed)) as [l El]. rewrite El in E3, Hnd. exact (first_not_next Hnd E3).
      * destruct (positions_last (ed_input ed)) as [l El]. rewrite El in E3, Hnd. exact (last_not_next Hnd E3).
Qed.
Lemma start_mode m ed1 a : start_autocorrect env ed = Ok (ed1, a) -> start_autocorrect env (set_selection_mode ed m) = Ok (set_selection_mode ed1 m, a).
Proof.
  unfold start_autocorrect, get_autocomplete. cbn [set_selection_mode ed_input ed_caret ed_autocomplete]. intros H.
  destruct (caret_from_minimal (ed_input ed) (ed_caret ed)) as [c|]; [|discriminate]. cbn [bind] in *.
  destruct (c_selection c) as [rg|]; [|cbn in *; now inv H]. destruct (rg_is_collapsed rg); [|cbn in *; now inv H]. cbv zeta in *.
  destruct (rules_matches (env_rules env) (fr_row (pos_focus (rg_start_position rg))) (pos_offset (rg_start_position rg)) 2) as [ms|]; [|discriminate]. cbn [bind] in *.
  destruct (state_get_autocomplete (ed_autocomplete ed) ms (pos_to_minimal (rg_start_position rg))) as [[cur res]|]; [|discriminate]. cbn [bind] in *.
  destruct res as [r|]; [|now inv H]. destruct (results_start_autocorrect r) as [x|]; [|discriminate]. cbn [bind] in *. now inv H.
Qed.
Lemma click_inv k m f' : leaves_alone env ed (OpStartSelection (mkMinPos p k) m) -> f_at f k k = Some f' ->
  exists ed', step env ed (OpStartSelection (mkMinPos p k) m) = Ok (ed', OutNone _) /\ inv_field (mkSession (s_past s) f' (s_future s)) ed'.
Proof.
  intros Hq Hk. destruct (at_good (if_good I) Hk) as (G&Et&Ea&Ec).
  assert (Hv : valid_pos (ed_input ed) (mkMinPos p k)) by (apply if_pos; destruct G as (G&_); rewrite Ea, Et in G; exact G).
  assert (Hcar : collapsed (mkMinPos p k) = field_caret p f') by (unfold field_caret; rewrite Ea, Ec; reflexivity).
  destruct if_pending as [(q&n&rule&Hco&Hsame&->)|Hnp].
  - assert (Hgo : goes (env_cfg env) (ed_input ed) (mkMinPos p (f_cursor f)) (OpStartSelection (mkMinPos p k) m) (mkMinPos p k)) by (apply goes_click; exact Hv).
    destruct (leave_step if_wf Hco Hgo) as (Hkeep&_). destruct (Hkeep (Hq _ _ _ _ Hco Hgo)) as (ed'&Hs&E1&E2&E3).
    exists ed'. split; [exact Hs|]. apply move_inv; auto. now rewrite E3.
  - destruct (if_start Hnp) as (x&Hs). cbn [step]. unfold start_selection. rewrite (start_mode (Some m) Hs). cbn [bind builder_finish].
    rewrite finish_autocorrect_none. cbn [bind]. eexists. split; [reflexivity|]. apply move_inv; auto.
Qed.
Lemma drag_inv k f' : leaves_alone env ed (OpExtendSelection (mkMinPos p k)) -> f_at f (f_anchor f) k = Some f' ->
  exists ed', step env ed (OpExtendSelection (mkMinPos p k)) = Ok (ed', OutNone _) /\ inv_field (mkSession (s_past s) f' (s_future s)) ed'.
Proof.
  intros Hq Hk. cbn [leaves_alone] in Hq. destruct (at_good (if_good I) Hk) as (G&Et&Ea&Ec). destruct (if_start Hq) as (x&Hs).
  cbn [step]. unfold extend_selection. rewrite Hs. cbn [bind builder_finish]. rewrite finish_autocorrect_none. cbn [bind].
  eexists. split; [reflexivity|]. apply move_inv; auto. cbn [set_caret ed_caret set_autocomplete]. rewrite (if_caret I). unfold field_caret. fold f. rewrite Ea, Ec. reflexivity.
Qed.

(** *** Undo and redo *)
Lemma undo_inv b a past : s_past s = (b, a) :: past ->
  exists ed', step env ed OpUndo = Ok (ed', OutNone _) /\ inv_field (mkSession past b ((b, a) :: s_future s)) ed'.
Proof.
  intros Ep. pose proof (if_past I) as Hp. rewrite Ep in Hp. inversion Hp as [|b' a' past' ce stk Hch Hrest Et Epp Eu]; subst.
  destruct Hch as (Gb&Ga&Hb&Ha&db&da&Db&Da&C). assert (da = ed_input ed) by (rewrite Et in Da; exact (with_text_unique Da (if_doc I))). subst da.
  cbn [step]. unfold undo, undo_undo. rewrite <- Eu. unfold apply_action. cbn [set_undo ed_input caret_edit_inverse ce_edits].
  pose proof (chain_inverse C) as Hi. unfold cfg in Hi. rewrite Hi. cbn [bind out_opt]. eexists. split; [reflexivity|].
  split; cbn; auto. apply future_ok_cons; [|rewrite Et; exact (if_future I)]. split; [exact Gb|]. split; [exact Ga|]. split; [exact Hb|]. split; [exact Ha|].
  exists db, (ed_input ed). auto.
Qed.
Lemma redo_inv b a future : s_future s = (b, a) :: future ->
  exists ed', step env ed OpRedo = Ok (ed', OutNone _) /\ inv_field (mkSession ((b, a) :: s_past s) a future) ed'.
Proof.
  intros Ep. pose proof (if_future I) as Hp. rewrite Ep in Hp. inversion Hp as [|b' a' future' ce stk Hch Hrest Et Epp Eu]; subst.
  destruct Hch as (Gb&Ga&Hb&Ha&db&da&Db&Da&C). assert (db = ed_input ed) by (rewrite Et in Db; exact (with_text_unique Db (if_doc I))). subst db.
  cbn [step]. unfold redo, undo_redo. rewrite <- Eu. unfold apply_action. cbn [set_undo ed_input ce_edits].
  pose proof (chain_apply C) as Hi. unfold cfg in Hi. rewrite Hi. cbn [bind out_opt]. eexists. split; [reflexivity|].
  split; cbn; auto. apply past_ok_cons; [|rewrite Et; exact (if_past I)]. split; [exact Gb|]. split; [exact Ga|]. split; [exact Hb|]. split; [exact Ha|].
  exists (ed_input ed), da. auto.
Qed.

Lemma undo_nothing : s_past s = [] -> fresh = true -> step env ed OpUndo = Ok (ed, OutNo _).
Proof.
  intros Ep Hf. pose proof (if_past I) as Hp. rewrite Ep in Hp. inversion Hp as [t stk Hn|]; subst. specialize (Hn Hf).
  cbn [step]. unfold undo, undo_undo. rewrite Hn. reflexivity.
Qed.
Lemma redo_nothing : s_future s = [] -> fresh = true -> step env ed OpRedo = Ok (ed, OutNo _).
Proof.
  intros Ep Hf. pose proof (if_future I) as Hp. rewrite Ep in Hp. inversion Hp as [t stk Hn|]; subst. specialize (Hn Hf).
  cbn [step]. unfold redo, undo_redo. rewrite Hn. reflexivity.
Qed.

(** Nothing to delete, in the row of the document *)
Lemma nothing_removed mode d : f_lo f = f_hi f -> remove_dir mode = Some d -> match d with HLeft => f_cursor f = 0 | HRight => f_cursor f = length (f_text f) end -> p = [] -> overflow_checks cfg = false ->
  exists x, step env ed (OpRemoveAtCaret mode) = Ok (set_autocomplete ed x, OutNo _).
Proof.
  intros L Hd Hk Ep Hov. assert (Ea : f_anchor f = f_cursor f) by (unfold f_lo, f_hi in L; lia).
  destruct if_matcher as ([ed1 r0]&Hg). destruct (start_autocorrect_ok Hg) as (a&Ha&_). apply get_autocomplete_only in Hg as (x&->).
  destruct (get_caret_row if_get) as (c&r&Hc&Hs&G&Er). exists x.
  cbn [step]. unfold editor_remove_at_caret. rewrite Ha. cbn [bind set_autocomplete ed_input ed_caret]. rewrite Hc. cbn [bind]. rewrite Hs.
  apply (f_equal mr_start) in Er as X. apply (f_equal mr_end) in Er as Y. cbn in X, Y.
  assert (Ei : rg_indices r = []) by (rewrite <- Ep; apply (f_equal mr_row) in Er; exact Er).
  assert (Ecol : rg_is_collapsed r = true) by (unfold rg_is_collapsed; apply Nat.eqb_eq; rewrite X, Y; exact Ea).
  destruct G as [Gc Go]. pose proof (canonical_row Gc) as Erow. change (fr_indices (rg_focus r)) with (rg_indices r) in Erow. rewrite Ei in Erow. cbn in Erow. injection Erow as Erow.
  unfold remove_at_caret. rewrite Ecol. cbn [negb].
  assert (Hrp : remove_at_caret_position (env_cfg env) (rg_start_position r) d = Ok None).
  { unfold remove_at_caret_position, focus_offset_to_index, row_offset_to_index, focus_node_at. cbn [rg_start_position pos_focus pos_offset].
    replace (match match d with HLeft => _ | HRight => _ end with Some index => _ | None => None end) with (@None (nat * InputNode)).
    - unfold index_in_parent. change (fr_indices (rg_focus r)) with (rg_indices r). rewrite Ei. cbn [length]. unfold usub. fold cfg. rewrite Hov. cbn.
      destruct (focus_parent (rg_focus r)) as [n|] eqn:En; [|reflexivity]. destruct (canonical_parent_inv Gc En) as (q&j&Hidx&_). change (fr_indices (rg_focus r)) with (rg_indices r) in Hidx. rewrite Ei in Hidx. destruct q; discriminate.
    - rewrite <- Erow, X, Ea. destruct d; rewrite Hk; [reflexivity|]. rewrite <- (if_length Ep). rewrite Nat.leb_refl. reflexivity. }
  destruct mode; try discriminate; injection Hd as <-; rewrite Hrp; reflexivity.
Qed.

(** Up and Down, in the row of the document *)
Lemma vertical_inv d f' : (d = DUp \/ d = DDown) -> field_move cfg p f (OpMoveCaret d MChar) = Some f' ->
  exists ed', step env ed (OpMoveCaret d MChar) = Ok (ed', OutNone _) /\ inv_field (mkSession (s_past s) f' (s_future s)) ed'.
Proof.
  intros Hd Hf. set (k := match d with DUp => f_lo f | _ => f_hi f end).
  assert (Hk : p = [] /\ f_at f k k = Some f') by (destruct Hd as [-> | ->]; cbn [field_move] in Hf; now apply edge_at).
  destruct Hk as [Ep Hk]. destruct (at_good (if_good I) Hk) as (G&Et&Ea&Ec).
  assert (Hcar : collapsed (mkMinPos p k) = field_caret p f') by (unfold field_caret; rewrite Ea, Ec; reflexivity).
  assert (Hgoes : f_anchor f = f_cursor f -> goes (env_cfg env) (ed_input ed) (mkMinPos p (f_cursor f)) (OpMoveCaret d MChar) (mkMinPos p (f_cursor f)) /\ k = f_cursor f).
  { intros Hsame. split; [|unfold k, f_lo, f_hi; rewrite Hsame; destruct d; lia]. rewrite Ep. destruct Hd as [-> | ->].
    - exact (@goes_up (env_cfg env) (ed_input ed) (mkMinPos [] (f_cursor f)) None (up_root _)).
    - exact (@goes_down (env_cfg env) (ed_input ed) (mkMinPos [] (f_cursor f)) None (down_root _)). }
  destruct if_pending as [(q&n&rule&Hco&Hsame&->)|Hnp].
  - destruct (Hgoes Hsame) as [Hg Ek].
    destruct (leave_step if_wf Hco Hg) as (Hkeep&_). destruct Hkeep as (ed'&Hs&E1&E2&E3).
    + left. split; apply pos_le_row; cbn; lia.
    + exists ed'. split; [exact Hs|]. apply move_inv; auto. rewrite E3, <- Ek. exact Hcar.
  - destruct (if_start Hnp) as (x&Hs). destruct (get_caret_row if_get) as (c&r&Hc&Hr&Gr&Er).
    assert (Hnav : exists c', nav_move_caret cfg (ed_input ed) c d MChar = Ok c' /\ caret_to_minimal c' = collapsed (mkMinPos p k)).
    { destruct (Nat.eq_dec (f_anchor f) (f_cursor f)) as [Hsame|Hdiff].
      - destruct (Hgoes Hsame) as [Hg Ek]. rewrite Ek.
        destruct (@arrow_goes SyntaxNode env (ed_input ed) _ d _ if_wf (if_pos (proj1 (proj2 (if_good I)))) Hg) as (c1&c'&E1&E2&E3&_).
        rewrite (if_caret I) in Hc. unfold field_caret in Hc. fold f in Hc. rewrite Hsame in Hc. unfold collapsed in E1. unfold f in *. rewrite Hc in E1. injection E1 as <-. eauto.
      - assert (Hne : rg_start r <> rg_end r).
        { apply (f_equal mr_start) in Er as X. apply (f_equal mr_end) in Er as Y. cbn in X, Y. rewrite X, Y. exact Hdiff. }
        destruct (@selection_arrows cfg _ _ _ _ if_wf Hc Hr Hne) as (_&_&HU&HD). rewrite Er in HU, HD. cbn [mr_row] in HU, HD. rewrite Ep in HU, HD.
        destruct Hd as [-> | ->].
        + destruct HU as (c'&t&E1&Hu&E2). exists c'. split; [exact E1|]. rewrite E2. inversion Hu as [H1| | |]; try (destruct p0; discriminate). rewrite Ep. reflexivity.
        + destruct HD as (c'&t&E1&Hu&E2). exists c'. split; [exact E1|]. rewrite E2. inversion Hu as [H1| | |]; try (destruct p0; discriminate). rewrite Ep. reflexivity. }
    destruct Hnav as (c'&E1&E2). cbn [step]. unfold move_caret. rewrite Hs. cbn [bind set_autocomplete ed_input ed_caret]. rewrite Hc. cbn [bind].
    unfold cfg in E1. rewrite E1. cbn [bind builder_finish]. rewrite finish_autocorrect_none. cbn [bind]. eexists. split; [reflexivity|].
    apply move_inv; auto. cbn [set_caret ed_caret]. now rewrite E2.
Qed.

(** *** Every step *)
Lemma quiet op s' : (exists ed', step env ed op = Ok (ed', OutNone _) /\ inv_field s' ed') -> exists ed' out, step env ed op = Ok (ed', out) /\ inv_field s' ed'.
Proof. intros (ed'&H). eauto. Qed.
Lemma field_step_inv op s' : Forall (fun s => s <> []) (typed_symbols op) -> leaves_alone env ed op -> field_step cfg fresh p s op = Some s' ->
  exists ed' out, step env ed op = Ok (ed', out) /\ inv_field s' ed'.
Proof.
  intros Hv Hq H. unfold field_step in H. fold f in H. destruct op; cbn [field_edit] in H; try discriminate.
  - destruct (field_move cfg p f (OpMoveCaret d m)) as [f'|] eqn:Ef; [|discriminate]. injection H as <-.
    destruct d, m; try discriminate; apply quiet; (apply arrow_inv; now auto) || (apply vertical_inv; now auto).
  - destruct (field_move cfg p f (OpSelectWithCaret d m)) as [f'|] eqn:Ef; [|discriminate]. injection H as <-.
    destruct d, m; try discriminate; apply shift_inv; auto.
  - cbn [field_move] in H. destruct (f_lo f <? f_hi f) eqn:El.
    + injection H as <-. apply quiet, selection_removed. now apply Nat.ltb_lt.
    + apply Nat.ltb_ge in El. assert (Eq : f_lo f = f_hi f) by (unfold f_lo, f_hi in *; lia). destruct (if_good I) as (L1&L2&_). fold f in L1, L2.
      assert (Hnone : forall mode d s1, remove_dir mode = Some d -> match d with HLeft => f_cursor f = 0 | HRight => f_cursor f = length (f_text f) end ->
        match (if overflow_checks cfg then None else f_edge p f (f_cursor f) (f_cursor f)) with Some f0 => Some (mkSession (s_past s) f0 (s_future s)) | None => None end = Some s1 ->
        exists ed' out, step env ed (OpRemoveAtCaret mode) = Ok (ed', out) /\ inv_field s1 ed').
      { intros mode d s1 Hd He H1. destruct (overflow_checks cfg) eqn:Hov; [discriminate|]. destruct (f_edge p f (f_cursor f) (f_cursor f)) as [f1|] eqn:Ef; [|discriminate]. injection H1 as <-.
        apply edge_at in Ef as [Ep Ef]. destruct (nothing_removed Eq Hd He Ep Hov) as (x&Hs). eexists _, _. split; [exact Hs|]. destruct (at_good (if_good I) Ef) as (G&Et&Ea&Ec).
        apply move_inv; auto. cbn [set_autocomplete ed_caret]. rewrite (if_caret I). unfold field_caret. fold f. rewrite Ea, Ec. replace (f_anchor f) with (f_cursor f) by (unfold f_lo, f_hi in Eq; lia). reflexivity. }
      destruct m.
      * destruct (f_cursor f) as [|k] eqn:Ec; [exact (Hnone RemoveLeft HLeft s' eq_refl eq_refl H)|]. injection H as <-. eapply quiet, symbol_removed_inv with (d := HLeft); [exact Eq|reflexivity|exact Ec|lia].
      * destruct (f_cursor f <? length (f_text f)) eqn:Ec; [|apply Nat.ltb_ge in Ec; apply (Hnone RemoveRight HRight s' eq_refl); [lia|exact H]]. injection H as <-. apply Nat.ltb_lt in Ec. eapply quiet, symbol_removed_inv with (d := HRight); [exact Eq|reflexivity|reflexivity|exact Ec].
      * injection H as <-. apply quiet, nothing_cut. exact Eq.
  - injection H as <-. apply quiet, typing_inv. exact Hv.
  - destruct (field_move cfg p f OpSelectAll) as [f'|] eqn:Ef; [|discriminate]. injection H as <-. apply quiet.
    apply edge_at in Ef as [Ep Ef]. destruct (at_good (if_good I) Ef) as (G&Et&Ea&Ec). eexists. split; [reflexivity|]. apply move_inv; auto.
    cbn [select_all set_caret ed_caret]. unfold field_caret. rewrite Ea, Ec, (if_length Ep), Ep. reflexivity.
  - destruct (s_past s) as [|[b a] past] eqn:Ep.
    + assert (Hf : fresh = true /\ s = s') by (revert H; clear; destruct fresh; [intros H; split; congruence|discriminate]). destruct Hf as [Hf <-].
      exists ed. eexists. split; [exact (undo_nothing Ep Hf)|exact I].
    + injection H as <-. apply quiet, undo_inv. exact Ep.
  - destruct (s_future s) as [|[b a] future] eqn:Ep.
    + assert (Hf : fresh = true /\ s = s') by (revert H; clear; destruct fresh; [intros H; split; congruence|discriminate]). destruct Hf as [Hf <-].
      exists ed. eexists. split; [exact (redo_nothing Ep Hf)|exact I].
    + injection H as <-. apply quiet, redo_inv. exact Ep.
  - cbn [field_move] in H. destruct p0 as [q k]. destruct (rowindices_eqb q p) eqn:E; [|discriminate]. apply rowindices_eqb_eq in E. subst q.
    destruct (f_at f k k) as [f'|] eqn:Ef; [|discriminate]. injection H as <-. apply quiet, click_inv; auto.
  - cbn [field_move] in H. destruct p0 as [q k]. destruct (rowindices_eqb q p) eqn:E; [|discriminate]. apply rowindices_eqb_eq in E. subst q.
    destruct (f_at f (f_anchor f) k) as [f'|] eqn:Ef; [|discriminate]. injection H as <-. apply quiet, drag_inv; auto.
  - cbn [field_move] in H. injection H as <-. apply quiet. eexists. split; [reflexivity|]. apply move_inv; auto; [exact (if_good I)|exact (if_caret I)].
Qed.
End Step.

Lemma field_run_inv ops : forall s ed s', inv_field s ed -> Forall (fun s => s <> []) (flat_map typed_symbols ops) -> all_along env (leaves_alone env) ed ops ->
  field_run cfg fresh p s ops = Some s' -> exists ed', run env ed ops = Ok ed' /\ inv_field s' ed'.
Proof.
  induction ops as [|op ops IH]; intros s ed s' I Hv Hq H.
  - cbn in H. injection H as <-. exists ed. split; [reflexivity|exact I].
  - cbn [flat_map] in Hv. apply Forall_app in Hv as [Hv1 Hv2]. cbn [all_along] in Hq. destruct Hq as [Hq1 Hq2].
    cbn [field_run] in H. destruct (field_step cfg fresh p s op) as [s1|] eqn:Es; [|discriminate].
    destruct (field_step_inv I Hv1 Hq1 Es) as (ed1&out&Hs&I1). cbn [run]. rewrite Hs. cbn [bind]. exact (IH _ _ _ I1 Hv2 (Hq2 _ _ Hs) H).
Qed.
End Field.

(** The editor does what the text field does. *)
Lemma text_field (SyntaxNode : Type) (env : Env SyntaxNode) ed fresh p f ops s : Forall ascii_rule (env_rules env) -> proper nonempty (ed_input ed) ->
  row_get (ed_input ed) p = Some (map Symbol (f_text f)) -> ed_caret ed = field_caret p f -> f_anchor f <= length (f_text f) -> f_cursor f <= length (f_text f) ->
  Forall (fun s => s <> []) (flat_map typed_symbols ops) -> all_along env (leaves_alone env) ed ops ->
  (fresh = true -> ed_undo ed = undo_new) -> field_run (env_cfg env) fresh p (mkSession [] f []) ops = Some s ->
  exists ed', run env ed ops = Ok ed' /\ shows_field (ed_input ed) p (s_field s) ed'.
Proof.
  intros Hasc Hp Hr Hc L1 L2 Hv Hq Hfr H.
  assert (I : inv_field env (ed_input ed) p fresh (mkSession [] f []) ed).
  { split; cbn [s_field s_past s_future].
    - destruct (@replaced_exists p _ (map Symbol (f_text f)) _ Hr) as (d&Hd). exists (map Symbol (f_text f)). rewrite <- (replaced_refl Hd) at 2. exact Hd.
    - exact Hc.
    - split; [exact L1|]. split; [exact L2|]. rewrite Forall_forall. intros x Hx. destruct Hp as [_ Hp]. apply (Hp (PartSymbol x)).
      eapply row_get_parts; [exact Hr|]. apply in_row_parts. exists (Symbol x). split; [now apply in_map|now left].
    - constructor. intros E. now rewrite (Hfr E).
    - constructor. intros E. now rewrite (Hfr E). }
  destruct (field_run_inv Hasc Hp I Hv Hq H) as (ed'&Hs&I'). exists ed'. split; [exact Hs|]. split; [exact (if_doc I')|exact (if_caret I')].
Qed.
