(** The editor as a history of documents. *)
From Verif Require Import Base Str Grid Node Focus Edit Caret Autocomplete Editor Spec SpecEditor SpecMove BaseFacts
  TreeFacts OrderFacts EditFacts TreeProofs MoveFacts MoveProofs.
Set Implicit Arguments.
Unset Strict Implicit.

(** ** Ranges and edits without well-formedness *)
Lemma range_from_positions_good doc s e r : range_from_positions doc s e = Ok r -> good_range doc r.
Proof.
  unfold range_from_positions. intros H. cbv zeta in H. apply bind_ok in H as (f&Hf&H).
  apply range_new_inv in H as (->&H1&H2). apply walk_canonical in Hf as [Hc _]. split; auto.
Qed.
Lemma caret_row_good doc m c r : caret_from_minimal doc m = Ok c -> c_selection c = SelRow r -> good_range doc r.
Proof.
  unfold caret_from_minimal, caret_new. intros H Hr. apply bind_ok in H as (s&Hs&H). apply bind_ok in H as (e&He&H).
  apply bind_ok in H as (sel&Hsel&H). inv H. cbn in Hr. subst sel.
  unfold selection_from_positions in Hsel. apply bind_ok in Hsel as (sr&Hsr&H). apply range_from_positions_good in Hsr.
  destruct (negb _); [inv H; auto|]. destruct (negb _); [inv H; auto|].
  destruct (nth_error _ _); [|inv H; auto]. destruct (nth_error _ _); [|inv H; auto].
  repeat (apply bind_ok in H as (?&_&H)). discriminate.
Qed.

Definition makes (cfg : Cfg) (doc : InputRow) (es : list BasicEdit) : Prop := exists doc', chain cfg doc es doc'.

Lemma remove_range_makes cfg doc r es p : good_range doc r -> remove_range r = Ok (es, p) -> makes cfg doc es.
Proof. intros G H. rewrite (remove_range_eq G) in H. inv H. destruct (remove_range_chain cfg G) as (d&Hc&_). now exists d. Qed.
Lemma replace_range_makes cfg doc r vs es p : good_range doc r -> replace_range r vs = Ok (es, p) -> makes cfg doc es.
Proof. intros G H. rewrite (replace_range_eq vs G) in H. inv H. destruct (replace_range_chain cfg vs G) as (d&Hc&_). now exists d. Qed.

Lemma flatten_node_inv doc n k es p : canonical doc (fn_parent n) -> flatten_node n k = Ok (Some (es, p)) ->
  exists v g r, fn_node n = Container v g /\ range_new (fn_parent n) (fn_index n) (fn_index n + 1) = Ok r /\ good_range doc r /\
    replace_range r (concat (gvalues g)) = Ok (es, mkMinRange (rg_indices r) (rg_left r) (rg_left r + length (concat (gvalues g)))) /\
    p = mkMinPos (fr_indices (fn_parent n)) (fn_index n + k).
Proof.
  unfold flatten_node. intros Hc H. apply bind_ok in H as (g&Hg&H). cbv zeta in H. apply bind_ok in H as (r&Hr&H).
  apply bind_ok in H as ([es' p']&Hrm&H). cbn [insert_at_position] in H. inv H.
  destruct (fn_node n) as [v g'|] eqn:En; cbn in Hg; [|discriminate]. inv Hg.
  assert (G : good_range doc r).
  { pose proof (range_new_inv Hr) as (Er&Hb1&Hb2). rewrite Er. split; auto. }
  exists v, g, r. split; auto. split; auto. split; auto.
  rewrite (remove_range_eq G) in Hrm. inv Hrm. rewrite (replace_range_eq _ G). split; [reflexivity|].
  pose proof (range_new_inv Hr) as (Er&Hb1&Hb2). rewrite Er.
  unfold rg_indices, rg_left, rg_is_forwards. cbn. replace (fn_index n <=? fn_index n + 1) with true by lia. reflexivity.
Qed.
Lemma flatten_node_makes cfg doc n k es p : canonical doc (fn_parent n) -> flatten_node n k = Ok (Some (es, p)) -> makes cfg doc es.
Proof.
  intros Hc H. destruct (flatten_node_inv Hc H) as (v&g&r&_&_&G&Hr&_). eapply replace_range_makes; eauto.
Qed.

Lemma remove_move_inv cfg caret d es p : remove_move_caret cfg caret d = Ok (Some (es, p)) -> es = [].
Proof. unfold remove_move_caret. intros H. apply bind_ok in H as ([q|]&_&H); now inv H. Qed.

Lemma makes_nil cfg doc : makes cfg doc [].
Proof. exists doc. constructor. Qed.

Lemma remove_position_makes cfg doc q d es p : good_pos doc q ->
  remove_at_caret_position cfg q d = Ok (Some (es, p)) -> makes cfg doc es.
Proof.
  intros [Hc Ho] H. unfold remove_at_caret_position in H. cbv zeta in H.
  destruct (match focus_offset_to_index (pos_focus q) (pos_offset q) d with
            | Some index => match focus_node_at (pos_focus q) index with Some n => Some (index, n) | None => None end
            | None => None end) as [[i [v g|s]]|] eqn:En.
  - assert (Hmv : remove_move_caret cfg q d = Ok (Some (es, p)) -> makes cfg doc es).
    { intros Hm. apply remove_move_inv in Hm. subst. apply makes_nil. }
    assert (Hfl : (n <- unwrap (focus_child_at (pos_focus q) i) ;; flatten_node n 0) = Ok (Some (es, p)) -> makes cfg doc es).
    { intros Hf. apply bind_ok in Hf as (n&Hn&Hf). eapply flatten_node_makes; eauto.
      unfold focus_child_at in Hn. destruct (nth_error _ _); cbn in Hn; now inv Hn. }
    destruct v, d; auto.
  - apply bind_ok in H as (r&Hr&H). apply bind_ok in H as ([es' p']&Hrm&H). inv H.
    apply range_new_inv in Hr as (->&H1&H2). eapply remove_range_makes; [|exact Hrm]. split; auto.
  - apply bind_ok in H as (iip&Hi&H). destruct (focus_parent (pos_focus q)) as [n|] eqn:Ep; [|discriminate].
    apply bind_ok in H as (j&Hj&H). pose proof (canonical_parent_inv Hc Ep) as (p'&j'&_&Hcp&_).
    assert (Hmv : remove_move_caret cfg q d = Ok (Some (es, p)) -> makes cfg doc es).
    { intros Hm. apply remove_move_inv in Hm. subst. apply makes_nil. }
    assert (Hfl : forall k, flatten_node n k = Ok (Some (es, p)) -> makes cfg doc es).
    { intros k Hf. eapply flatten_node_makes; eauto. }
    assert (Hgen : forall k0 : Res bool, forall e, (at_edge <- k0 ;;
                  (if at_edge && e then flatten_node n 0 else remove_move_caret cfg q d)) = Ok (Some (es, p)) -> makes cfg doc es).
    { intros k0 e Hg. apply bind_ok in Hg as (b&_&Hg). destruct (b && _); eauto. }
    destruct (fn_node n) as [[] g|s]; cbn [node_grid] in *; try discriminate H; try (eapply Hgen; exact H).
    + destruct (_ || _); [|eapply Hgen; exact H]. do 3 (apply bind_ok in H as (?&_&H)). eauto.
    + destruct (_ || _); [|eapply Hgen; exact H]. do 3 (apply bind_ok in H as (?&_&H)). eauto.
    + destruct d; [eauto|eapply Hgen; exact H].
    + destruct d; [eauto|eapply Hgen; exact H].
Qed.

Lemma good_start doc r : good_range doc r -> good_pos doc (rg_start_position r).
Proof. intros (H1&H2&H3). split; auto. Qed.

Lemma remove_at_caret_makes cfg doc r mode es p : good_range doc r ->
  remove_at_caret cfg r mode = Ok (Some (es, p)) -> makes cfg doc es.
Proof.
  intros G H. unfold remove_at_caret in H. destruct (negb _).
  - apply bind_ok in H as ([es' p']&Hr&H). inv H. eapply remove_range_makes; eauto.
  - destruct mode.
    + exact (remove_position_makes (good_start G) H).
    + exact (remove_position_makes (good_start G) H).
    + apply bind_ok in H as ([es' p']&Hr&H). inv H. eapply remove_range_makes; eauto.
Qed.

Lemma insert_at_range_inv r vs x : insert_at_range r vs = Ok x ->
  exists es rg, replace_range r vs = Ok (es, rg) /\
    x = Some (es, mkMinPos (mr_row rg) (if mr_start rg <? mr_end rg then mr_end rg else mr_start rg)).
Proof. unfold insert_at_range. intros H. apply bind_ok in H as ([es rg]&Hr&H). inv H. eauto. Qed.

(** ** Committed edits *)
Inductive committed (cfg : Cfg) : InputRow -> list CaretEdit -> InputRow -> Prop :=
| committed_nil d : committed cfg d [] d
| committed_cons d ce d1 ces d2 : chain cfg d (ce_edits ce) d1 -> committed cfg d1 ces d2 -> committed cfg d (ce :: ces) d2.

Lemma committed_app cfg d ces d1 ces' d2 : committed cfg d ces d1 -> committed cfg d1 ces' d2 -> committed cfg d (ces ++ ces') d2.
Proof. induction 1; cbn; auto. intros. econstructor; eauto. Qed.

Section Ed.
Context {SyntaxNode : Type}.
Variable env : Env SyntaxNode.
Implicit Type ed : MathEditor SyntaxNode.
Let cfg := env_cfg env.

(** From [ed] to [ed'] the edits [ces] were committed. *)
Record advanced ed (ces : list CaretEdit) ed' : Prop := mkAdvanced {
  adv_committed : committed cfg (ed_input ed) ces (ed_input ed');
  adv_undo : undo_stack (ed_undo ed') = rev ces ++ undo_stack (ed_undo ed);
  adv_redo : redo_stack (ed_undo ed') = match ces with [] => redo_stack (ed_undo ed) | _ => [] end;
  adv_parsed : ed_parsed ed' = match ces with [] => ed_parsed ed | _ => None end }.

Lemma advanced_same ed ed' : ed_input ed' = ed_input ed -> ed_undo ed' = ed_undo ed -> ed_parsed ed' = ed_parsed ed ->
  advanced ed [] ed'.
Proof. intros H1 H2 H3. split; rewrite ?H1, ?H2, ?H3; auto. constructor. Qed.
Lemma advanced_trans ed ces ed1 ces' ed2 : advanced ed ces ed1 -> advanced ed1 ces' ed2 -> advanced ed (ces ++ ces') ed2.
Proof.
  intros [A1 A2 A3 A4] [B1 B2 B3 B4]. split.
  - eapply committed_app; eauto.
  - rewrite B2, A2, rev_app_distr, app_assoc. reflexivity.
  - rewrite B3. destruct ces; [now rewrite A3|]. cbn [app]. destruct ces'; auto.
  - rewrite B4. destruct ces; [now rewrite A4|]. cbn [app]. destruct ces'; auto.
Qed.

Lemma builder_finish_inv ed cb es ca ed' ce : builder_finish env ed cb es ca = Ok (ed', ce) ->
  ce = mkCaretEdit cb ca es /\ ed_caret ed' = ca /\
  ((es = [] /\ ed' = set_caret ed ca) \/
   (es <> [] /\ exists input, tree_apply_edits cfg (ed_input ed) es = Ok input /\
      ed' = mkEditor input None ca (ed_selection_mode ed) (ed_autocomplete ed) (undo_push (ed_undo ed) ce))).
Proof.
  unfold builder_finish. destruct es as [|e es].
  - intros H. inv H. split; auto.
  - intros H. apply bind_ok in H as (input&Hi&H). inv H. split; auto. split; auto. right. split; [discriminate|].
    exists input. auto.
Qed.
Lemma builder_advanced ed cb es ca ed' ce : builder_finish env ed cb es ca = Ok (ed', ce) -> makes cfg (ed_input ed) es ->
  advanced ed (match es with [] => [] | _ => [ce] end) ed'.
Proof.
  intros H [d Hd]. apply builder_finish_inv in H as (->&_&[[-> ->]|(Hne&input&Hi&->)]).
  - apply advanced_same; reflexivity.
  - assert (input = d) by (apply chain_apply in Hd; congruence). subst d. destruct es as [|e es]; [congruence|].
    split; auto. econstructor; [exact Hd|constructor].
Qed.

Lemma get_autocomplete_only ed ed' r : get_autocomplete env ed = Ok (ed', r) -> exists a, ed' = set_autocomplete ed a.
Proof.
  unfold get_autocomplete. intros H. apply bind_ok in H as (c&_&H). 
  assert (Hs : exists a, ed = set_autocomplete ed a) by (exists (ed_autocomplete ed); destruct ed; reflexivity).
  destruct (c_selection c) as [range|]; [|now inv H]. destruct (rg_is_collapsed range); [|now inv H].
  cbv zeta in H. apply bind_ok in H as (ms&_&H). apply bind_ok in H as ([cur res]&_&H). inv H. eauto.
Qed.
Lemma start_autocorrect_only ed ed' a : start_autocorrect env ed = Ok (ed', a) -> exists x, ed' = set_autocomplete ed x.
Proof.
  unfold start_autocorrect. intros H. apply bind_ok in H as ([ed1 r]&H1&H). apply get_autocomplete_only in H1 as (x&->).
  destruct r; [|inv H; eauto]. apply bind_ok in H as (?&_&H). inv H. eauto.
Qed.

Lemma splice_advanced ed range vs ed' : splice_at_range env ed range vs = Ok ed' ->
  exists ce, advanced ed [ce] ed' /\ ce_before ce = ed_caret ed /\ ed_caret ed' = ed_caret ed.
Proof.
  unfold splice_at_range. intros H. cbv zeta in H. apply bind_ok in H as (r&Hr&H).
  apply rg_from_minimal_inv in Hr as [G _].
  apply bind_ok in H as ([es mr]&Hrep&H). apply bind_ok in H as (s&_&H). apply bind_ok in H as (e&_&H).
  apply bind_ok in H as ([ed1 ce]&Hb&H). inv H.
  pose proof (builder_advanced Hb (replace_range_makes cfg G Hrep)) as A.
  rewrite (replace_range_eq vs G) in Hrep. inv Hrep. exists ce. apply builder_finish_inv in Hb as (->&_&_).
  split; [|split; reflexivity]. destruct A as [A1 A2 A3 A4]. split; auto.
Qed.

Lemma apply_autocorrect_advanced ed a ed' : apply_autocorrect env ed a = Ok ed' ->
  ed' = ed \/ exists ce, advanced ed [ce] ed' /\ ce_before ce = ed_caret ed /\ ed_caret ed' = ed_caret ed.
Proof.
  unfold apply_autocorrect. destruct a as [a|]; intros H; [|inv H; auto].
  apply bind_ok in H as (c&_&H). destruct (c_selection c); [|inv H; auto].
  cbv zeta in H. apply bind_ok in H as (ar&_&H). destruct (rg_contains _ _); [inv H; auto|].
  apply bind_ok in H as (v&_&H). apply bind_ok in H as (ms&_&H). destruct (negb _); [inv H; auto|].
  right. eapply splice_advanced; eauto.
Qed.
Lemma finish_autocorrect_advanced ed a ce0 ed' : finish_autocorrect env ed a ce0 = Ok ed' ->
  ed' = ed \/ (a <> None /\ exists ce, advanced ed [ce] ed' /\ ce_before ce = ed_caret ed /\ ed_caret ed' = ed_caret ed).
Proof.
  unfold finish_autocorrect. intros H. apply bind_ok in H as (a'&Ha&H).
  destruct a as [a|].
  - apply apply_autocorrect_advanced in H as [->|H]; auto. right. split; [discriminate|auto].
  - inv Ha. inv H. auto.
Qed.

(** ** One operation *)
Definition first_before (ces : list CaretEdit) (m : MinimalCaret) : Prop :=
  match ces with [] => True | ce :: _ => ce_before ce = m end.

Lemma start_pending ed ed' a : start_autocorrect env ed = Ok (ed', Some a) -> autocorrect_pending env ed.
Proof.
  unfold start_autocorrect. intros H. apply bind_ok in H as ([ed1 r]&H1&H). destruct r as [r|]; [|discriminate].
  apply bind_ok in H as (a'&Ha&H). inv H. unfold results_start_autocorrect in Ha. apply bind_ok in Ha as (m&Hm&Ha).
  unfold get_selected in Hm. apply unwrap_ok in Hm. destruct (is_complete_match m) eqn:E; cbn in Ha; [|discriminate].
  exists ed', r, m. split; auto. split; auto. now apply Nat.eqb_eq.
Qed.
Lemma pending_mode ed m : autocorrect_pending env (set_selection_mode ed m) -> autocorrect_pending env ed.
Proof.
  intros (ed'&r&x&H&Hx). unfold get_autocomplete in H. cbn in H. unfold autocorrect_pending, get_autocomplete.
  destruct (caret_from_minimal (ed_input ed) (ed_caret ed)) as [c|]; [|discriminate]. cbn in *.
  destruct (c_selection c) as [range|]; [|discriminate]. destruct (rg_is_collapsed range); [|discriminate].
  destruct (rules_matches _ _ _ _); [|discriminate]. cbn in *. destruct (state_get_autocomplete _ _ _) as [[cu re]|]; [|discriminate].
  cbn in *. inv H. eauto.
Qed.
Lemma not_pending ed ed' a : ~ autocorrect_pending env ed -> start_autocorrect env ed = Ok (ed', a) -> a = None.
Proof. intros H Ha. destruct a; auto. elim H. eapply start_pending; eauto. Qed.

Lemma insert_nodes_advanced ed vs ed' act : insert_nodes_at_caret env ed vs = Ok (ed', act) ->
  exists ce, act = Some ce /\ advanced ed [ce] ed' /\ ce_before ce = ed_caret ed /\ ed_caret ed' = ce_after ce.
Proof.
  unfold insert_nodes_at_caret. intros H. apply bind_ok in H as (c&Hc&H).
  destruct (c_selection c) as [r|] eqn:Es; [|discriminate]. pose proof (caret_row_good Hc Es) as G.
  apply bind_ok in H as (x&Hx&H). apply insert_at_range_inv in Hx as (es&rg&Hrep&->).
  apply bind_ok in H as ([ed1 ce]&Hb&H). inv H. exists ce. split; auto.
  pose proof (builder_advanced Hb (replace_range_makes cfg G Hrep)) as A. rewrite (replace_range_eq vs G) in Hrep. inv Hrep.
  apply builder_finish_inv in Hb as (->&Hca&_). auto.
Qed.

(** Committing [es] from a state that differs from [ed] only in the remembered rule,
    then autocorrecting. *)
Lemma set_autocomplete_advanced ed x ces ed' : advanced (set_autocomplete ed x) ces ed' -> advanced ed ces ed'.
Proof. intros [A1 A2 A3 A4]. split; auto. Qed.

Lemma move_advanced ed a ca ed1 ce ed' : builder_finish env ed (ed_caret ed) [] ca = Ok (ed1, ce) ->
  finish_autocorrect env ed1 a ce = Ok ed' ->
  exists ces, advanced ed ces ed' /\ length ces <= 1 /\ (a = None -> ces = []) /\ ed_caret ed' = ca.
Proof.
  intros Hb Hf. pose proof (builder_advanced Hb (makes_nil cfg _)) as A. apply builder_finish_inv in Hb as (_&Hca&_).
  apply finish_autocorrect_advanced in Hf as [->|(Hn&ce'&A'&_&Hcar)].
  - exists []. split; auto.
  - exists [ce']. split; [exact (advanced_trans A A')|]. split; auto. split; [tauto|]. congruence.
Qed.
Lemma edit_advanced ed a ed1 ce0 ces0 ed' : advanced ed ces0 ed1 -> finish_autocorrect env ed1 a ce0 = Ok ed' ->
  ed_caret ed1 = ce_after ce0 -> first_before ces0 (ed_caret ed) ->
  exists ces, advanced ed ces ed' /\ length ces <= length ces0 + 1 /\ (a = None -> ces = ces0) /\
    (ces0 <> [] -> ces <> [] /\ first_before ces (ed_caret ed)) /\ ed_caret ed' = ce_after ce0.
Proof.
  intros A Hf Hca Hfb.
  apply finish_autocorrect_advanced in Hf as [->|(Hn&ce'&A'&_&Hcar)].
  - exists ces0. split; auto. split; [lia|]. split; auto.
  - exists (ces0 ++ [ce']). split; [exact (advanced_trans A A')|]. split; [rewrite app_length; simpl; lia|].
    split; [tauto|]. split; [|congruence]. intros Hne. destruct ces0; [congruence|]. split; [discriminate|exact Hfb].
Qed.

Ltac unchanged := exists []; split; [apply advanced_same; reflexivity|cbn; repeat split; auto; try lia].
Ltac autocorrected ed1 a x Hm Ha H :=
  apply bind_ok in Hm as ([ed1 a]&Ha&H);
  let E := fresh in pose proof (start_autocorrect_only Ha) as (x&E); subst ed1.

Lemma step_advanced ed op ed' out : step env ed op = Ok (ed', out) -> is_undo_redo op = false -> op <> OpGetSyntaxTree ->
  exists ces, advanced ed ces ed' /\ appends op (length ces) /\
    (is_passive op = true -> ~ autocorrect_pending env ed -> ces = []) /\
    (~ autocorrect_pending env ed \/ length ces = 2 \/ is_direct op = true -> first_before ces (ed_caret ed)).
Proof.
  intros H Hop Hst.
  assert (Hmove : forall ces a x ed1, appends op 0 -> appends op 1 ->
            start_autocorrect env ed = Ok (ed1, a) -> advanced (set_autocomplete ed x) ces ed' ->
            length ces <= 1 -> is_direct op = false -> (a = None -> ces = []) ->
            exists ces, advanced ed ces ed' /\ appends op (length ces) /\
              (is_passive op = true -> ~ autocorrect_pending env ed -> ces = []) /\
              (~ autocorrect_pending env ed \/ length ces = 2 \/ is_direct op = true -> first_before ces (ed_caret ed))).
  { intros ces a x ed1 H0 H1 Ha A Hl Hd Hn. exists ces. split; [now apply set_autocomplete_advanced in A|].
    split; [destruct ces as [|? []]; cbn in *; auto; lia|]. split.
    - intros _ Hp. apply Hn. eapply not_pending; eauto.
    - intros [Hp|[Hp|Hp]]; [|lia|congruence]. rewrite (Hn (not_pending Hp Ha)). exact I. }
  assert (Hedit : forall ces ces0 a x ed1, appends op (length ces) ->
            start_autocorrect env ed = Ok (ed1, a) -> advanced (set_autocomplete ed x) ces ed' ->
            is_passive op = false -> (a = None -> ces = ces0) -> length ces <= length ces0 + 1 -> length ces0 <= 1 ->
            (ces0 = [] -> is_direct op = false) ->
            (ces0 <> [] -> ces <> [] /\ first_before ces (ed_caret ed)) ->
            exists ces, advanced ed ces ed' /\ appends op (length ces) /\
              (is_passive op = true -> ~ autocorrect_pending env ed -> ces = []) /\
              (~ autocorrect_pending env ed \/ length ces = 2 \/ is_direct op = true -> first_before ces (ed_caret ed))).
  { intros ces ces0 a x ed1 H0 Ha A Hp Hn Hl Hl0 Hd Hf. exists ces. split; [now apply set_autocomplete_advanced in A|].
    split; auto. split; [congruence|]. destruct ces0 as [|c ces0]; [|intros _; apply Hf; discriminate].
    intros [Hq|[Hq|Hq]]; [|cbn in Hl; lia|rewrite Hd in Hq; auto; discriminate]. rewrite (Hn (not_pending Hq Ha)). exact I. }
  destruct op; try discriminate; cbn [step appends is_passive is_direct] in *; try congruence.
  - (* move *)
    apply bind_ok in H as (ed1&Hm&H). inv H. unfold move_caret in Hm. autocorrected ed1 a x Hm Ha H.
    apply bind_ok in H as (c&_&H). apply bind_ok in H as (c'&_&H). apply bind_ok in H as ([ed2 ce]&Hb&H).
    destruct (move_advanced Hb H) as (ces&A&Hl&Hn&_). eauto.
  - (* select *)
    apply bind_ok in H as ([ed1 b]&Hm&H). inv H. unfold select_with_caret in Hm. autocorrected ed1 a x Hm Ha H.
    apply bind_ok in H as (c&_&H). destruct (c_selection c); [|discriminate]. apply bind_ok in H as (ne&_&H).
    destruct ne as [ne|]; [|inv H; unchanged].
    apply bind_ok in H as ([ed2 ce]&Hb&H). apply bind_ok in H as (ed3&Hf&H). inv H.
    destruct (move_advanced Hb Hf) as (ces&A&Hl&Hn&_). eauto.
  - (* remove *)
    apply bind_ok in H as ([ed1 b]&Hm&H). inv H. unfold editor_remove_at_caret in Hm. autocorrected ed1 a x Hm Ha H.
    apply bind_ok in H as (c&Hc&H). destruct (c_selection c) as [r|] eqn:Es; [|discriminate].
    pose proof (caret_row_good Hc Es) as G.
    apply bind_ok in H as (y&Hy&H). destruct y as [[es p]|]; [|inv H; unchanged].
    apply bind_ok in H as ([ed2 ce]&Hb&H). apply bind_ok in H as (ed3&Hf&H). inv H.
    pose proof (builder_advanced Hb (remove_at_caret_makes G Hy)) as A. apply builder_finish_inv in Hb as (->&Hca&_).
    destruct es as [|e es].
    + destruct (edit_advanced A Hf Hca ltac:(cbn; auto)) as (ces&A'&Hl&Hn&Hne&_).
      eapply (Hedit ces []); eauto; cbn in *; try lia; congruence.
    + destruct (edit_advanced A Hf Hca ltac:(cbn; auto)) as (ces&A'&Hl&Hn&Hne&_).
      eapply (Hedit ces); eauto; cbn in *; try lia.
  - (* insert *)
    apply bind_ok in H as (ed1&Hm&H). inv H. unfold insert_at_caret in Hm. autocorrected ed1 a x Hm Ha H.
    apply bind_ok in H as ([ed2 act]&Hi&H). apply insert_nodes_advanced in Hi as (ce&->&A&Hbe&Hca).
    destruct (edit_advanced A H Hca ltac:(cbn; auto)) as (ces&A'&Hl&Hn&Hne&_).
    eapply (Hedit ces); eauto; cbn in *; try lia; try discriminate. destruct Hne as [Hne _]; [discriminate|].
    destruct ces as [|? [|? []]]; cbn in *; try lia; try congruence.
  - inv H. unchanged.
  - (* start selection *)
    apply bind_ok in H as (ed1&Hm&H). inv H. unfold start_selection in Hm. cbv zeta in Hm. autocorrected ed1 a x Hm Ha H.
    apply bind_ok in H as ([ed2 ce]&Hb&H). destruct (move_advanced Hb H) as (ces&A&Hl&Hn&_). exists ces.
    apply set_autocomplete_advanced in A. split; [destruct A as [A1 A2 A3 A4]; split; auto|]. split; auto. split.
    + intros _ Hp. apply Hn. eapply not_pending; [|exact Ha]. intros Hq. apply Hp. eapply pending_mode; eauto.
    + intros [Hp|[Hp|Hp]]; [|lia|discriminate]. rewrite Hn; [exact I|]. eapply not_pending; [|exact Ha]. intros Hq. apply Hp.
      eapply pending_mode; eauto.
  - (* extend selection *)
    apply bind_ok in H as (ed1&Hm&H). inv H. unfold extend_selection in Hm. autocorrected ed1 a x Hm Ha H.
    apply bind_ok in H as ([ed2 ce]&Hb&H). destruct (move_advanced Hb H) as (ces&A&Hl&Hn&_). eauto.
  - inv H. unchanged.
  - apply bind_ok in H as (s&_&H). inv H. unchanged.
  - (* paste *)
    apply bind_ok in H as ([ed1 b]&Hm&H). inv H. unfold paste in Hm. autocorrected ed1 a x Hm Ha H.
    destruct (negb json); [discriminate|].
    destruct (env_deserialize env data) as [nodes|]; [|inv H; unchanged].
    apply bind_ok in H as ([ed2 act]&Hi&H). apply insert_nodes_advanced in Hi as (ce&->&A&Hbe&Hca).
    apply bind_ok in H as (ed3&Hf&H). inv H.
    destruct (edit_advanced A Hf Hca ltac:(cbn; auto)) as (ces&A'&Hl&Hn&Hne&_).
    eapply (Hedit ces); eauto; cbn in *; try lia; try discriminate.
  - apply bind_ok in H as ([ed1 b]&Hm&H). inv H. unfold open_autocomplete in Hm.
    apply bind_ok in Hm as ([ed1 r]&Hg&H). inv H. apply get_autocomplete_only in Hg as (x&->). unchanged.
  - (* finish autocomplete *)
    apply bind_ok in H as ([ed1 b]&Hm&H). inv H. unfold finish_autocomplete in Hm.
    destruct accept; cbn [negb] in Hm; [|inv Hm; unchanged].
    apply bind_ok in Hm as ([ed1 r]&Hg&H). apply get_autocomplete_only in Hg as (x&->).
    destruct r as [r|]; [|inv H; unchanged].
    apply bind_ok in H as (m&_&H). cbv zeta in H. apply bind_ok in H as (ed2&Hsp&H). inv H.
    apply splice_advanced in Hsp as (ce&A&Hb&_). exists [ce]. split; [now apply set_autocomplete_advanced in A|]. cbn. split; auto.
    split; [discriminate|auto].
  - apply bind_ok in H as ([ed1 b]&Hm&H). inv H. unfold move_in_autocomplete in Hm.
    apply bind_ok in Hm as ([ed1 r]&Hg&H). apply get_autocomplete_only in Hg as (x&->).
    destruct r; [apply bind_ok in H as (?&_&H)|]; inv H; unchanged.
  - apply bind_ok in H as (c&_&H). inv H. unchanged.
  - apply bind_ok in H as (ed1&Hsp&H). inv H. apply splice_advanced in Hsp as (ce&A&Hb&_). exists [ce]. split; auto.
    cbn. split; auto. split; [discriminate|auto].
Qed.

(** ** The history *)
Inductive stacked : InputRow -> list CaretEdit -> list InputRow -> Prop :=
| stacked_nil d : stacked d [] []
| stacked_cons p ce d stk ps : chain cfg p (ce_edits ce) d -> stacked p stk ps -> stacked d (ce :: stk) (p :: ps).
Inductive redoable : InputRow -> list CaretEdit -> list InputRow -> Prop :=
| redoable_nil d : redoable d [] []
| redoable_cons d ce f stk fs : chain cfg d (ce_edits ce) f -> redoable f stk fs -> redoable d (ce :: stk) (f :: fs).
Record hist_inv ed (h : History) : Prop := mkHistInv {
  hi_present : present h = ed_input ed;
  hi_past : stacked (ed_input ed) (undo_stack (ed_undo ed)) (past h);
  hi_future : redoable (ed_input ed) (redo_stack (ed_undo ed)) (future h) }.

Lemma hist_inv_new : hist_inv (@editor_new SyntaxNode) empty_history.
Proof. split; constructor. Qed.

Lemma hist_stay_any ed ed' h : hist_inv ed h -> ed_input ed' = ed_input ed -> ed_undo ed' = ed_undo ed -> hist_inv ed' h.
Proof. intros [H1 H2 H3] E1 E2. split; rewrite ?E1, ?E2; auto. Qed.

Lemma undo_hist ed h : hist_inv ed h -> exists ed' b, undo env ed = Ok (ed', b) /\
  (match past h with
   | [] => b = false /\ ed' = ed
   | p :: ps => b = true /\ hist_inv ed' (mkHistory ps p (ed_input ed :: future h))
   end).
Proof.
  intros [H1 H2 H3]. unfold undo, undo_undo. inversion H2 as [|p ce d stk ps Hc Hs Ed Es Ep].
  - exists ed, false. auto.
  - unfold apply_action. cbn [set_undo ed_input caret_edit_inverse ce_edits]. fold cfg. rewrite (chain_inverse Hc). cbn [bind].
    eexists _, true. split; [reflexivity|]. split; auto. split; cbn; auto. econstructor; eauto.
Qed.
Lemma redo_hist ed h : hist_inv ed h -> exists ed' b, redo env ed = Ok (ed', b) /\
  (match future h with
   | [] => b = false /\ ed' = ed
   | f :: fs => b = true /\ hist_inv ed' (mkHistory (ed_input ed :: past h) f fs)
   end).
Proof.
  intros [H1 H2 H3]. unfold redo, undo_redo. inversion H3 as [|d ce f stk fs Hc Hs Ed Es Ep].
  - exists ed, false. auto.
  - unfold apply_action. cbn [set_undo ed_input]. fold cfg. rewrite (chain_apply Hc). cbn [bind].
    eexists _, true. split; [reflexivity|]. split; auto. split; cbn; auto. econstructor; eauto.
Qed.

Lemma advanced_hist ed h op ces ed' (out : Out SyntaxNode) : hist_inv ed h -> advanced ed ces ed' -> appends op (length ces) -> is_undo_redo op = false ->
  exists h', hist_inv ed' h' /\ hist_step h op out h'.
Proof.
  intros [H1 H2 H3] [A1 A2 A3 A4] Hap Hop. destruct h as [ps d f]. cbn in *. subst d.
  destruct ces as [|c1 [|c2 [|c3 ces]]].
  - inversion A1. subst. exists (mkHistory ps (ed_input ed) f). split; [|now constructor].
    split; cbn in *; rewrite ?A2, ?A3; try congruence; auto. 
  - inversion A1 as [|? ? d1 ? ? C1 A1']. inversion A1'. subst. exists (mkHistory (ed_input ed :: ps) (ed_input ed') []).
    split; [|now constructor]. split; cbn in *; rewrite ?A2, ?A3; auto; econstructor; eauto.
  - inversion A1 as [|? ? d1 ? ? C1 A1']. inversion A1' as [|? ? d3 ? ? C2 A2']. inversion A2'. subst.
    exists (mkHistory (d1 :: ed_input ed :: ps) (ed_input ed') []).
    split; [|now constructor]. split; cbn in *; rewrite ?A2, ?A3; auto; repeat (econstructor; eauto).
  - exfalso. destruct op; cbn in Hap; try lia. destruct accept; lia.
Qed.

Lemma step_hist ed h op ed' out : hist_inv ed h -> step env ed op = Ok (ed', out) ->
  exists h', hist_inv ed' h' /\ hist_step h op out h'.
Proof.
  intros Hi H. destruct (is_undo_redo op) eqn:Eop.
  - destruct h as [ps d f]. destruct op; try discriminate; cbn [step] in H.
    + destruct (undo_hist Hi) as (ed1&b&Hu&Hr). rewrite Hu in H. cbn in H. inv H. cbn in Hr. pose proof (hi_present Hi) as Hd. cbn in Hd. subst d.
      destruct ps as [|p ps]; destruct Hr as [-> Hr]; [subst; eexists; split; [exact Hi|constructor]|].
      eexists. split; [exact Hr|]. constructor.
    + destruct (redo_hist Hi) as (ed1&b&Hu&Hr). rewrite Hu in H. cbn in H. inv H. cbn in Hr. pose proof (hi_present Hi) as Hd. cbn in Hd. subst d.
      destruct f as [|f fs]; destruct Hr as [-> Hr]; [subst; eexists; split; [exact Hi|constructor]|].
      eexists. split; [exact Hr|]. constructor.
  - destruct (match op with OpGetSyntaxTree => true | _ => false end) eqn:Est.
    + destruct op; try discriminate. cbn [step] in H. apply bind_ok in H as ([ed1 t]&Ht&H). inv H.
      exists h. split; [|now constructor]. unfold get_syntax_tree in Ht. destruct (ed_parsed ed).
      * now inv Ht.
      * apply bind_ok in Ht as (r&_&Ht). inv Ht. eapply hist_stay_any; eauto.
    + destruct (@step_advanced _ _ _ _ H Eop) as (ces&A&Hap&_); [intros ->; discriminate|]. eapply advanced_hist; eauto.
Qed.

Lemma traced_hist ed tr ed' h : traced env ed tr ed' -> hist_inv ed h -> exists h', hist_trace h tr h' /\ hist_inv ed' h'.
Proof.
  intros Ht. revert h. induction Ht as [|ed op ed1 out tr ed2 Hs Ht IH]; intros h Hi.
  - exists h. split; [constructor|auto].
  - destruct (step_hist Hi Hs) as (h1&Hi1&Hst). destruct (IH _ Hi1) as (h2&H2&Hi2). exists h2. split; auto.
    rewrite <- (hi_present Hi1). econstructor; eauto.
Qed.
Lemma history_trace tr ed : traced env (@editor_new SyntaxNode) tr ed ->
  exists h, hist_trace empty_history tr h /\ present h = ed_input ed.
Proof. intros H. destruct (traced_hist H hist_inv_new) as (h&T&I). exists h. split; [exact T|]. apply I. Qed.
Lemma run_hist ops ed ed' h : run env ed ops = Ok ed' -> hist_inv ed h -> exists h', hist_inv ed' h'.
Proof.
  revert ed h. induction ops as [|op ops IH]; intros ed h H Hi.
  - inv H. eauto.
  - cbn in H. apply bind_ok in H as ([ed1 o]&Hs&H). destruct (step_hist Hi Hs) as (h1&Hi1&_). eauto.
Qed.
Lemma reachable_hist ed : reachable env ed -> exists h, hist_inv ed h.
Proof. intros [ops H]. eapply run_hist; [exact H|exact hist_inv_new]. Qed.
End Ed.
