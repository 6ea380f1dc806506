(** The caret stays valid and the editor does not panic, outside of the known bugs. *)
From Coq Require Import Permutation.
From Verif Require Import Base Str Grid Node Focus Edit Caret Autocomplete Editor Spec SpecAuto SpecEditor SpecMove SpecSafety BaseFacts
  TreeFacts OrderFacts EditFacts TreeProofs MoveFacts MoveProofs SpecTrack TrackFacts AutoFacts PopupFacts EditorFacts HistoryFacts
  OpFacts SpliceFacts TypingFacts.
Set Implicit Arguments.
Unset Strict Implicit.
Implicit Type Q : Part -> Prop.

(** ** Proper content *)
Lemma in_row_symbols s r : In s (row_symbols r) <-> exists n, In n r /\ In s (node_symbols n).
Proof.
  unfold row_symbols. rewrite in_concat. split.
  - intros (x&Hx&Hs). apply in_map_iff in Hx as (n&<-&Hn). eauto.
  - intros (n&Hn&Hs). exists (node_symbols n). split; auto. now apply in_map.
Qed.
Lemma in_cell_symbols s v g c : In c (gvalues g) -> In s (row_symbols c) -> In s (node_symbols (Container v g)).
Proof.
  destruct g as [cells w]. cbn [gvalues]. intros Hc Hs. rewrite node_symbols_container. apply in_row_symbols in Hs as (n&Hn&Hs).
  apply in_row_symbols. exists n. split; auto. apply in_concat. eauto.
Qed.
Lemma row_get_symbols doc p row s : row_get doc p = Some row -> In s (row_symbols row) -> In s (row_symbols doc).
Proof.
  revert doc. induction p as [|[i j] p IH]; cbn [row_get]; intros doc H Hs; [now inv H|].
  destruct (nth_error doc i) as [[v g|]|] eqn:E; try discriminate. destruct (nth_error (gvalues g) j) as [c|] eqn:Ej; [|discriminate].
  apply in_row_symbols. exists (Container v g). split; [eapply nth_error_In; eauto|].
  eapply in_cell_symbols; [eapply nth_error_In; exact Ej|]. eauto.
Qed.
Lemma replaced_symbols_in p r r' doc doc' s : replaced p r r' doc doc' -> In s (row_symbols doc') ->
  In s (row_symbols doc) \/ In s (row_symbols r').
Proof.
  induction 1 as [|p r r' left v before cell cell' after w right H IH]; auto.
  rewrite !row_symbols_app, !row_symbols_cons, !node_symbols_container, !concat_app. cbn [concat]. rewrite !row_symbols_app, !in_app_iff. tauto.
Qed.
Lemma in_row_parts s r : In s (row_parts r) <-> exists n, In n r /\ In s (node_parts n).
Proof.
  unfold row_parts. rewrite in_concat. split.
  - intros (x&Hx&Hs). apply in_map_iff in Hx as (n&<-&Hn). eauto.
  - intros (n&Hn&Hs). exists (node_parts n). split; auto. now apply in_map.
Qed.
Lemma row_parts_app a b : row_parts (a ++ b) = row_parts a ++ row_parts b.
Proof. unfold row_parts. now rewrite map_app, concat_app. Qed.
Lemma row_parts_cons n r : row_parts (n :: r) = node_parts n ++ row_parts r.
Proof. reflexivity. Qed.
Lemma node_parts_container v cells w : node_parts (Container v (mkGrid cells w)) = PartContainer v (length cells) w :: row_parts (concat cells).
Proof.
  cbn. f_equal. unfold row_parts. induction cells as [|c cells IH]; auto. cbn [map concat]. rewrite map_app, concat_app. now f_equal.
Qed.
Lemma in_cell_parts s v g c : In c (gvalues g) -> In s (row_parts c) -> In s (node_parts (Container v g)).
Proof.
  destruct g as [cells w]. cbn [gvalues]. intros Hc Hs. rewrite node_parts_container. right. apply in_row_parts in Hs as (n&Hn&Hs).
  apply in_row_parts. exists n. split; auto. apply in_concat. eauto.
Qed.
Lemma symbols_parts s r : In s (row_symbols r) <-> In (PartSymbol s) (row_parts r).
Proof.
  revert r. cut (forall n, In s (node_symbols n) <-> In (PartSymbol s) (node_parts n)).
  { intros H r. rewrite in_row_symbols, in_row_parts. split; intros (n&Hn&Hs); exists n; split; auto; now apply H. }
  fix IH 1. intros [v [cells w]|s']; cbn; [|split; intros [E|[]]; left; congruence].
  transitivity (In (PartSymbol s) (concat (map (fun cell => concat (map node_parts cell)) cells))); [|split; [now right|intros [E|H]; [discriminate|exact H]]].
  induction cells as [|cell cells IHc]; [reflexivity|]. cbn [map concat]. rewrite !in_app_iff, IHc. apply or_iff_compat_r.
  induction cell as [|n cell IHn]; [reflexivity|]. cbn [map concat]. rewrite !in_app_iff, IHn, IH. reflexivity.
Qed.
Lemma row_get_parts doc p row s : row_get doc p = Some row -> In s (row_parts row) -> In s (row_parts doc).
Proof.
  revert doc. induction p as [|[i j] p IH]; cbn [row_get]; intros doc H Hs; [now inv H|].
  destruct (nth_error doc i) as [[v g|]|] eqn:E; try discriminate. destruct (nth_error (gvalues g) j) as [c|] eqn:Ej; [|discriminate].
  apply in_row_parts. exists (Container v g). split; [eapply nth_error_In; eauto|].
  eapply in_cell_parts; [eapply nth_error_In; exact Ej|]. eauto.
Qed.
Lemma replaced_parts_in p r r' doc doc' s : replaced p r r' doc doc' -> In s (row_parts doc') ->
  In s (row_parts doc) \/ In s (row_parts r').
Proof.
  induction 1 as [|p r r' left v before cell cell' after w right H IH]; auto.
  rewrite !row_parts_app, !row_parts_cons, !node_parts_container, !concat_app, !app_length. cbn [concat length]. rewrite !row_parts_app, !in_app_iff. cbn [In].
  rewrite !in_app_iff. tauto.
Qed.
Lemma proper_nodes_replaced Q doc p l r vs doc' : nodes_replaced doc p l r vs doc' -> proper Q doc -> proper Q vs -> proper Q doc'.
Proof.
  intros H [Hw Hq] [Vw Vq]. split; [exact (nodes_replaced_wf H Hw Vw)|]. destruct H as (row&_&_&H). intros s Hs.
  apply (replaced_parts_in H) in Hs as [Hs|Hs]; auto.
  assert (Hrow : forall s, In s (row_parts row) -> Q s) by (intros; apply Hq; eapply row_get_parts; [exact (replaced_get_old H)|auto]).
  rewrite !row_parts_app, !in_app_iff in Hs. destruct Hs as [Hs|[Hs|Hs]]; auto; apply Hrow; apply in_row_parts;
    apply in_row_parts in Hs as (n&Hn&Hs); exists n; split; auto.
  - rewrite <- (firstn_skipn l row). apply in_app_iff. auto.
  - rewrite <- (firstn_skipn r row). apply in_app_iff. auto.
Qed.
Lemma proper_nil Q : proper Q [].
Proof. split; [exact wf_row_nil|]. intros s []. Qed.
Lemma proper_symbols Q vs : (forall s, In s vs -> Q (PartSymbol s)) -> proper Q (map Symbol vs).
Proof.
  intros H. split; [apply wf_symbols|]. intros s Hs. apply in_row_parts in Hs as (n&Hn&Hs). apply in_map_iff in Hn as (s'&<-&Hn).
  destruct Hs as [<-|[]]. auto.
Qed.
Lemma proper_content Q doc p i v g : proper Q doc -> node_get doc p i = Some (Container v g) -> proper Q (concat (gvalues g)).
Proof.
  intros [Hw Hq] H. unfold node_get in H. destruct (row_get doc p) as [row|] eqn:E; [|discriminate]. split.
  - intros n Hn. apply in_concat in Hn as (c&Hc&Hn). pose proof (row_get_wf Hw E) as Hr. apply In_nth_error in Hc as (j&Hj).
    exact (wf_row_cell Hr H Hj Hn).
  - intros s Hs. apply Hq. eapply row_get_parts; [exact E|]. apply in_row_parts. exists (Container v g).
    split; [eapply nth_error_In; eauto|]. destruct g as [cells w]. rewrite node_parts_container. now right.
Qed.

(** ** Valid positions *)
Lemma prefix_dec (p q : RowIndices) : {prefix p q} + {~ prefix p q}.
Proof.
  revert q. induction p as [|x p IH]; intros q; [left; exists q; reflexivity|]. destruct q as [|y q]; [right; intros [s H]; discriminate|].
  destruct (rowindex_eq_dec x y) as [->|Hne].
  - destruct (IH q) as [H|H]; [left|right]; [destruct H as [s ->]; exists s; reflexivity|]. intros [s Hs]. apply H. exists s. now inv Hs.
  - right. intros [s Hs]. inv Hs. congruence.
Qed.
Lemma replaced_row_elsewhere p r r' doc doc' q row : replaced p r r' doc doc' -> ~ prefix p q -> row_get doc q = Some row ->
  exists row', row_get doc' q = Some row' /\ length row' = length row.
Proof.
  intros H Hn Hr. destruct (prefix_dec q p) as [[s E]|Hq].
  - subst p. destruct s as [|x s]; [elim Hn; exists []; now rewrite !app_nil_r|].
    destruct (replaced_above H) as (r1&r2&H1&H2&H3). exists r2. split; auto. rewrite Hr in H1. inv H1. exact (replaced_length H3).
  - exists row. split; auto. rewrite <- Hr. exact (replaced_elsewhere H Hn Hq).
Qed.
Lemma stays_valid doc r vs p doc' : nodes_replaced doc (mr_row r) (lo r) (hi r) vs doc' -> valid_pos doc p -> stays doc r vs p -> valid_pos doc' p.
Proof.
  intros (row&H1&H2&H) (row0&Hr&Ho) [Hn|[E Hs]].
  - destruct (replaced_row_elsewhere H Hn Hr) as (row'&Hr'&Hl). exists row'. split; auto. lia.
  - specialize (Hs _ Hr). rewrite E in *. pose proof (replaced_get_old H) as Hr2. rewrite Hr in Hr2. inv Hr2.
    eexists. split; [rewrite E; exact (replaced_get_new H)|]. rewrite !app_length, firstn_length, skipn_length.
    unfold selected_nodes, lo, hi in *. lia.
Qed.

Lemma pos_elsewhere cfg m e : ~ prefix (mp_row (re_pos e)) (mp_row m) -> pos_apply_edit cfg m (ERow e) = Ok m.
Proof.
  intros H. unfold pos_apply_edit. rewrite (@track_elsewhere cfg (mkMinRange (mp_row m) (mp_offset m) (mp_offset m)) e H).
  cbn. destruct m; reflexivity.
Qed.

Lemma mapped_valid cfg doc r vs old p doc' p' : nodes_replaced doc (mr_row r) (lo r) (hi r) vs doc' -> valid_pos doc p -> stays doc r vs p ->
  length old = hi r - lo r ->
  pos_apply_edits cfg p [ERow (mkRowEdit Delete (mkMinPos (mr_row r) (lo r)) old); ERow (mkRowEdit Insert (mkMinPos (mr_row r) (lo r)) vs)] = Ok p' ->
  valid_pos doc' p'.
Proof.
  intros Hrep Hv Hs Hold H. destruct Hs as [Hn|[E Hs]].
  - unfold pos_apply_edits in H. cbn [apply_edits] in H. rewrite pos_elsewhere in H by exact Hn. cbn [bind] in H.
    rewrite pos_elsewhere in H by exact Hn. cbn in H. inv H. eapply stays_valid; eauto. left. exact Hn.
  - unfold pos_apply_edits in H. cbn [apply_edits] in H. rewrite pos_same_row in H by (symmetry; exact E). cbn [bind] in H.
    rewrite pos_same_row in H by (symmetry; exact E). cbn [bind mp_row mp_offset] in H. inv H.
    destruct Hrep as (row&H1&H2&Hrep). destruct Hv as (row0&Hr&Ho). rewrite E in *. pose proof (replaced_get_old Hrep) as Hr2. rewrite Hr in Hr2. inv Hr2.
    eexists. split; [cbn [mp_row]; rewrite ?E; exact (replaced_get_new Hrep)|]. rewrite !app_length, firstn_length, skipn_length.
    unfold left_map, del_pos, ins_pos. cbn [re_type re_pos re_values mp_offset]. rewrite Hold.
    repeat match goal with |- context [if ?b then _ else _] => destruct b eqn:? end; lia.
Qed.

Section Ed.
Context {SyntaxNode : Type}.
Variable env : Env SyntaxNode.
Variable Q : Part -> Prop.
Implicit Type ed : MathEditor SyntaxNode.
Let cfg := env_cfg env.

(** ** The invariant *)
Inductive good_past : InputRow -> list CaretEdit -> Prop :=
| good_past_nil d : good_past d []
| good_past_cons p ce d stk : chain cfg p (ce_edits ce) d -> proper Q p -> valid_caret p (ce_before ce) -> valid_caret d (ce_after ce) ->
    good_past p stk -> good_past d (ce :: stk).
Inductive good_future : InputRow -> list CaretEdit -> Prop :=
| good_future_nil d : good_future d []
| good_future_cons d ce f stk : chain cfg d (ce_edits ce) f -> proper Q f -> valid_caret d (ce_before ce) -> valid_caret f (ce_after ce) ->
    good_future f stk -> good_future d (ce :: stk).
Record sound ed : Prop := mkSound {
  so_doc : proper Q (ed_input ed);
  so_caret : valid_caret (ed_input ed) (ed_caret ed);
  so_past : good_past (ed_input ed) (undo_stack (ed_undo ed));
  so_future : good_future (ed_input ed) (redo_stack (ed_undo ed)) }.

Lemma sound_new : sound (@editor_new SyntaxNode).
Proof.
  split; cbn; [apply proper_nil| |constructor|constructor].
  split; (exists []; split; [reflexivity|cbn; lia]).
Qed.
Lemma sound_moved ed ed' : sound ed -> ed_input ed' = ed_input ed -> ed_undo ed' = ed_undo ed -> valid_caret (ed_input ed) (ed_caret ed') -> sound ed'.
Proof. intros [H1 H2 H3 H4] E1 E2 Hc. split; rewrite ?E1, ?E2; auto. Qed.
Lemma sound_advanced ed ce ed' : sound ed -> advanced env ed [ce] ed' -> ce_before ce = ed_caret ed ->
  proper Q (ed_input ed') -> valid_caret (ed_input ed') (ce_after ce) -> valid_caret (ed_input ed') (ed_caret ed') -> sound ed'.
Proof.
  intros [H1 H2 H3 H4] [A1 A2 A3 A4] Hb Hp Ha Hc. inversion A1 as [|d0 ce0 d1 ces0 d2 C A1']; subst. inversion A1'; subst. split; auto.
  - rewrite A2. cbn. eapply good_past_cons; eauto. now rewrite Hb.
  - rewrite A3. constructor.
Qed.
Lemma chain_det doc es d1 d2 : chain cfg doc es d1 -> chain cfg doc es d2 -> d1 = d2.
Proof. intros H1 H2. apply chain_apply in H1, H2. congruence. Qed.
Lemma sound_built ed ed0 es ca ed1 ce doc' : sound ed -> ed_input ed0 = ed_input ed -> ed_undo ed0 = ed_undo ed -> ed_caret ed0 = ed_caret ed ->
  builder_finish env ed0 (ed_caret ed0) es ca = Ok (ed1, ce) -> chain cfg (ed_input ed) es doc' -> proper Q doc' -> valid_caret doc' ca -> sound ed1.
Proof.
  intros S Ei Eu Ec Hb C Hp Hv. pose proof (builder_finish_inv Hb) as (Ece&Hca&[[-> E]|(Hne&input&Hi&E)]).
  - inversion C; subst. apply (sound_moved S); [rewrite E; exact Ei|rewrite E; exact Eu|exact Hv].
  - rewrite Ei in Hi. pose proof (chain_apply C) as C'. unfold cfg in C'. rewrite C' in Hi. inv Hi.
    rewrite E. destruct S as [H1 H2 H3 H4]. split; cbn [ed_input ed_undo ed_caret undo_push undo_stack redo_stack]; [exact Hp|exact Hv| |constructor].
    rewrite Eu. eapply good_past_cons; cbn [ce_edits ce_before ce_after]; eauto. now rewrite Ec.
Qed.

Lemma undo_sound ed ed' b : sound ed -> undo env ed = Ok (ed', b) -> sound ed'.
Proof.
  intros [H1 H2 H3 H4] H. unfold undo, undo_undo in H. destruct (undo_stack (ed_undo ed)) as [|ce stk] eqn:E; [inv H; split; auto; now rewrite E|].
  apply bind_ok in H as (ed2&Ha&H). inv H. unfold apply_action in Ha. apply bind_ok in Ha as (d&Hd&Ha). inv Ha.
  inversion H3 as [|p ce0 d0 stk0 C P1 P2 P3 P4]; subst.
  pose proof (chain_inverse C) as Hi. cbn [set_undo ed_input caret_edit_inverse ce_edits] in Hd. unfold cfg in Hi. rewrite Hi in Hd. inv Hd.
  split; auto; cbn. eapply good_future_cons; eauto.
Qed.
Lemma redo_sound ed ed' b : sound ed -> redo env ed = Ok (ed', b) -> sound ed'.
Proof.
  intros [H1 H2 H3 H4] H. unfold redo, undo_redo in H. destruct (redo_stack (ed_undo ed)) as [|ce stk] eqn:E; [inv H; split; auto; now rewrite E|].
  apply bind_ok in H as (ed2&Ha&H). inv H. unfold apply_action in Ha. apply bind_ok in Ha as (d&Hd&Ha). inv Ha.
  inversion H4 as [|d0 ce0 f stk0 C P1 P2 P3 P4]; subst.
  pose proof (chain_apply C) as Hi. cbn [set_undo ed_input] in Hd. unfold cfg in Hi. rewrite Hi in Hd. inv Hd.
  split; auto; cbn. eapply good_past_cons; eauto.
Qed.
Lemma undo_ok ed : sound ed -> exists x, undo env ed = Ok x.
Proof.
  intros [H1 H2 H3 H4]. unfold undo, undo_undo. destruct (undo_stack (ed_undo ed)) as [|ce stk] eqn:E; [eauto|].
  inversion H3 as [|p ce0 d0 stk0 C P1 P2 P3 P4]; subst. pose proof (chain_inverse C) as Hi. unfold apply_action. cbn [set_undo ed_input caret_edit_inverse ce_edits].
  unfold cfg in Hi. rewrite Hi. cbn. eauto.
Qed.
Lemma redo_ok ed : sound ed -> exists x, redo env ed = Ok x.
Proof.
  intros [H1 H2 H3 H4]. unfold redo, undo_redo. destruct (redo_stack (ed_undo ed)) as [|ce stk] eqn:E; [eauto|].
  inversion H4 as [|d0 ce0 f stk0 C P1 P2 P3 P4]; subst. pose proof (chain_apply C) as Hi. unfold apply_action. cbn [set_undo ed_input].
  unfold cfg in Hi. rewrite Hi. cbn. eauto.
Qed.

Lemma sound_wf ed : sound ed -> wf_row (ed_input ed).
Proof. intros H. apply H. Qed.
Lemma sound_caret ed : sound ed -> exists c, caret_from_minimal (ed_input ed) (ed_caret ed) = Ok c.
Proof.
  intros [[Hw _] [H1 H2] _ _]. destruct (@selection_class (ed_input ed) _ _ Hw H1 H2) as (s&e&sel&Hs&He&Hsel&_).
  unfold caret_from_minimal. rewrite Hs. cbn [bind]. rewrite He. cbn [bind]. unfold caret_new. rewrite Hsel. cbn. eauto.
Qed.
Lemma sound_get_caret ed : sound ed -> exists sel, get_caret ed = Ok sel.
Proof. intros H. destruct (sound_caret H) as (c&Hc). unfold get_caret. rewrite Hc. cbn. eauto. Qed.

(** ** Splices *)
Lemma splice_sound ed range vs ed' : sound ed -> splice_at_range env ed range vs = Ok ed' -> proper Q vs ->
  stays (ed_input ed) range vs (mc_start (ed_caret ed)) -> stays (ed_input ed) range vs (mc_end (ed_caret ed)) -> sound ed'.
Proof.
  intros S H Hvs Hs He. pose proof (splice_result H) as (Hrep&Hcar&_).
  unfold splice_at_range in H. cbv zeta in H. apply bind_ok in H as (r&Hr&H). apply rg_from_minimal_inv in Hr as [G Er].
  rewrite (replace_range_eq vs G) in H. cbn [bind] in H. apply bind_ok in H as (s&Hps&H). apply bind_ok in H as (e&Hpe&H).
  apply bind_ok in H as ([ed1 ce]&Hb&H). inv H.
  destruct (replace_range_chain cfg vs G) as (doc'&C&_).
  assert (Ed : ed_input ed1 = doc').
  { apply builder_finish_inv in Hb as (_&_&[[? ?]|(_&input&Hi&->)]); [discriminate|]. cbn. apply chain_apply in C. unfold cfg in C. congruence. }
  assert (El : rg_left r = lo (rg_to_minimal r)) by (rewrite rg_left_min; reflexivity).
  assert (Err : rg_right r = hi (rg_to_minimal r)) by (rewrite rg_right_max; reflexivity).
  assert (Eix : rg_indices r = mr_row (rg_to_minimal r)) by reflexivity.
  cbn [set_caret ed_input] in Hrep. rewrite Ed in Hrep. rewrite El, Eix in Hps, Hpe.
  assert (Hlen : length (rg_nodes r) = hi (rg_to_minimal r) - lo (rg_to_minimal r)) by (rewrite (rg_nodes_length G); lia).
  pose proof (so_caret S) as [V1 V2].
  assert (S1 : sound ed1).
  { eapply sound_built; [exact S| | | |exact Hb|exact C| |]; auto.
    - exact (proper_nodes_replaced Hrep (so_doc S) Hvs).
    - split; cbn [mc_start mc_end].
      + exact (mapped_valid Hrep V1 Hs Hlen Hps).
      + exact (mapped_valid Hrep V2 He Hlen Hpe). }
  apply (sound_moved S1); auto. cbn [set_caret ed_caret]. rewrite Ed. split; eapply stays_valid; eauto.
Qed.
Lemma stays_root doc range vs p : stays doc range vs p -> mr_row range <> [] \/ mp_row p = [].
Proof. intros [H|[H _]]; [left|]; [|destruct (mr_row range); [auto|left; discriminate]]. intros E. apply H. rewrite E. exists (mp_row p). reflexivity. Qed.
Lemma splice_total ed range vs : sound ed -> valid_range (ed_input ed) range ->
  stays (ed_input ed) range vs (mc_start (ed_caret ed)) -> stays (ed_input ed) range vs (mc_end (ed_caret ed)) ->
  exists ed', splice_at_range env ed range vs = Ok ed'.
Proof.
  intros S Hv Hs He. destruct (@splice_step _ env ed range vs (sound_wf S) Hv) as (ed'&ed2&H&_).
  - apply stays_root in Hs, He. destruct Hs as [|Hs]; auto. destruct He as [|He]; auto.
  - cbn [step] in H. apply bind_ok in H as (x&Hx&_). eauto.
Qed.
End Ed.
