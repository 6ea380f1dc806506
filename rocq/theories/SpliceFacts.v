(** Splicing, accepted completions and autocorrections; operations that change nothing. *)
From Coq Require Import Permutation.
From Verif Require Import Base Str Grid Node Focus Edit Caret Autocomplete Editor Spec SpecAuto SpecEditor SpecMove BaseFacts
  TreeFacts OrderFacts EditFacts TreeProofs MoveFacts MoveProofs SpecTrack TrackFacts AutoFacts PopupFacts EditorFacts HistoryFacts
  OpFacts.
Set Implicit Arguments.
Unset Strict Implicit.

(** ** Tracking positions through the edits of a splice *)
Lemma pos_edit_ok cfg m e : mp_row (re_pos e) <> [] \/ mp_row m = [] ->
  exists m', pos_apply_edit cfg m (ERow e) = Ok m' /\ (mp_row m = [] -> mp_row m' = []).
Proof.
  intros H. unfold pos_apply_edit.
  destruct (indices_starts_with (mp_row m) (mp_row (re_pos e))) eqn:Es.
  2:{ rewrite track_elsewhere; [cbn; eauto|]. intros Hp. apply starts_with_prefix in Hp. cbn in Hp. congruence. }
  destruct (rowindices_eqb (mp_row m) (mp_row (re_pos e))) eqn:Ee.
  { apply rowindices_eqb_eq in Ee. rewrite map_same_row by (cbn; auto). cbn [mr_start mr_end mr_row bind]. rewrite Nat.leb_refl.
    eexists. split; [reflexivity|]. cbn. auto. }
  apply starts_with_prefix in Es. destruct Es as [s Hs].
  assert (Hne : mp_row (re_pos e) <> []).
  { destruct H as [H|H]; auto. intros E. rewrite E, H in Ee. discriminate. }
  destruct e as [t [p o] vs], m as [pm om]. cbn [re_pos mp_row mp_offset] in *. subst pm.
  destruct (exists_last Hne) as (p0&x&Ep).
  assert (Hlen : length p - 1 = length p0) by (rewrite Ep, app_length; cbn; lia).
  assert (Hnth : nth_error (p ++ s) (length p - 1) = Some x).
  { rewrite Hlen, Ep, <- app_assoc. cbn. apply nth_error_middle. }
  assert (Hu : usub cfg (length p) 1 = Ok (Some (length p - 1))).
  { unfold usub. replace (1 <=? length p) with true; [reflexivity|]. symmetry. apply Nat.leb_le. rewrite Ep, app_length. cbn. lia. }
  assert (Hmm : forall y z, exists m', (r <- Ok (mkMinRange y z z) ;; Ok (mkMinPos (mr_row r) (mr_start r))) = Ok m').
  { intros. eexists. reflexivity. }
  assert (Hn : p ++ s <> []) by (destruct p; [congruence|discriminate]).
  unfold range_apply_edit. cbn [get_row_indices_edit bind mr_row mr_start mr_end].
  assert (Es' : indices_starts_with (p ++ s) p = true) by (apply starts_with_prefix; exists s; auto).
  destruct t; cbn [row_get_row_indices_edit re_type re_pos re_values mp_row mp_offset]; cbv beta iota zeta;
    rewrite Es', Ee, Hu, Nat.leb_refl; cbn [negb andb bind unwrap]; rewrite ?andb_false_r; cbn [bind unwrap]; rewrite Hnth; cbn [unwrap bind];
    repeat match goal with |- context [if ?b then _ else _] => destruct b end; cbn [bind];
    (eexists; split; [reflexivity|intros E; congruence]).
Qed.
Lemma pos_edits_ok cfg m p o n vs : p <> [] \/ mp_row m = [] ->
  exists m', pos_apply_edits cfg m [ERow (mkRowEdit Delete (mkMinPos p o) n); ERow (mkRowEdit Insert (mkMinPos p o) vs)] = Ok m'.
Proof.
  intros H. unfold pos_apply_edits. cbn [apply_edits].
  destruct (@pos_edit_ok cfg m (mkRowEdit Delete (mkMinPos p o) n)) as (m1&H1&R1); [exact H|]. rewrite H1. cbn [bind].
  destruct (@pos_edit_ok cfg m1 (mkRowEdit Insert (mkMinPos p o) vs)) as (m2&H2&_); [destruct H; auto|]. rewrite H2. cbn. eauto.
Qed.

Section Ed.
Context {SyntaxNode : Type}.
Variable env : Env SyntaxNode.
Implicit Type ed : MathEditor SyntaxNode.
Let cfg := env_cfg env.

Lemma splice_ok ed range vs : (exists r, rg_from_minimal (from_root (ed_input ed)) range = Ok r) ->
  mr_row range <> [] \/ (mp_row (mc_start (ed_caret ed)) = [] /\ mp_row (mc_end (ed_caret ed)) = []) \/
    (mp_row (mc_start (ed_caret ed)) = mr_row range /\ mp_row (mc_end (ed_caret ed)) = mr_row range) ->
  exists ed', splice_at_range env ed range vs = Ok ed'.
Proof.
  intros [r Hr] Hrow. unfold splice_at_range. rewrite Hr. cbn [bind]. apply rg_from_minimal_inv in Hr as [G Em].
  rewrite (replace_range_eq vs G). cbn [bind]. assert (Ei : rg_indices r = mr_row range) by (rewrite <- Em; reflexivity). rewrite Ei.
  destruct (@pos_edits_ok cfg (mc_start (ed_caret ed)) (mr_row range) (rg_left r) (rg_nodes r) vs) as (s&Hs).
  { destruct (mr_row range); [|left; discriminate]. right. destruct Hrow as [?|[[? ?]|[? ?]]]; [congruence|auto|auto]. }
  destruct (@pos_edits_ok cfg (mc_end (ed_caret ed)) (mr_row range) (rg_left r) (rg_nodes r) vs) as (e&He).
  { destruct (mr_row range); [|left; discriminate]. right. destruct Hrow as [?|[[? ?]|[? ?]]]; [congruence|auto|auto]. }
  unfold cfg in Hs, He. rewrite Hs. cbn [bind]. rewrite He. cbn [bind]. unfold builder_finish.
  destruct (replace_range_chain (env_cfg env) vs G) as (d&Hc&_). rewrite Ei in Hc. rewrite (chain_apply Hc). cbn [bind]. eauto.
Qed.

(** One splice is undone by one undo. *)
Lemma advanced_undo ed ce ed' : advanced env ed [ce] ed' -> exists ed2, undo env ed' = Ok (ed2, true) /\
  ed_input ed2 = ed_input ed /\ ed_caret ed2 = ce_before ce.
Proof.
  intros A. destruct (undo_times_spec (adv_committed A) (adv_undo A)) as (ed2&H1&H2&_&H4).
  unfold undo_times in H1. cbn [length repeat run step] in H1.
  destruct (undo env ed') as [[ed3 b]|] eqn:Eu; [|discriminate]. cbn in H1. inv H1. exists ed2.
  unfold undo, undo_undo in Eu. rewrite (adv_undo A) in Eu. cbn [rev app] in Eu. apply bind_ok in Eu as (e&_&Eu). inv Eu. auto.
Qed.

Lemma splice_step ed range vs : wf_row (ed_input ed) -> valid_range (ed_input ed) range ->
  mr_row range <> [] \/ (mp_row (mc_start (ed_caret ed)) = [] /\ mp_row (mc_end (ed_caret ed)) = []) ->
  exists ed' ed2, step env ed (OpSpliceAtRange range vs) = Ok (ed', OutNone _) /\
    nodes_replaced (ed_input ed) (mr_row range) (lo range) (hi range) vs (ed_input ed') /\ ed_caret ed' = ed_caret ed /\
    undo env ed' = Ok (ed2, true) /\ ed_input ed2 = ed_input ed /\ ed_caret ed2 = ed_caret ed.
Proof.
  intros Hwf Hv Hrow. destruct (@splice_ok ed range vs) as (ed'&Hs); [now apply rg_from_minimal_ok|tauto|].
  pose proof (splice_result Hs) as (Hrep&Hc&_). destruct (splice_advanced Hs) as (ce&A&Hb&_).
  destruct (advanced_undo A) as (ed2&Hu&Hi&Hca). exists ed', ed2. cbn [step]. rewrite Hs. cbn. repeat split; auto. congruence.
Qed.
Lemma splice_step_any ed range vs ed' out : step env ed (OpSpliceAtRange range vs) = Ok (ed', out) ->
  nodes_replaced (ed_input ed) (mr_row range) (lo range) (hi range) vs (ed_input ed') /\
  exists ed2, undo env ed' = Ok (ed2, true) /\ ed_input ed2 = ed_input ed /\ ed_caret ed2 = ed_caret ed.
Proof.
  intros H. cbn [step] in H. apply bind_ok in H as (ed1&Hs&H). inv H.
  pose proof (splice_result Hs) as (Hrep&Hc&_). destruct (splice_advanced Hs) as (ce&A&Hb&_).
  destruct (advanced_undo A) as (ed2&Hu&Hi&Hca). split; auto. exists ed2. repeat split; auto. congruence.
Qed.

(** ** The caret of an open popup *)
Lemma pos_le_antisym a b : pos_le a b -> pos_le b a -> a = b.
Proof.
  intros [H|H] [H'|H']; auto. exfalso. rewrite cmp_opp, H in H'. discriminate.
Qed.
Lemma collapsed_span a b : mr_start (span a b) = mr_end (span a b) -> a = b.
Proof.
  intros H. destruct (span_contains a b) as [[A1 A2] [B1 B2]].
  assert (E : range_left (span a b) = range_right (span a b)) by (unfold range_left, range_right; rewrite H, Nat.min_id, Nat.max_id; reflexivity).
  rewrite <- E in A2, B2. pose proof (pos_le_antisym A1 A2). pose proof (pos_le_antisym B1 B2). congruence.
Qed.
Lemma collapsed_selection doc mc c r : wf_row doc -> caret_from_minimal doc mc = Ok c -> c_selection c = SelRow r -> rg_is_collapsed r = true ->
  mc = collapsed (pos_to_minimal (rg_start_position r)) /\ good_pos doc (rg_start_position r).
Proof.
  intros Hwf H Hs Hcol. pose proof (caret_row_good H Hs) as G. split; [|now apply good_start].
  unfold caret_from_minimal in H. apply bind_ok in H as (s&Hps&H). apply bind_ok in H as (e&Hpe&H).
  apply pos_from_minimal_inv in Hps as [Gs Es], Hpe as [Ge Ee]. unfold caret_new in H. apply bind_ok in H as (sel&Hsel&H). inv H. cbn in Hs. subst sel.
  unfold selection_from_positions in Hsel. destruct (range_from_positions_ok Hwf Gs Ge) as (r'&Hr'&_&Hspan). rewrite Hr' in Hsel. cbn [bind] in Hsel.
  assert (E : r' = r).
  { destruct (negb _); [now inv Hsel|]. destruct (negb _); [now inv Hsel|].
    destruct (nth_error _ _); [|now inv Hsel]. destruct (nth_error _ _); [|now inv Hsel]. repeat (apply bind_ok in Hsel as (?&_&Hsel)). discriminate. }
  subst r'. unfold rg_is_collapsed in Hcol. apply Nat.eqb_eq in Hcol.
  assert (E : pos_to_minimal s = pos_to_minimal e).
  { apply collapsed_span. rewrite <- Hspan. cbn. exact Hcol. }
  rewrite <- E in Hspan. rewrite span_same in Hspan. destruct mc as [ms me]. cbn in *. unfold collapsed, pos_to_minimal in *.
  cbn [rg_start_position pos_indices pos_focus pos_offset]. unfold rg_to_minimal in Hspan. inv Hspan.
  rewrite <- E. unfold rg_start_position, pos_indices in *. unfold rg_indices in *. cbn in *. rewrite H0. do 2 f_equal; congruence.
Qed.

Lemma popup_at ed ed1 r : wf_row (ed_input ed) -> get_autocomplete env ed = Ok (ed1, Some r) ->
  exists q ms, good_pos (ed_input ed) q /\ ed_caret ed = collapsed (pos_to_minimal q) /\ ar_position r = pos_to_minimal q /\
    rules_matches (env_rules env) (fr_row (pos_focus q)) (pos_offset q) 2 = Ok ms /\ Permutation (ar_matches r) ms.
Proof.
  intros Hwf H. apply get_autocomplete_inv in H as (ms&p&c&Hst&_&_&Hc&range&Hsel&Hcol&Hp&Hms).
  destruct (collapsed_selection Hwf Hc Hsel Hcol) as [Hcar G]. apply popup_shown in Hst as (Hperm&_&_&Hpos&_).
  exists (rg_start_position range), ms. split; auto. split; auto. split; [congruence|]. auto.
Qed.

Lemma popup_match ed ed1 r m : wf_row (ed_input ed) -> get_autocomplete env ed = Ok (ed1, Some r) -> In m (ar_matches r) ->
  exists q before syms last rest, good_pos (ed_input ed) q /\ ed_caret ed = collapsed (pos_to_minimal q) /\ ar_position r = pos_to_minimal q /\
    firstn (pos_offset q) (fr_row (pos_focus q)) = before ++ map Symbol (syms ++ [last]) /\
    In (m_rule m) (env_rules env) /\
    rule_parser (m_rule m) = concat syms ++ last ++ rest /\ last <> [] /\
    m = mkMatch (m_rule m) (byte_len (concat syms) + 1) (length syms + 1) /\
    exists ms', rule_matches (m_rule m) (fr_row (pos_focus q)) (pos_offset q) 2 = Ok ms'.
Proof.
  intros Hwf H Hin. destruct (popup_at Hwf H) as (q&ms&G&Hc&Hp&Hms&Hperm).
  assert (Hin' : In m ms) by (eapply Permutation_in; eauto).
  apply (rules_matches_inv Hms) in Hin' as (rule&ms'&Hr&Hm'&Hin').
  pose proof (rule_matches_inv Hm') as [_ Hi]. apply Hi in Hin' as (before&syms&last&rest&Hf&Hpa&_&Em&Hl&_).
  exists q, before, syms, last, rest. subst m. cbn [m_rule]. repeat split; auto; try apply G. eauto.
Qed.

(** ** Accepting a completion *)
Lemma accept_completion ed ed1 r m : wf_row (ed_input ed) -> get_autocomplete env ed = Ok (ed1, Some r) ->
  nth_error (ar_matches r) (ar_selected r) = Some m ->
  exists ed' ed2 q row syms, ed_caret ed = collapsed q /\ row_get (ed_input ed) (mp_row q) = Some row /\
    ends_in_symbols row (mp_offset q) syms /\ length syms = m_input_match_length m /\
    (exists rest, rule_parser (m_rule m) = concat syms ++ rest) /\
    step env ed (OpFinishAutocomplete true) = Ok (ed', OutNone _) /\
    nodes_replaced (ed_input ed) (mp_row q) (mp_offset q - length syms) (mp_offset q) (rule_result (m_rule m)) (ed_input ed') /\
    ed_caret ed' = collapsed q /\
    undo env ed' = Ok (ed2, true) /\ ed_input ed2 = ed_input ed /\ ed_caret ed2 = ed_caret ed /\
    (length syms <= length (rule_result (m_rule m)) -> valid_pos (ed_input ed') q) /\
    (length row + length (rule_result (m_rule m)) < length syms + mp_offset q -> ~ valid_pos (ed_input ed') q).
Proof.
  intros Hwf H Hm. pose proof (nth_error_In _ _ Hm) as Hin.
  destruct (popup_match Hwf H Hin) as (q&before&syms&last&rest&[Gc Go]&Hc&Hp&Hf&_&Hpa&_&Em&_).
  pose proof (get_autocomplete_only H) as (x&Ex). subst ed1.
  assert (Hlen : length before + (length syms + 1) = pos_offset q).
  { apply (f_equal (@length _)) in Hf. rewrite firstn_length, app_length, map_length, app_length in Hf. cbn in Hf. lia. }
  assert (Eml : m_input_match_length m = length syms + 1) by (rewrite Em; reflexivity).
  set (rg := get_caret_range r m).
  assert (Erg : rg = mkMinRange (pos_indices q) (pos_offset q) (pos_offset q - (length syms + 1))).
  { unfold rg, get_caret_range. rewrite Hp, Eml. reflexivity. }
  destruct (@splice_ok (set_autocomplete ed x) rg (rule_result (m_rule m))) as (ed'&Hs).
  { apply rg_from_minimal_ok; [exact Hwf|]. exists (fr_row (pos_focus q)). rewrite Erg. cbn. split; [exact (canonical_row Gc)|]. lia. }
  { right. right. cbn [set_autocomplete ed_caret]. rewrite Hc, Erg. cbn. auto. }
  pose proof (splice_result Hs) as (Hrep&Hcar&_). destruct (splice_advanced Hs) as (ce&A&Hb&_).
  apply set_autocomplete_advanced in A. destruct (advanced_undo A) as (ed2&Hu&Hi&Hca).
  cbn [set_autocomplete ed_input ed_caret] in *.
  exists ed', ed2, (pos_to_minimal q), (fr_row (pos_focus q)), (syms ++ [last]). rewrite app_length. cbn [length].
  split; auto. split; [exact (canonical_row Gc)|]. split; [exists before; exact Hf|]. split; [lia|].
  split; [exists rest; rewrite concat_app; cbn; rewrite app_nil_r, Hpa, <- app_assoc; reflexivity|].
  split. { cbn [step]. unfold finish_autocomplete. cbn [negb]. rewrite H. cbn [bind]. unfold get_selected. rewrite Hm. cbn [unwrap bind].
           cbv zeta. fold rg. rewrite Hs. reflexivity. }
  rewrite Erg in Hrep. unfold lo, hi in Hrep. cbn [mr_start mr_end mr_row] in Hrep.
  replace (Nat.min (pos_offset q) (pos_offset q - (length syms + 1))) with (pos_offset q - (length syms + 1)) in Hrep by lia.
  replace (Nat.max (pos_offset q) (pos_offset q - (length syms + 1))) with (pos_offset q) in Hrep by lia.
  split; [exact Hrep|]. split; [congruence|]. split; auto. split; auto. split; [congruence|]. split.
  - intros Hle. apply (nodes_replaced_valid Hrep). cbn. lia.
  - intros Hlt (row'&Hrow'&Ho'). destruct Hrep as (row0&_&Hr0&Hrep). cbn in Hrow'. rewrite (replaced_get_new Hrep) in Hrow'. inv Hrow'.
    pose proof (replaced_get_old Hrep) as Hold. pose proof (canonical_row Gc) as Hcr. unfold pos_indices in Hold. rewrite Hold in Hcr. inv Hcr.
    rewrite !app_length, firstn_length, skipn_length in Ho'. cbn in *. lia.
Qed.

(** ** Leaving a completely typed token *)
Lemma slice_too_long (A : Type) (l : list A) n : length l < n -> exists k, slice l 0 n = Panic k.
Proof. intros H. unfold slice. replace (n <=? length l) with false by (symmetry; apply Nat.leb_gt; auto). rewrite andb_false_r. eauto. Qed.
Lemma rule_matches_too_long rule l n min : length l < n -> exists k, rule_matches rule l n min = Panic k.
Proof.
  intros H. unfold rule_matches. destruct (slice_too_long H) as (k&Hk). destruct (rule_parser rule); cbn [assert_ bind]; [eauto|].
  rewrite Hk. cbn. eauto.
Qed.
(** Whether the matcher runs into a panic only depends on the last symbol. *)
Lemma rule_matches_same_last rule input caret min ms input' before before' s min' :
  rule_matches rule input caret min = Ok ms -> firstn caret input = before ++ [Symbol s] -> input' = before' ++ [Symbol s] ->
  exists ms', rule_matches rule input' (length input') min' = Ok ms'.
Proof.
  intros H Hf ->. pose proof (rule_matches_inv H) as [Hc _]. unfold rule_matches in *.
  apply bind_ok in H as (u&Hu&H). rewrite Hu. cbn [bind]. rewrite slice_prefix in H by auto. cbn [bind] in H. rewrite Hf, rev_app_distr in H.
  cbn [rev app] in H. rewrite slice_prefix by auto. cbn [bind]. rewrite firstn_all, rev_app_distr. cbn [rev app].
  apply bind_ok in H as (pot&Hp&H). rewrite Hp. cbn [bind].
  destruct (@collect_matches_ok rule (Symbol s :: rev before') min' pot) as (ms'&Hms&_); eauto.
  intros x Hx. apply (indices_of_sound Hp) in Hx. eapply occurs_boundary; eauto.
Qed.

Lemma concat_bytes_app a b : byte_len (concat (a ++ b)) = byte_len (concat a) + byte_len (concat b).
Proof. now rewrite concat_app, byte_len_app. Qed.

Lemma no_early_complete rule syms last n ms : rule_parser rule = concat syms ++ last -> last <> [] ->
  n < length syms + 1 -> rule_matches rule (map Symbol (syms ++ [last])) n 1 = Ok ms -> existsb is_complete_match ms = false.
Proof.
  intros Hr Hl Hn H. destruct (existsb is_complete_match ms) eqn:E; auto. exfalso. apply existsb_exists in E as (m&Hm&Hcm).
  destruct (rule_matches_inv H) as [_ Hi]. apply Hi in Hm as (before&sy&la&rest&Hf&Hp&_&->&Hla&_).
  unfold is_complete_match in Hcm. cbn [m_rule_match_length m_rule] in Hcm. apply Nat.eqb_eq in Hcm.
  rewrite Hp in Hr. rewrite Hp, !byte_len_app in Hcm.
  assert (Hfs : firstn n (map Symbol (syms ++ [last])) = map Symbol (firstn n syms)).
  { rewrite map_app, firstn_app_le; [now rewrite firstn_map|]. rewrite map_length. lia. }
  rewrite Hfs in Hf.
  assert (Hsub : byte_len (concat (sy ++ [la])) <= byte_len (concat (firstn n syms))).
  { assert (exists b, firstn n syms = b ++ sy ++ [la]) as [b Hb].
    { clear - Hf. assert (Hx : Forall2 (fun x y => Symbol x = y) (firstn n syms) (before ++ map Symbol (sy ++ [la]))).
      { rewrite <- Hf. clear. induction (firstn n syms); constructor; auto. }
      clear Hf. remember (firstn n syms) as fs. clear Heqfs. revert fs Hx. induction before as [|x before IH]; intros fs Hx; cbn in Hx.
      - exists []. cbn. remember (sy ++ [la]) as l. clear Heql. revert l Hx. induction fs as [|y fs IH]; intros [|z l] Hx; inversion Hx; auto.
        inv H2. f_equal. auto.
      - inversion Hx as [|y ? fs' ? ? Hx']; subst. destruct (IH _ Hx') as [b Hb]. exists (y :: b). cbn. now f_equal. }
    rewrite Hb, !concat_bytes_app. unfold str in *; lia. }
  assert (Hle : byte_len (concat (firstn n syms)) <= byte_len (concat syms)).
  { rewrite <- (firstn_skipn n syms) at 2. rewrite concat_bytes_app. apply Nat.le_add_r. }
  pose proof (byte_len_pos Hl). pose proof (byte_len_pos Hla). apply (f_equal byte_len) in Hr. rewrite !byte_len_app in Hr.
  rewrite concat_bytes_app in Hsub. cbn [concat] in Hsub. rewrite app_nil_r in Hsub. unfold str in *. lia.
Qed.

Lemma full_complete rule syms last ms : rule_parser rule = concat syms ++ last -> last <> [] -> byte_len last = 1 ->
  rule_matches rule (map Symbol (syms ++ [last])) (length syms + 1) 1 = Ok ms -> existsb is_complete_match ms = true.
Proof.
  intros Hr Hl Hb H. apply existsb_exists. exists (mkMatch rule (byte_len (concat syms) + 1) (length syms + 1)). split.
  - apply (rule_matches_inv H). exists [], syms, last, []. rewrite firstn_all2.
    2:{ rewrite map_length, app_length. cbn. lia. }
    rewrite app_nil_r. cbn [app]. split; auto. split; auto. split; [lia|]. split; auto. split; auto. intros b. destruct b; discriminate.
  - unfold is_complete_match. cbn [m_rule_match_length m_rule]. rewrite Hr, byte_len_app. apply Nat.eqb_eq. lia.
Qed.

Lemma rg_contains_iff r p : rg_contains r p = true <-> pos_in_range (pos_to_minimal p) (rg_to_minimal r).
Proof.
  unfold rg_contains, pos_cmp. rewrite andb_true_iff, !is_le_iff.
  unfold pos_in_range, pos_le, range_left, range_right, rg_to_minimal. cbn [mr_row mr_start mr_end].
  rewrite <- rg_left_min, <- rg_right_max. reflexivity.
Qed.

Lemma leave_token ed ed1 r m d c c' t : wf_row (ed_input ed) -> get_autocomplete env ed = Ok (ed1, Some r) ->
  nth_error (ar_matches r) (ar_selected r) = Some m -> is_complete_match m = true ->
  caret_from_minimal (ed_input ed) (ed_caret ed) = Ok c -> nav_move_caret cfg (ed_input ed) c d MChar = Ok c' ->
  caret_to_minimal c' = collapsed t -> valid_pos (ed_input ed) t ->
  let n := m_input_match_length m in
  exists q, ed_caret ed = collapsed q /\ n <= mp_offset q /\
  (pos_in_range t (token q n) -> exists ed', step env ed (OpMoveCaret d MChar) = Ok (ed', OutNone _) /\
     ed_input ed' = ed_input ed /\ ed_caret ed' = collapsed t) /\
  (~ pos_in_range t (token q n) ->
   (n < mp_offset q - n -> exists k, step env ed (OpMoveCaret d MChar) = Panic k) /\
   (mp_offset q - n < n -> forall ed' out, step env ed (OpMoveCaret d MChar) = Ok (ed', out) -> ed_input ed' = ed_input ed) /\
   (n = mp_offset q - n -> mp_row q <> [] \/ mp_row t = [] -> exists ed', step env ed (OpMoveCaret d MChar) = Ok (ed', OutNone _) /\
     nodes_replaced (ed_input ed) (mp_row q) (mp_offset q - n) (mp_offset q) (rule_result (m_rule m)) (ed_input ed') /\
     ed_caret ed' = collapsed t)).
Proof.
  intros Hwf H Hm Hcm Hc Hmv Ht Hvt n. pose proof (nth_error_In _ _ Hm) as Hin.
  destruct (popup_match Hwf H Hin) as (q&before&syms&last&rest&[Gc Go]&Hcar&Hp&Hf&_&Hpa&Hlne&Em&ms0&Hms0).
  pose proof (get_autocomplete_only H) as (x&Ex). subst ed1.
  assert (Hlen : length before + (length syms + 1) = pos_offset q).
  { apply (f_equal (@length _)) in Hf. rewrite firstn_length, app_length, map_length, app_length in Hf. cbn in Hf. lia. }
  assert (En : n = length syms + 1) by (unfold n; rewrite Em; reflexivity).
  assert (Hrest : rest = [] /\ byte_len last = 1).
  { unfold is_complete_match in Hcm. rewrite Em in Hcm. cbn [m_rule_match_length m_rule] in Hcm. apply Nat.eqb_eq in Hcm.
    rewrite Hpa, !byte_len_app in Hcm. pose proof (byte_len_pos Hlne). split; [apply byte_len_0; lia|lia]. }
  destruct Hrest as [-> Hb1]. rewrite app_nil_r in Hpa.
  exists (pos_to_minimal q). split; auto. split; [cbn; lia|].
  set (act := mkAutocorrect (m_rule m) (get_caret_range r m)).
  assert (Ha : start_autocorrect env ed = Ok (set_autocomplete ed x, Some act)).
  { unfold start_autocorrect. rewrite H. cbn [bind]. unfold results_start_autocorrect, get_selected. rewrite Hm. cbn [unwrap bind].
    rewrite Hcm. reflexivity. }
  assert (Erg : get_caret_range r m = token (pos_to_minimal q) n).
  { unfold get_caret_range, token. rewrite Hp. reflexivity. }
  destruct (collapsed_caret Hwf Hvt) as (tp&Gt&Et&Ect).
  set (ed2 := set_caret (set_autocomplete ed x) (collapsed t)).
  assert (Hstep : step env ed (OpMoveCaret d MChar) = (ed' <- apply_autocorrect env ed2 (Some act) ;; Ok (ed', OutNone _))).
  { cbn [step]. unfold move_caret. rewrite Ha. cbn [bind]. cbn [set_autocomplete ed_input ed_caret]. rewrite Hc. cbn [bind].
    fold cfg. rewrite Hmv. cbn [bind builder_finish]. rewrite Ht. reflexivity. }
  assert (Hvr : valid_range (ed_input ed) (token (pos_to_minimal q) n)).
  { exists (fr_row (pos_focus q)). split; [exact (canonical_row Gc)|]. cbn. lia. }
  destruct (rg_from_minimal_ok Hwf Hvr) as (rg&Hrg). pose proof (rg_from_minimal_inv Hrg) as [Grg Emin].
  assert (Eidx : rg_indices rg = pos_indices q) by (apply (f_equal mr_row) in Emin; exact Emin).
  assert (Efoc : rg_focus rg = pos_focus q).
  { apply (@canonical_unique (ed_input ed)); auto; apply Grg. }
  assert (El : rg_left rg = pos_offset q - n).
  { rewrite rg_left_min. pose proof (f_equal mr_start Emin) as E1. pose proof (f_equal mr_end Emin) as E2. cbn in E1, E2. lia. }
  assert (Er : rg_right rg = pos_offset q).
  { rewrite rg_right_max. pose proof (f_equal mr_start Emin) as E1. pose proof (f_equal mr_end Emin) as E2. cbn in E1, E2. lia. }
  assert (Hvals : rg_values rg = Ok (map Symbol (syms ++ [last]))).
  { rewrite (rg_values_eq Grg), Efoc, El, Er. f_equal.
    rewrite <- (firstn_skipn (pos_offset q) (fr_row (pos_focus q))), Hf.
    rewrite <- app_assoc, skipn_app_ge by (cbn; lia). 
    replace (pos_offset q - n - length before) with 0 by lia. cbn [skipn].
    rewrite firstn_app_le by (rewrite map_length, app_length; cbn; lia).
    apply firstn_all2. rewrite map_length, app_length. cbn. lia. }
  assert (Happ : apply_autocorrect env ed2 (Some act) =
    (if rg_contains rg tp then Ok ed2 else
     ms <- rule_matches (m_rule m) (map Symbol (syms ++ [last])) (pos_offset q - n) 1 ;;
     if negb (existsb is_complete_match ms) then Ok ed2 else splice_at_range env ed2 (token (pos_to_minimal q) n) (rule_result (m_rule m)))).
  { unfold apply_autocorrect, act, ed2. cbn [set_caret set_autocomplete ed_input ed_caret ac_range ac_rule].
    rewrite Ect. cbn [bind c_selection]. rewrite Erg, Hrg. cbn [bind].
    replace (rg_start_position (range_of_pos tp)) with tp by (destruct tp; reflexivity).
    destruct (rg_contains rg tp); auto. rewrite Hvals. cbn [bind]. rewrite El, Emin. reflexivity. }
  rewrite Hstep, Happ. split.
  - intros Hpin. rewrite <- Et, <- Emin in Hpin. apply rg_contains_iff in Hpin. rewrite Hpin. cbn. eexists. split; [reflexivity|]. auto.
  - intros Hpin. rewrite <- Et, <- Emin in Hpin. replace (rg_contains rg tp) with false
      by (symmetry; apply not_true_iff_false; intros Hq; apply Hpin; now apply rg_contains_iff).
    clear Hpin. cbn [mp_offset pos_to_minimal]. split; [|split].
    + intros Hlt. destruct (@rule_matches_too_long (m_rule m) (map Symbol (syms ++ [last])) (pos_offset q - n) 1) as (k&Hk).
      { rewrite map_length, app_length. cbn. lia. }
      rewrite Hk. cbn. eauto.
    + intros Hlt ed' out Hs. apply bind_ok in Hs as (ed3&Hs&Hs'). inv Hs'. apply bind_ok in Hs as (ms&Hms&Hs).
      assert (Hlt2 : pos_offset q - n < length syms + 1) by lia. rewrite (no_early_complete Hpa Hlne Hlt2 Hms) in Hs. cbn [negb] in Hs. inv Hs. reflexivity.
    + intros Heq Hrow.
      assert (Hms : exists ms, rule_matches (m_rule m) (map Symbol (syms ++ [last])) (pos_offset q - n) 1 = Ok ms).
      { replace (pos_offset q - n) with (length (map Symbol (syms ++ [last]))) by (rewrite map_length, app_length; cbn; lia).
        rewrite map_app in Hf |- *. rewrite app_assoc in Hf. eapply rule_matches_same_last; [exact Hms0|exact Hf|reflexivity]. }
      destruct Hms as (ms&Hms). rewrite Hms. cbn [bind]. replace (pos_offset q - n) with (length syms + 1) in Hms by lia.
      rewrite (full_complete Hpa Hlne Hb1 Hms). cbn [negb].
      destruct (@splice_ok ed2 (token (pos_to_minimal q) n) (rule_result (m_rule m))) as (ed'&Hs).
      { exists rg. exact Hrg. }
      { cbn [token mr_row]. destruct Hrow as [Hrow|Hrow]; [auto|]. right. left. cbn. auto. }
      rewrite Hs. cbn [bind]. exists ed'. split; auto. pose proof (splice_result Hs) as (Hrep&Hcar'&_).
      unfold lo, hi, token in Hrep. cbn [mr_start mr_end mr_row ed2 set_caret set_autocomplete ed_input mp_offset pos_to_minimal] in Hrep.
      replace (Nat.min (pos_offset q) (pos_offset q - n)) with (pos_offset q - n) in Hrep by lia.
      replace (Nat.max (pos_offset q) (pos_offset q - n)) with (pos_offset q) in Hrep by lia. split; [exact Hrep|exact Hcar'].
Qed.

(** ** Operations that change nothing *)
Lemma replaced_rows p r r' doc doc' : replaced p r r' doc doc' -> doc = doc' -> r = r'.
Proof. intros H E. pose proof (replaced_get_old H) as H1. pose proof (replaced_get_new H) as H2. congruence. Qed.
Lemma nodes_replaced_length doc p l r vs doc' : nodes_replaced doc p l r vs doc' -> doc' = doc -> r - l = length vs.
Proof.
  intros (row&H1&H2&H) E. apply replaced_rows in H; auto. apply (f_equal (@length _)) in H.
  rewrite !app_length, firstn_length, skipn_length in H. lia.
Qed.
Lemma not_own_content n : forall v g, n = Container v g -> concat (gvalues g) <> [n].
Proof.
  induction n as [s|v cells w IH] using node_ind'; intros v' g E; inv E. cbn [gvalues]. intros Hc.
  assert (Hin : In (Container v' (mkGrid cells w)) (concat cells)) by (rewrite Hc; now left).
  apply in_concat in Hin as (cell&Hcell&Hin). exact (IH cell Hcell _ Hin v' (mkGrid cells w) eq_refl Hc).
Qed.
Lemma unwrapped_differs doc p q i content doc' : unwrapped doc p q i content doc' -> doc' <> doc.
Proof.
  intros (v&g&Hn&->&_&row&H1&H2&Hr) E. pose proof (replaced_get_old Hr) as Hg. unfold node_get in Hn. rewrite Hg in Hn.
  apply replaced_rows in Hr; auto. rewrite (split_nth Hn) in Hr at 1. apply app_inv_head in Hr.
  change (Container v g :: skipn (S i) row) with ([Container v g] ++ skipn (S i) row) in Hr. apply app_inv_tail in Hr.
  symmetry in Hr. exact (not_own_content eq_refl Hr).
Qed.
Lemma symbol_removed_differs doc p d doc' : symbol_removed doc p d doc' -> doc' <> doc.
Proof. intros (i&s&_&_&H) E. apply nodes_replaced_length in H; auto. cbn [length] in H. lia. Qed.

Lemma builder_same_undo ed cb ca ed' ce : builder_finish env ed cb [] ca = Ok (ed', ce) -> ed_undo ed' = ed_undo ed.
Proof. intros H. inv H. reflexivity. Qed.

Lemma unchanged_same_undo ed op ed' out : ~ autocorrect_pending env ed -> resizes env ed op -> step env ed op = Ok (ed', out) ->
  ed_input ed' = ed_input ed -> ed_undo ed' = ed_undo ed.
Proof.
  intros Hp Hr Hs E. destruct (is_passive op) eqn:Ep; [now apply (passive_same Ep Hp) in Hs|].
  destruct op as [| |mode|vs| | | | | | | |data json| |accept| | | |range vs]; try discriminate; try (exfalso; exact Hr).
  - destruct (get_caret ed) as [[m|m]|] eqn:Hc.
    2,3: cbn [step] in Hs; unfold editor_remove_at_caret in Hs; apply bind_ok in Hs as ([ed1 b]&Hx&_);
         apply bind_ok in Hx as ([ed0 a]&Ha&Hx); pose proof (start_autocorrect_only Ha) as (x&->); cbn [set_autocomplete ed_input ed_caret] in Hx;
         apply bind_ok in Hx as (c&Hca&Hx); unfold get_caret in Hc; rewrite Hca in Hc; cbn [bind] in Hc; destruct (c_selection c); discriminate.
    destruct (Nat.eq_dec (mr_start m) (mr_end m)) as [Em|Em].
    + destruct (remove_dir mode) as [d|] eqn:Ed.
      2:{ destruct mode; try discriminate. exfalso. apply (Hr m Hc). unfold selected_nodes. lia. }
      destruct (remove_collapsed Hc Em Ed Hs) as (q&ed0&a&Gq&Eq&Ha&[(_&->&_)|(es&p&doc1&_&Hrm&_&_&Hdoc)]).
      { pose proof (start_autocorrect_only Ha) as (x&->). reflexivity. }
      destruct Hdoc as [[Hd Hu]|[Hq _]]; [|tauto]. rewrite E in Hd.
      destruct Hrm as [es p doc' _ _ H _|es p doc' pp i k content _ _ H _ _|]; auto.
      * apply symbol_removed_differs in H. congruence.
      * apply unwrapped_differs in H. congruence.
    + destruct (remove_selection env mode Hc Em) as (ed2&Hs2&Hrep&_). rewrite Hs in Hs2. inv Hs2.
      apply nodes_replaced_length in Hrep; auto. unfold lo, hi in Hrep. cbn in Hrep. lia.
  - destruct (get_caret ed) as [[m|m]|] eqn:Hc.
    2,3: cbn [step] in Hs; unfold insert_at_caret in Hs; apply bind_ok in Hs as (ed1&Hx&_);
         apply bind_ok in Hx as ([ed0 a]&Ha&Hx); pose proof (start_autocorrect_only Ha) as (x&->); apply bind_ok in Hx as ([ed2 ac]&Hx&_);
         unfold insert_nodes_at_caret in Hx; cbn [set_autocomplete ed_input ed_caret] in Hx;
         apply bind_ok in Hx as (c&Hca&Hx); unfold get_caret in Hc; rewrite Hca in Hc; cbn [bind] in Hc; destruct (c_selection c); discriminate.
    destruct (typing_any Hc Hs) as (_&doc1&Hrep&[<-|[Hq _]]); [|tauto].
    apply nodes_replaced_length in Hrep; auto. rewrite map_length in Hrep. now apply (Hr m) in Hrep.
  - cbn [step] in Hs. apply bind_ok in Hs as ([ed1 b]&Hx&Hs). inv Hs. unfold paste in Hx.
    apply bind_ok in Hx as ([ed0 a]&Ha&Hx). pose proof (start_autocorrect_only Ha) as (x&->). rewrite (not_pending Hp Ha) in Hx.
    destruct (negb json); [discriminate|]. destruct (env_deserialize env data) as [nodes|] eqn:Hd; [|inv Hx; reflexivity].
    apply bind_ok in Hx as ([ed2 ac]&Hi&Hx). destruct (get_caret ed) as [[m|m]|] eqn:Hc.
    2,3: unfold insert_nodes_at_caret in Hi; cbn [set_autocomplete ed_input ed_caret] in Hi; apply bind_ok in Hi as (c&Hca&Hi);
         unfold get_caret in Hc; rewrite Hca in Hc; cbn [bind] in Hc; destruct (c_selection c); discriminate.
    assert (Hc' : get_caret (set_autocomplete ed x) = Ok (MSelRow m)) by exact Hc.
    destruct (insert_nodes_result env nodes Hc') as (ed3&ce&Hi3&Hrep&_). rewrite Hi in Hi3. inv Hi3.
    apply bind_ok in Hx as (ed4&Hf&Hx). rewrite finish_autocorrect_none in Hf. inv Hf. inv Hx.
    apply nodes_replaced_length in Hrep; auto. now apply (Hr m nodes) in Hrep.
  - destruct accept; [|discriminate]. cbn [step] in Hs. apply bind_ok in Hs as ([ed1 b]&Hx&Hs). inv Hs. unfold finish_autocomplete in Hx.
    cbn [negb] in Hx. apply bind_ok in Hx as ([ed0 r]&Hg&Hx). pose proof (get_autocomplete_only Hg) as (x&->).
    destruct r as [r|]; [|inv Hx; reflexivity]. apply bind_ok in Hx as (m&Hm&Hx). cbv zeta in Hx. apply bind_ok in Hx as (ed2&Hsp&Hx). inv Hx.
    apply splice_result in Hsp as (Hrep&_). apply nodes_replaced_length in Hrep; auto.
    unfold get_selected in Hm. destruct (nth_error (ar_matches r) (ar_selected r)) eqn:En; [|discriminate]. inv Hm.
    now apply (Hr _ _ _ Hg En) in Hrep.
  - cbn [step] in Hs. apply bind_ok in Hs as (ed1&Hsp&Hs). inv Hs. apply splice_result in Hsp as (Hrep&_).
    apply nodes_replaced_length in Hrep; auto. now apply Hr in Hrep.
Qed.
End Ed.
