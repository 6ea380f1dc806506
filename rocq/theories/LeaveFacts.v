(** Leaving a completely typed token, with every operation that only moves the caret. *)
From Verif Require Import Base Str Grid Node Focus Edit Caret Autocomplete Editor Spec SpecAuto SpecEditor SpecMove SpecSelect SpecRemove SpecLeave
  BaseFacts GridFacts TreeFacts OrderFacts EditFacts TreeProofs MoveFacts MoveProofs SpecTrack TrackFacts AutoFacts MatchExact PopupFacts EditorFacts HistoryFacts
  OpFacts SafetyProofs SpliceFacts SelectFacts RemoveFacts.
Set Implicit Arguments.
Unset Strict Implicit.

(** The three cases are all. *)
Lemma leave_cases doc q n t : token_kept doc q n t \/ token_corrected q n t \/ token_panics doc q n t.
Proof.
  unfold token_kept, token_corrected, token_panics.
  assert (Hd : pos_in_range t (token q n) \/ ~ pos_in_range t (token q n)).
  { unfold pos_in_range, pos_le. assert (Hx : forall a b : MinPos, a = b \/ a <> b) by (intros [r o] [r' o']; destruct (rowindices_eqb r r') eqn:E;
      [apply rowindices_eqb_eq in E; subst; destruct (Nat.eq_dec o o') as [->|]; [now left|right; congruence]|right; intros X; injection X as -> ->;
       assert (E' : rowindices_eqb r' r' = true) by (now apply rowindices_eqb_eq); congruence]).
    destruct (Hx (range_left (token q n)) t), (Hx t (range_right (token q n))); destruct (minpos_cmp (range_left (token q n)) t), (minpos_cmp t (range_right (token q n)));
      intuition (try congruence). }
  destruct Hd as [Hd|Hd]; [auto|]. destruct (Nat.lt_trichotomy (token_start q n) n) as [H|[H|H]].
  - destruct (token_start q n) as [|i] eqn:E; [left; right; split; [exact H|discriminate]|].
    destruct (node_get doc (mp_row q) (S i + i)) as [[v g|s]|] eqn:En.
    + left. right. split; [exact H|]. intros j s Hj. injection Hj as <-. rewrite En. discriminate.
    + assert (Hs : ascii_start s \/ ~ ascii_start s).
      { destruct s as [|c s']; [right; intros (?&?&?&_); discriminate|]. destruct (Nat.eq_dec (utf8_len c) 1) as [U|U]; [left; exists c, s'; auto|].
        right. intros (c'&s2&E1&E2). injection E1 as -> ->. auto. }
      destruct Hs as [Hs|Hs].
      * left. right. split; [exact H|]. intros j s' Hj. injection Hj as <-. rewrite En. intros X; injection X as <-. exact Hs.
      * right. right. split; [exact Hd|]. right. right. split; [exact H|]. exists i, s. auto.
    + left. right. split; [exact H|]. intros j s Hj. injection Hj as <-. rewrite En. discriminate.
  - destruct (mp_row q) as [|y l] eqn:Eq.
    + destruct (mp_row t) as [|y l] eqn:Et; [right; left; auto|]. right. right. split; [exact Hd|]. right. left. split; [exact H|]. split; [reflexivity|discriminate].
    + right. left. split; [exact Hd|]. split; [exact H|]. discriminate.
  - right. right. auto.
Qed.

Lemma cmp_row p a b : minpos_cmp (mkMinPos p a) (mkMinPos p b) = Nat.compare a b.
Proof. pose proof (cmp_under p (here a) (here b)) as H. cbn [here mp_row mp_offset] in H. rewrite app_nil_r in H. rewrite H. apply cmp_here. Qed.
(** A range in a nested row makes an edit of the root row panic. *)
Lemma track_range_root cfg e r : mp_row (re_pos e) = [] -> mr_row r <> [] -> exists k, range_apply_edit cfg r (ERow e) = Panic k.
Proof.
  intros Hp Hm. destruct e as [t [p o] vs]. cbn [re_pos mp_row] in Hp. subst p. unfold range_apply_edit.
  cbn [get_row_indices_edit row_get_row_indices_edit re_type re_pos re_values mp_row mp_offset bind mr_row mr_start mr_end].
  assert (He : rowindices_eqb (mr_row r) [] = false) by (destruct (mr_row r); [congruence|reflexivity]).
  assert (Hs : indices_starts_with (mr_row r) [] = true) by (destruct (mr_row r); reflexivity).
  destruct t; cbn [row_get_row_indices_edit re_type re_pos re_values mp_row mp_offset bind]; cbv beta iota zeta; rewrite Hs; cbn [negb]; rewrite He, !andb_false_r;
    destruct (if mr_start r <=? mr_end r then (mr_start r, mr_end r) else (mr_end r, mr_start r)) as [s e]; unfold usub; cbn [length Nat.leb];
    destruct (overflow_checks cfg); eexists; reflexivity.
Qed.

Section Leave.
Variable SyntaxNode : Type.
Variable env : Env SyntaxNode.
Implicit Type ed : MathEditor SyntaxNode.
Let cfg := env_cfg env.

(** ** Splicing in the root row while the caret is in a nested one *)
Lemma splice_root_panics ed range vs : mr_row range = [] -> mp_row (mc_start (ed_caret ed)) <> [] \/ mp_row (mc_end (ed_caret ed)) <> [] ->
  exists k, splice_at_range env ed range vs = Panic k.
Proof.
  intros Hr Hn. unfold splice_at_range. destruct (rg_from_minimal (from_root (ed_input ed)) range) as [r|k] eqn:E; [|eexists; reflexivity].
  cbn [bind]. apply rg_from_minimal_inv in E as [G Em]. rewrite (replace_range_eq vs G). cbn [bind].
  assert (Ei : rg_indices r = []) by (rewrite <- Hr, <- Em; reflexivity). rewrite Ei. unfold pos_apply_edits. cbn [apply_edits].
  destruct (pos_apply_edit (env_cfg env) (mc_start (ed_caret ed)) (ERow (mkRowEdit Delete (mkMinPos [] (rg_left r)) (rg_nodes r)))) as [s|k] eqn:Es; [|eexists; reflexivity].
  cbn [bind]. destruct (pos_apply_edit (env_cfg env) s (ERow (mkRowEdit Insert (mkMinPos [] (rg_left r)) vs))) as [s'|k] eqn:Es'; [|eexists; reflexivity].
  cbn [bind]. destruct Hn as [Hn|Hn].
  - destruct (@track_root_panics (env_cfg env) (mkRowEdit Delete (mkMinPos [] (rg_left r)) (rg_nodes r)) (mc_start (ed_caret ed)) eq_refl Hn) as (k&Hk).
    rewrite Es in Hk. discriminate Hk.
  - destruct (@track_root_panics (env_cfg env) (mkRowEdit Delete (mkMinPos [] (rg_left r)) (rg_nodes r)) (mc_end (ed_caret ed)) eq_refl Hn) as (k&Hk).
    rewrite Hk. eexists; reflexivity.
Qed.

(** ** What the correction does once the caret is somewhere else *)
Lemma leaving ed q n rule : wf_row (ed_input ed) -> completed env ed q n rule ->
  exists x act, valid_pos (ed_input ed) q /\ start_autocorrect env ed = Ok (set_autocomplete ed x, Some act) /\ ac_range act = token q n /\ n <= mp_offset q /\ ac_rule act = rule /\ rule_parser rule <> [] /\
  forall t, valid_pos (ed_input ed) t -> let ed2 := set_caret (set_autocomplete ed x) (collapsed t) in
  (token_kept (ed_input ed) q n t -> apply_autocorrect env ed2 (Some act) = Ok ed2) /\
  (token_corrected q n t -> exists ed', apply_autocorrect env ed2 (Some act) = Ok ed' /\
     nodes_replaced (ed_input ed) (mp_row q) (mp_offset q - n) (mp_offset q) (rule_result rule) (ed_input ed') /\ ed_caret ed' = collapsed t) /\
  (token_panics (ed_input ed) q n t -> exists k, apply_autocorrect env ed2 (Some act) = Panic k).
Proof.
  intros Hwf (ed1&r&m&H&Hm&Hcm0&Hcq&En0&Er0). pose proof (nth_error_In _ _ Hm) as Hin.
  assert (Hcm : is_complete_match m = true) by (unfold is_complete_match; rewrite Hcm0; apply Nat.eqb_refl). 
  destruct (popup_match Hwf H Hin) as (qq&before&syms&last&rest&[Gc Go]&Hcar&Hp&Hf&_&Hpa&Hlne&Em&ms0&Hms0).
  pose proof (get_autocomplete_only H) as (x&Ex). subst ed1. rewrite Hcq in Hcar. injection Hcar as ->.
  assert (Hlen : length before + (length syms + 1) = pos_offset qq).
  { apply (f_equal (@length _)) in Hf. rewrite firstn_length, app_length, map_length, app_length in Hf. cbn in Hf. lia. }
  assert (En : n = length syms + 1) by (rewrite <- En0, Em; reflexivity).
  assert (Hrest : rest = [] /\ byte_len last = 1).
  { rewrite Em in Hcm0. cbn [m_rule_match_length m_rule] in Hcm0.
    rewrite Hpa, !byte_len_app in Hcm0. pose proof (byte_len_pos Hlne). split; [apply byte_len_0; lia|lia]. }
  destruct Hrest as [-> Hb1]. rewrite app_nil_r in Hpa. rewrite Er0 in Hpa, Hms0.
  set (act := mkAutocorrect rule (get_caret_range r m)).
  assert (Ha : start_autocorrect env ed = Ok (set_autocomplete ed x, Some act)).
  { unfold start_autocorrect. rewrite H. cbn [bind]. unfold results_start_autocorrect, get_selected. rewrite Hm. cbn [unwrap bind].
    rewrite Hcm. unfold act. rewrite Er0. reflexivity. }
  assert (Erg : get_caret_range r m = token (pos_to_minimal qq) n).
  { unfold get_caret_range, token. rewrite Hp, En0. reflexivity. }
  exists x, act. split; [exists (fr_row (pos_focus qq)); split; [exact (canonical_row Gc)|exact Go]|]. split; [exact Ha|]. split; [exact Erg|]. split; [cbn; lia|]. split; [reflexivity|].
  assert (Hrne : rule_parser rule <> []) by (rewrite Hpa; intros E; apply app_eq_nil in E as [_ E]; exact (Hlne E)). split; [exact Hrne|].
  intros t Hvt ed2. destruct (collapsed_caret Hwf Hvt) as (tp&Gt&Et&Ect).
  assert (Hvr : valid_range (ed_input ed) (token (pos_to_minimal qq) n)).
  { exists (fr_row (pos_focus qq)). split; [exact (canonical_row Gc)|]. cbn. lia. }
  destruct (rg_from_minimal_ok Hwf Hvr) as (rg&Hrg). pose proof (rg_from_minimal_inv Hrg) as [Grg Emin].
  assert (Eidx : rg_indices rg = pos_indices qq) by (apply (f_equal mr_row) in Emin; exact Emin).
  assert (Efoc : rg_focus rg = pos_focus qq).
  { apply (@canonical_unique (ed_input ed)); auto; apply Grg. }
  assert (El : rg_left rg = pos_offset qq - n).
  { rewrite rg_left_min. pose proof (f_equal mr_start Emin) as E1. pose proof (f_equal mr_end Emin) as E2. cbn in E1, E2. lia. }
  assert (Er : rg_right rg = pos_offset qq).
  { rewrite rg_right_max. pose proof (f_equal mr_start Emin) as E1. pose proof (f_equal mr_end Emin) as E2. cbn in E1, E2. lia. }
  assert (Hvals : rg_values rg = Ok (map Symbol (syms ++ [last]))).
  { rewrite (rg_values_eq Grg), Efoc, El, Er. f_equal.
    rewrite <- (firstn_skipn (pos_offset qq) (fr_row (pos_focus qq))), Hf.
    rewrite <- app_assoc, skipn_app_ge by (cbn; lia). 
    replace (pos_offset qq - n - length before) with 0 by lia. cbn [skipn].
    rewrite firstn_app_le by (rewrite map_length, app_length; cbn; lia).
    apply firstn_all2. rewrite map_length, app_length. cbn. lia. }
  assert (Happ : apply_autocorrect env ed2 (Some act) =
    (if rg_contains rg tp then Ok ed2 else
     ms <- rule_matches rule (map Symbol (syms ++ [last])) (pos_offset qq - n) 1 ;;
     if negb (existsb is_complete_match ms) then Ok ed2 else splice_at_range env ed2 (token (pos_to_minimal qq) n) (rule_result rule))).
  { unfold apply_autocorrect, act, ed2. cbn [set_caret set_autocomplete ed_input ed_caret ac_range ac_rule].
    rewrite Ect. cbn [bind c_selection]. rewrite Erg, Hrg. cbn [bind].
    replace (rg_start_position (range_of_pos tp)) with tp by (destruct tp; reflexivity).
    destruct (rg_contains rg tp); auto. rewrite Hvals. cbn [bind]. rewrite El, Emin. reflexivity. }
  rewrite Happ.
  assert (Hc1 : pos_in_range t (token (pos_to_minimal qq) n) -> rg_contains rg tp = true).
  { intros Hpin. rewrite <- Et, <- Emin in Hpin. now apply rg_contains_iff in Hpin. }
  assert (Hc2 : ~ pos_in_range t (token (pos_to_minimal qq) n) -> rg_contains rg tp = false).
  { intros Hpin. apply not_true_iff_false; intros Hq; apply Hpin. rewrite <- Et, <- Emin. now apply rg_contains_iff. }
  (* the symbol of the token that the matcher looks at *)
  assert (Hat : forall i b nd, pos_offset qq - n = S i -> S i < n -> firstn (S i) (map Symbol (syms ++ [last])) = b ++ [nd] ->
            exists s, nd = Symbol s /\ node_get (ed_input ed) (pos_indices qq) (pos_offset qq - n + i) = Some (Symbol s) /\ exists b' a', rule_parser rule = b' ++ s ++ a').
  { intros i b nd Hi Hlt Hb. assert (Hn : nth_error (map Symbol (syms ++ [last])) i = Some nd).
    { assert (Hlb : length b = i).
      { apply (f_equal (@length _)) in Hb. rewrite firstn_length, map_length, !app_length in Hb. cbn [length] in Hb. lia. }
      assert (E : nth_error (firstn (S i) (map Symbol (syms ++ [last]))) i = Some nd) by (rewrite Hb, nth_error_app2, Hlb, Nat.sub_diag by lia; reflexivity).
      rewrite nth_error_firstn' in E by lia. exact E. }
    assert (Hs : nth_error syms i = nth_error (syms ++ [last]) i) by (rewrite nth_error_app1 by lia; reflexivity).
    rewrite nth_error_map, <- Hs in Hn. destruct (nth_error syms i) as [s|] eqn:Hsi; cbn in Hn; [|discriminate Hn]. injection Hn as <-.
    exists s. split; [reflexivity|]. split.
    - unfold node_get. unfold pos_indices. rewrite (canonical_row Gc).
      assert (E : nth_error (firstn (pos_offset qq) (fr_row (pos_focus qq))) (pos_offset qq - n + i) = Some (Symbol s)).
      { rewrite Hf, nth_error_app2 by lia. replace (pos_offset qq - n + i - length before) with i by lia.
        rewrite nth_error_map, <- Hs, ?Hsi. reflexivity. }
      rewrite nth_error_firstn' in E by lia. exact E.
    - apply nth_error_split in Hsi as (l1&l2&->&_). exists (concat l1), (concat l2 ++ last). rewrite Hpa, concat_app. cbn [concat].
      rewrite <- !app_assoc. reflexivity. }
  assert (Hlv : length (map Symbol (syms ++ [last])) = n) by (rewrite map_length, app_length; cbn; lia).
  unfold token_kept, token_corrected, token_panics, token_start. cbn [mp_offset mp_row pos_to_minimal]. split; [|split].
  - intros [Hpin|[Hlt Hasc]]; [rewrite (Hc1 Hpin); reflexivity|]. destruct (rg_contains rg tp); [reflexivity|].
    destruct (proj2 (@rule_matches_exact rule (map Symbol (syms ++ [last])) (pos_offset qq - n) 1)) as (ms&Hms).
    { split; [exact Hrne|]. split; [lia|]. intros b nd Hb. destruct (pos_offset qq - n) as [|i] eqn:Ei.
      - cbn in Hb. destruct b; discriminate Hb.
      - destruct (Hat i b nd eq_refl Hlt Hb) as (s&->&Hg&_). left. exact (Hasc i s eq_refl Hg). }
    rewrite Hms. cbn [bind]. assert (Hlt2 : pos_offset qq - n < length syms + 1) by lia. rewrite (no_early_complete Hpa Hlne Hlt2 Hms). reflexivity.
  - intros (Hpin&Heq&Hrow). rewrite (Hc2 Hpin).
    assert (Hms : exists ms, rule_matches rule (map Symbol (syms ++ [last])) (pos_offset qq - n) 1 = Ok ms).
    { replace (pos_offset qq - n) with (length (map Symbol (syms ++ [last]))) by lia.
      rewrite map_app in Hf |- *. rewrite app_assoc in Hf. eapply rule_matches_same_last; [exact Hms0|exact Hf|reflexivity]. }
    destruct Hms as (ms&Hms). rewrite Hms. cbn [bind]. replace (pos_offset qq - n) with (length syms + 1) in Hms by lia.
    rewrite (full_complete Hpa Hlne Hb1 Hms). cbn [negb].
    destruct (@splice_ok SyntaxNode env ed2 (token (pos_to_minimal qq) n) (rule_result rule)) as (ed'&Hs).
    { exists rg. exact Hrg. }
    { cbn [token mr_row]. cbn [pos_to_minimal mp_row]. destruct (pos_indices qq) as [|y l]; [|left; discriminate]. right. left. cbn. auto. }
    rewrite Hs. exists ed'. split; auto. pose proof (splice_result Hs) as (Hrep&Hcar'&_).
    unfold lo, hi, token in Hrep. cbn [mr_start mr_end mr_row ed2 set_caret set_autocomplete ed_input mp_offset pos_to_minimal] in Hrep.
    replace (Nat.min (pos_offset qq) (pos_offset qq - n)) with (pos_offset qq - n) in Hrep by lia.
    replace (Nat.max (pos_offset qq) (pos_offset qq - n)) with (pos_offset qq) in Hrep by lia. split; [exact Hrep|exact Hcar'].
  - intros (Hpin&[Hlt|[(Heq&Hr0&Ht0)|(Hlt&i&s&Hi&Hg&Hna)]]); rewrite (Hc2 Hpin).
    + destruct (@rule_matches_too_long rule (map Symbol (syms ++ [last])) (pos_offset qq - n) 1) as (k&Hk); [lia|].
      rewrite Hk. cbn. eauto.
    + assert (Hms : exists ms, rule_matches rule (map Symbol (syms ++ [last])) (pos_offset qq - n) 1 = Ok ms).
      { replace (pos_offset qq - n) with (length (map Symbol (syms ++ [last]))) by lia.
        rewrite map_app in Hf |- *. rewrite app_assoc in Hf. eapply rule_matches_same_last; [exact Hms0|exact Hf|reflexivity]. }
      destruct Hms as (ms&Hms). rewrite Hms. cbn [bind]. replace (pos_offset qq - n) with (length syms + 1) in Hms by lia.
      rewrite (full_complete Hpa Hlne Hb1 Hms). cbn [negb]. apply splice_root_panics; [exact Hr0|]. left. exact Ht0.
    + destruct (rule_matches rule (map Symbol (syms ++ [last])) (pos_offset qq - n) 1) as [ms|k] eqn:Hms; [exfalso|eexists; reflexivity].
      destruct (proj1 (@rule_matches_exact rule (map Symbol (syms ++ [last])) (pos_offset qq - n) 1) (ex_intro _ ms Hms)) as (_&_&Hx).
      rewrite Hi in Hx, Hlt.
      assert (Hsp : exists b nd, firstn (S i) (map Symbol (syms ++ [last])) = b ++ [nd]).
      { destruct (@exists_last _ (firstn (S i) (map Symbol (syms ++ [last])))) as (b&nd&Hb); [|eauto].
        intros Ef. apply (f_equal (@length _)) in Ef. rewrite firstn_length, Hlv in Ef. cbn [length] in Ef. lia. }
      destruct Hsp as (b&nd&Hb). destruct (Hat i b nd Hi Hlt Hb) as (s'&->&Hg'&b'&a'&Hoc). rewrite Hg in Hg'. injection Hg' as <-.
      destruct (Hx _ _ Hb) as [Hx'|[_ Hx']]; [exact (Hna Hx')|exact (Hx' _ _ Hoc)].
Qed.

(** ** Where the arrow keys go *)
Lemma arrow_goes doc q d t : wf_row doc -> valid_pos doc q -> goes cfg doc q (OpMoveCaret d MChar) t ->
  exists c c', caret_from_minimal doc (collapsed q) = Ok c /\ nav_move_caret cfg doc c d MChar = Ok c' /\ caret_to_minimal c' = collapsed t /\ valid_pos doc t.
Proof.
  intros Hwf Hv H. destruct (collapsed_caret Hwf Hv) as (p&Gp&Ep&Ec). exists (caret_at p).
  inversion H as [d' t' Hf Hu|d' Hd He|t' Hu|t' Hu| |]; subst.
  - destruct d; cbn [follows] in Hf; try contradiction.
    + destruct (@nav_left_next cfg doc p t Hwf Gp) as (r&Gr&E&Er); [intros Ho Hz; apply Hu; split; [exact Ho|split; [reflexivity|exact Hz]]|exact Hf|].
      exists (caret_at r). split; [exact Ec|]. split; [exact E|]. rewrite <- Er. split; [reflexivity|now apply good_pos_valid].
    + destruct (@nav_right_next cfg doc p t Hwf Gp Hf) as (r&Gr&E&Er).
      exists (caret_at r). split; [exact Ec|]. split; [exact E|]. rewrite <- Er. split; [reflexivity|now apply good_pos_valid].
  - match goal with E : pos_to_minimal p = edge _ _ |- _ => rename E into He end. rewrite <- He. clear H.
    exists (caret_at p). split; [exact Ec|]. split; [|split; [cbn; reflexivity|exact Hv]]. pose proof (positions_NoDup doc) as Hnd. destruct Hd as [-> | ->].
    + destruct (@nav_left cfg doc p Hwf Gp) as (r&Gr&E&[Hn|[_ ->]]); [|exfalso|exact E].
      * intros _ (_&pp&i&Hr). cbn [edge] in He. rewrite He in Hr. destruct pp; discriminate Hr.
      * rewrite He in Hn. cbn [edge] in Hn. destruct (positions_first doc) as [l El]. rewrite El in Hn, Hnd. exact (first_not_next Hnd Hn).
    + destruct (nav_right cfg Hwf Gp) as (r&Gr&E&[Hn|[_ ->]]); [exfalso|exact E].
      rewrite He in Hn. cbn [edge] in Hn. destruct (positions_last doc) as [l El]. rewrite El in Hn, Hnd. exact (last_not_next Hnd Hn).
  - destruct (@vertical_ok cfg doc (pos_to_minimal p) VUp Hwf Hv) as (c&c'&t2&E1&E2&E3&E4). rewrite Ec in E1. injection E1 as <-.
    rewrite (up_fun Hu E3) in *.
    destruct (@arrows_ok cfg doc (collapsed (pos_to_minimal p)) DUp Hwf Hv Hv) as (c1&c2&F1&F2&F3&_); [discriminate|].
    rewrite Ec in F1. injection F1 as <-. change (mkCaret p p (SelRow (range_of_pos p))) with (caret_at p) in *. rewrite E2 in F2. injection F2 as <-.
    exists c'. split; [exact Ec|]. split; [exact E2|]. destruct t2 as [t2|].
    + split; [exact E4|]. rewrite E4 in F3. exact F3.
    + subst c'. split; [reflexivity|exact Hv].
  - destruct (@vertical_ok cfg doc (pos_to_minimal p) VDown Hwf Hv) as (c&c'&t2&E1&E2&E3&E4). rewrite Ec in E1. injection E1 as <-.
    rewrite (down_fun Hu E3) in *.
    destruct (@arrows_ok cfg doc (collapsed (pos_to_minimal p)) DDown Hwf Hv Hv) as (c1&c2&F1&F2&F3&_); [discriminate|].
    rewrite Ec in F1. injection F1 as <-. change (mkCaret p p (SelRow (range_of_pos p))) with (caret_at p) in *. rewrite E2 in F2. injection F2 as <-.
    exists c'. split; [exact Ec|]. split; [exact E2|]. destruct t2 as [t2|].
    + split; [exact E4|]. rewrite E4 in F3. exact F3.
    + subst c'. split; [reflexivity|exact Hv].
Qed.

(** Delete where it only moves. *)
Lemma delete_goes doc q t : wf_row doc -> good_pos doc q -> goes cfg doc (pos_to_minimal q) (OpRemoveAtCaret RemoveRight) t ->
  remove_at_caret_position cfg q HRight = Ok (Some ([], t)) /\ valid_pos doc t.
Proof.
  intros Hwf Gq H. inversion H as [| | | | |t' Hf Hs Hd]; subst. split; [|apply (next_in_valid Hf)].
  destruct (otherwise_moves cfg Hwf Gq Hs Hd) as [E|[E1 E2]].
  - rewrite E. unfold remove_move_caret, move_caret_range.
    assert (El : rg_left_position (range_of_pos q) = q /\ rg_right_position (range_of_pos q) = q).
    { unfold rg_left_position, rg_right_position, rg_left, rg_right, rg_is_forwards. cbn. rewrite Nat.leb_refl. destruct q; split; reflexivity. }
    destruct El as [El Er]. assert (Ecol : rg_is_collapsed (range_of_pos q) = true) by apply Nat.eqb_refl.
    cbn [h_to_dir]. rewrite Er. destruct (move_right cfg Hwf Gq) as (m&Hm&HQ). rewrite Hm. cbn [bind]. pose proof (positions_NoDup doc) as Hnd. destruct m as [m|].
    + cbn. do 3 f_equal. eapply next_in_fun; [exact Hnd| |exact Hf]. apply right_step_next, HQ.
    + exfalso. cbn [follows] in Hf. rewrite HQ in Hf. destruct (positions_last doc) as [l El2]. rewrite El2 in Hf, Hnd. exact (last_not_next Hnd Hf).
  - exfalso. cbn [follows] in Hf. rewrite E1 in Hf. pose proof (positions_NoDup doc) as Hnd. cbn [edge h_to_dir] in Hf. destruct (positions_last doc) as [l El2]. rewrite El2 in Hf, Hnd. exact (last_not_next Hnd Hf).
Qed.

Lemma completed_mode ed q n rule m : completed env ed q n rule -> completed env (set_selection_mode ed m) q n rule.
Proof.
  intros (ed'&r&x&H&Hx&Hy&Hc&Hn&Hr). unfold get_autocomplete in H. apply bind_ok in H as (c&E&H).
  unfold completed, get_autocomplete. cbn [set_selection_mode ed_input ed_caret ed_autocomplete]. rewrite E. cbn [bind].
  destruct (c_selection c) as [rg|]; [|discriminate H]. destruct (rg_is_collapsed rg); [|discriminate H].
  apply bind_ok in H as (ms&Hms&H). rewrite Hms. cbn [bind]. apply bind_ok in H as ([cur res]&Hst&H). injection H as <- ->. rewrite Hst. cbn [bind].
  eexists. exists r, x. split; [reflexivity|]. auto.
Qed.

(** ** Leaving it with any of these operations *)
Lemma leave_step ed q n rule op t : wf_row (ed_input ed) -> completed env ed q n rule -> goes cfg (ed_input ed) q op t ->
  (token_kept (ed_input ed) q n t -> exists ed', step env ed op = Ok (ed', OutNone _) /\ ed_input ed' = ed_input ed /\ ed_undo ed' = ed_undo ed /\ ed_caret ed' = collapsed t) /\
  (token_corrected q n t -> exists ed', step env ed op = Ok (ed', OutNone _) /\
     nodes_replaced (ed_input ed) (mp_row q) (mp_offset q - n) (mp_offset q) (rule_result rule) (ed_input ed') /\ ed_caret ed' = collapsed t) /\
  (token_panics (ed_input ed) q n t -> exists k, step env ed op = Panic k).
Proof.
  intros Hwf Hco Hg. assert (Hcar : ed_caret ed = collapsed q) by (destruct Hco as (?&?&?&_&_&_&Hc&_); exact Hc).
  set (ed0 := match op with OpStartSelection _ m => set_selection_mode ed (Some m) | _ => ed end).
  assert (Hco0 : completed env ed0 q n rule) by (unfold ed0; destruct op; try exact Hco; now apply completed_mode).
  assert (Hin0 : ed_input ed0 = ed_input ed) by (unfold ed0; destruct op; reflexivity).
  assert (Hun0 : ed_undo ed0 = ed_undo ed) by (unfold ed0; destruct op; reflexivity).
  assert (Hwf0 : wf_row (ed_input ed0)) by (rewrite Hin0; exact Hwf).
  destruct (leaving Hwf0 Hco0) as (x&act&Hv&Ha&_&_&_&_&Hl). rewrite Hin0 in Hv.
  assert (Hst : valid_pos (ed_input ed) t /\ step env ed op = (ed' <- apply_autocorrect env (set_caret (set_autocomplete ed0 x) (collapsed t)) (Some act) ;; Ok (ed', OutNone _))).
  { destruct op; try (inversion Hg; fail).
    - destruct m; try (inversion Hg; fail). destruct (arrow_goes Hwf Hv Hg) as (c&c'&E1&E2&E3&E4). split; [exact E4|]. unfold ed0 in *.
      cbn [step]. unfold move_caret. rewrite Ha. cbn [bind]. cbn [set_autocomplete ed_input ed_caret]. rewrite Hcar, E1. cbn [bind].
      unfold cfg in E2. rewrite E2. cbn [bind builder_finish]. rewrite E3. unfold finish_autocorrect, autocorrect_finish. cbn [ce_edits range_apply_edits apply_edits bind].
      destruct act; reflexivity.
    - destruct m; try (inversion Hg; fail). destruct (collapsed_caret Hwf Hv) as (qq&Gq&Eq&Ec). rewrite <- Eq in Hg.
      destruct (delete_goes Hwf Gq Hg) as [Hrp Hvt]. split; [exact Hvt|]. unfold ed0 in *.
      cbn [step]. unfold editor_remove_at_caret. rewrite Ha. cbn [bind set_autocomplete ed_input ed_caret]. rewrite Hcar, Ec. cbn [bind c_selection].
      unfold remove_at_caret, rg_is_collapsed. cbn [range_of_pos rg_start rg_end]. rewrite Nat.eqb_refl. cbn [negb].
      replace (rg_start_position (range_of_pos qq)) with qq by (destruct qq; reflexivity). unfold cfg in Hrp. rewrite Hrp. cbn [bind builder_finish].
      unfold finish_autocorrect, autocorrect_finish. cbn [ce_edits range_apply_edits apply_edits bind]. destruct act as [ru ra]. cbn [ac_rule ac_range].
      unfold collapsed. cbn [set_caret set_autocomplete ed_input ed_parsed ed_caret ed_selection_mode ed_autocomplete ed_undo].
      match goal with |- context [apply_autocorrect env ?e ?a] => destruct (apply_autocorrect env e a) end; reflexivity.
    - inversion Hg as [| | | |t' m' Hvt|]; subst. split; [exact Hvt|]. unfold ed0 in *. cbn [step]. unfold start_selection. rewrite Ha. cbn [bind builder_finish].
      unfold finish_autocorrect, autocorrect_finish. cbn [ce_edits range_apply_edits apply_edits bind]. destruct act; reflexivity. }
  destruct Hst as [Hvt Hst]. rewrite Hst. rewrite <- Hin0 in Hvt. destruct (Hl t Hvt) as (H1&H2&H3). rewrite Hin0 in *. split; [|split].
  - intros Hk. rewrite (H1 Hk). cbn [bind]. eexists. split; [reflexivity|]. cbn. auto.
  - intros Hc. destruct (H2 Hc) as (ed'&E&R). rewrite E. cbn [bind]. exists ed'. auto.
  - intros Hp. destruct (H3 Hp) as (k&E). rewrite E. exists k. reflexivity.
Qed.


(** ** Dissolving a container with a token in front of the caret *)
Lemma flatten_explicit doc n p i v g k : canonical doc (fn_parent n) -> fr_indices (fn_parent n) = p -> fn_index n = i -> fn_node n = Container v g ->
  nth_error (fr_row (fn_parent n)) i = Some (Container v g) ->
  exists nds doc1 doc', length nds = 1 /\
    flatten_node n k = Ok (Some ([ERow (mkRowEdit Delete (mkMinPos p i) nds); ERow (mkRowEdit Insert (mkMinPos p i) (concat (gvalues g)))], mkMinPos p (i + k))) /\
    tree_apply_edit cfg doc (ERow (mkRowEdit Delete (mkMinPos p i) nds)) = Ok doc1 /\
    tree_apply_edit cfg doc1 (ERow (mkRowEdit Insert (mkMinPos p i) (concat (gvalues g)))) = Ok doc' /\ nodes_replaced doc p i (S i) (concat (gvalues g)) doc'.
Proof.
  intros Hc Hp Hi Hn Hnth. subst p i. assert (Hnth' : nth_error (fr_row (fn_parent n)) (fn_index n) = Some (fn_node n)) by now rewrite Hn.
  destruct (flatten_replaces env k Hc eq_refl eq_refl Hn Hnth) as (e&es&doc'&Hr&C&Hrep).
  destruct (flatten_node_inv Hc Hr) as (v'&g'&r&En&Hr'&G&Hrep'&_). rewrite Hn in En. injection En as <- <-. pose proof (range_new_inv Hr') as (Er&_&_).
  assert (El : rg_left r = fn_index n) by (rewrite Er, rg_left_min; cbn; lia).
  assert (Erg : rg_right r = S (fn_index n)) by (rewrite Er, rg_right_max; cbn; lia).
  assert (Ei : rg_indices r = fr_indices (fn_parent n)) by (rewrite Er; reflexivity).
  rewrite (replace_range_eq _ G) in Hrep'. injection Hrep' as He Hes. subst e es. rewrite El, Ei in *.
  pose proof (chain_apply C) as Hap. unfold tree_apply_edits in Hap. cbn [apply_edits] in Hap.
  apply bind_ok in Hap as (doc1&H1&Hap). apply bind_ok in Hap as (doc2&H2&Hap). injection Hap as ->.
  exists (rg_nodes r), doc1, doc'. split; [|split; [exact Hr|split; [exact H1|split; [exact H2|exact Hrep]]]].
  unfold rg_nodes. rewrite El, Erg. assert (Ef : fr_row (rg_focus r) = fr_row (fn_parent n)) by (rewrite Er; reflexivity). rewrite Ef.
  pose proof (nth_error_Some_lt Hnth). rewrite firstn_length, skipn_length. lia.
Qed.

(** Where the caret is when Delete dissolves a container. *)
Lemma dissolves_place doc q p i k : dissolves doc HRight q p i k -> exists v g, node_get doc p i = Some (Container v g) /\ k <= length (concat (gvalues g)) /\
  (mp_row q = p /\ mp_offset q = i \/ exists j, mp_row q = p ++ [(i, j)]).
Proof.
  intros H. inversion H as [p' i' v g Hn Hv| | |p' i' v g first cells Hn Hv Hg| |p' i' v g Hn Ha]; subst; exists v, g; (split; [exact Hn|]).
  - split; [lia|]. left. auto.
  - split; [rewrite Hg; cbn [concat]; rewrite app_length; lia|]. right. eexists. reflexivity.
  - split; [lia|]. right. eexists. reflexivity.
Qed.

Lemma cell_wf doc p i v g : wf_row doc -> node_get doc p i = Some (Container v g) -> wf_row (concat (gvalues g)).
Proof.
  intros Hwf Hn. unfold node_get in Hn. destruct (row_get doc p) as [row|] eqn:Hr; [|discriminate Hn].
  pose proof (row_get_wf Hwf Hr) as Hw. pose proof (wf_row_nth Hw Hn) as Hc. apply wf_container_inv in Hc as (_&_&_&Hcells).
  induction (gvalues g) as [|c cs IH]; cbn [concat]; [exact wf_row_nil|]. apply wf_row_app. split; [apply Hcells; now left|apply IH; intros; apply Hcells; now right].
Qed.

(** Everything up to the correction *)
Lemma dissolve_start ed q n rule p i k : wf_row (ed_input ed) -> completed env ed q n rule -> dissolves (ed_input ed) HRight q p i k ->
  exists v g nds doc1 doc' act ed2, let es := [ERow (mkRowEdit Delete (mkMinPos p i) nds); ERow (mkRowEdit Insert (mkMinPos p i) (concat (gvalues g)))] in
    node_get (ed_input ed) p i = Some (Container v g) /\ k <= length (concat (gvalues g)) /\ (mp_row q = p /\ mp_offset q = i \/ exists j, mp_row q = p ++ [(i, j)]) /\
    valid_pos (ed_input ed) q /\ n <= mp_offset q /\ ac_range act = token q n /\ ac_rule act = rule /\ rule_parser rule <> [] /\ length nds = 1 /\
    tree_apply_edit cfg (ed_input ed) (ERow (mkRowEdit Delete (mkMinPos p i) nds)) = Ok doc1 /\
    nodes_replaced (ed_input ed) p i (S i) (concat (gvalues g)) doc' /\ wf_row doc' /\ ed_input ed2 = doc' /\ ed_caret ed2 = collapsed (mkMinPos p (i + k)) /\
    step env ed (OpRemoveAtCaret RemoveRight) = (a <- autocorrect_finish cfg (Some act) es ;; ed' <- apply_autocorrect env ed2 a ;; Ok (ed', OutNone _)).
Proof.
  intros Hwf Hco Hdis. assert (Hcar : ed_caret ed = collapsed q) by (destruct Hco as (?&?&?&_&_&_&Hc&_); exact Hc).
  destruct (leaving Hwf Hco) as (x&act&Hv&Ha&Hact&Hnq&Hrule&Hrne&_). destruct (collapsed_caret Hwf Hv) as (qq&Gq&Eq&Ec).
  destruct (dissolves_place Hdis) as (v&g&Hng&Hk&Hplace). rewrite <- Eq in Hdis.
  destruct (dissolves_flattens cfg Hwf Gq Hdis) as (v'&g'&nd&H1&H2&H3&H4&H5&Hrp).
  assert (Hng' : node_get (ed_input ed) p i = Some (Container v' g')) by (unfold node_get; rewrite <- H2, (canonical_row H1); exact H5).
  rewrite Hng in Hng'. injection Hng' as <- <-.
  destruct (flatten_explicit k H1 H2 H3 H4 H5) as (nds&doc1&doc'&Hl1&Hf&Hd1&Hd2&Hrep). rewrite Hf in Hrp.
  set (es := [ERow (mkRowEdit Delete (mkMinPos p i) nds); ERow (mkRowEdit Insert (mkMinPos p i) (concat (gvalues g)))]) in *.
  assert (Hap : tree_apply_edits cfg (ed_input ed) es = Ok doc') by (unfold es, tree_apply_edits; cbn [apply_edits]; rewrite Hd1; cbn [bind]; rewrite Hd2; reflexivity).
  assert (Hstep : exists ed2, ed_input ed2 = doc' /\ ed_caret ed2 = collapsed (mkMinPos p (i + k)) /\
     step env ed (OpRemoveAtCaret RemoveRight) = (a <- autocorrect_finish cfg (Some act) es ;; ed' <- apply_autocorrect env ed2 a ;; Ok (ed', OutNone _))).
  { exists (mkEditor doc' None (collapsed (mkMinPos p (i + k))) (ed_selection_mode ed) x (undo_push (ed_undo ed) (mkCaretEdit (collapsed q) (collapsed (mkMinPos p (i + k))) es))).
    split; [reflexivity|]. split; [reflexivity|].
    cbn [step]. unfold editor_remove_at_caret. rewrite Ha. cbn [bind set_autocomplete ed_input ed_caret]. rewrite Hcar, Ec. cbn [bind c_selection].
    unfold remove_at_caret, rg_is_collapsed. cbn [range_of_pos rg_start rg_end]. rewrite Nat.eqb_refl. cbn [negb].
    replace (rg_start_position (range_of_pos qq)) with qq by (destruct qq; reflexivity).
    unfold cfg in Hrp; rewrite Hrp. cbn [bind]. unfold builder_finish. fold cfg. cbn [set_autocomplete ed_input ed_caret ed_selection_mode ed_autocomplete ed_undo].
    rewrite ?Hcar. unfold es at 1. rewrite Hap. cbn [bind]. unfold finish_autocorrect. cbn [ce_edits]. fold cfg.
    destruct (autocorrect_finish cfg (Some act) es) as [a|e]; cbn [bind]; [|reflexivity].
    fold (collapsed (mkMinPos p (i + k))). match goal with |- context [apply_autocorrect env ?e a] => destruct (apply_autocorrect env e a) end; reflexivity. }
  destruct Hstep as (ed2&Hi2&Hc2&Hstep).
  assert (Hwf' : wf_row doc').
  { destruct Hrep as (row&_&Hlr&Hr). apply (replaced_wf Hr Hwf). pose proof (row_get_wf Hwf (replaced_get_old Hr)) as Hw.
    apply wf_row_app. split; [|apply wf_row_app; split; [exact (cell_wf Hwf Hng)|]].
    - rewrite <- (firstn_skipn i row) in Hw. now apply wf_row_app in Hw.
    - rewrite <- (firstn_skipn (S i) row) in Hw. now apply wf_row_app in Hw. }
  exists v, g, nds, doc1, doc', act, ed2. cbv zeta. repeat (split; [assumption|]). exact Hstep.
Qed.
Lemma dissolve_pending ed q n rule p i k : wf_row (ed_input ed) -> completed env ed q n rule -> dissolves (ed_input ed) HRight q p i k ->
  (p = mp_row q \/ (exists p0 j0, p = p0 ++ [(i, j0)]) -> exists v g ed', step env ed (OpRemoveAtCaret RemoveRight) = Ok (ed', OutNone _) /\
     node_get (ed_input ed) p i = Some (Container v g) /\
     nodes_replaced (ed_input ed) p i (S i) (concat (gvalues g)) (ed_input ed') /\ ed_caret ed' = collapsed (mkMinPos p (i + k))) /\
  (p = [] -> mp_row q <> [] -> exists e, step env ed (OpRemoveAtCaret RemoveRight) = Panic e).
Proof.
  intros Hwf Hco Hdis. destruct (dissolve_start Hwf Hco Hdis) as (v&g&nds&doc1&doc'&act&ed2&Hng&Hk&Hplace&Hv&Hnq&Hact&Hrule&Hrne&Hl1&Hd1&Hrep&Hwf'&Hi2&Hc2&Hstep).
  set (es := [ERow (mkRowEdit Delete (mkMinPos p i) nds); ERow (mkRowEdit Insert (mkMinPos p i) (concat (gvalues g)))]) in *.
  rewrite Hstep. unfold autocorrect_finish. rewrite Hact.
  assert (Hinside : forall a b, Nat.min a b <= i + k <= Nat.max a b -> Nat.max a b <= i + length (concat (gvalues g)) ->
            apply_autocorrect env ed2 (Some (mkAutocorrect (ac_rule act) (mkMinRange p a b))) = Ok ed2).
  { intros a b Hab Hlen. unfold apply_autocorrect. rewrite Hi2, Hc2.
    destruct (@collapsed_caret doc' (mkMinPos p (i + k)) Hwf') as (tp&Gt&Et&Ect); [eapply nodes_replaced_valid; [exact Hrep|lia]|]. rewrite Ect. cbn [bind c_selection ac_range].
    destruct (@nodes_replaced_valid _ _ _ _ _ _ (Nat.max a b) Hrep) as (row'&Hr'&Hl'); [lia|]. cbn [mp_row mp_offset] in Hr', Hl'.
    destruct (@rg_from_minimal_ok doc' (mkMinRange p a b) Hwf') as (rg&Hrg); [exists row'; cbn; split; [exact Hr'|lia]|]. rewrite Hrg. cbn [bind].
    replace (rg_start_position (range_of_pos tp)) with tp by (destruct tp; reflexivity).
    assert (Hcon : rg_contains rg tp = true).
    { apply rg_contains_iff. pose proof (rg_from_minimal_inv Hrg) as [_ Emin]. rewrite Et, Emin. unfold pos_in_range, range_left, range_right, pos_le. cbn [mr_row mr_start mr_end].
      split; apply is_le_iff; rewrite cmp_row; cbn [mp_offset].
      - destruct (Nat.compare_spec (Nat.min a b) (i + k)); [reflexivity|reflexivity|lia].
      - destruct (Nat.compare_spec (i + k) (Nat.max a b)); [reflexivity|reflexivity|lia]. }
    rewrite Hcon. reflexivity. }
  split.
  - intros Hcase. exists v, g, ed2. split; [|split; [exact Hng|split; [rewrite Hi2; exact Hrep|exact Hc2]]].
    assert (Hr : exists a b, range_apply_edits cfg (token q n) es = Ok (mkMinRange p a b) /\ Nat.min a b <= i + k <= Nat.max a b /\ Nat.max a b <= i + length (concat (gvalues g))).
    { unfold range_apply_edits, es. cbn [apply_edits]. destruct Hplace as [[Hq Ho]|[j Hq]].
      - assert (k = 0) as ->.
        { assert (Hd : forall j, q <> mkMinPos (p ++ [(i, j)]) (mp_offset q)) by (intros j E; rewrite E in Hq; cbn [mp_row] in Hq; apply (f_equal (@length _)) in Hq; rewrite app_length in Hq; cbn [length] in Hq; lia).
          clear - Hdis Hd. inversion Hdis; subst; try reflexivity; exfalso; eapply Hd; reflexivity. }
        unfold token. rewrite Hq, Ho in *. rewrite map_same_row by reflexivity. cbn [mr_start mr_end mr_row bind]. unfold left_map, right_map, del_pos. cbn [re_type re_pos re_values mp_offset]. rewrite Hl1.
        destruct (i <=? i - n) eqn:Ein.
        + rewrite map_same_row by reflexivity. cbn [mr_start mr_end mr_row bind]. unfold left_map, right_map, ins_pos, ins_end. cbn [re_type re_pos re_values mp_offset].
          do 2 eexists. split; [match goal with |- context [if ?c then mkMinRange _ ?a ?b else mkMinRange _ ?a' ?b'] => replace (if c then mkMinRange p a b else mkMinRange p a' b') with (mkMinRange p (if c then a else a') (if c then b else b')) by (destruct c; reflexivity) end; reflexivity|].
          repeat match goal with |- context [if ?b then _ else _] => destruct b eqn:? end; lia.
        + rewrite map_same_row by reflexivity. cbn [mr_start mr_end mr_row bind]. unfold left_map, right_map, ins_pos, ins_end. cbn [re_type re_pos re_values mp_offset].
          do 2 eexists. split; [match goal with |- context [if ?c then mkMinRange _ ?a ?b else mkMinRange _ ?a' ?b'] => replace (if c then mkMinRange p a b else mkMinRange p a' b') with (mkMinRange p (if c then a else a') (if c then b else b')) by (destruct c; reflexivity) end; reflexivity|].
          repeat match goal with |- context [if ?b then _ else _] => destruct b eqn:? end; lia.
      - destruct Hcase as [E|(p0&j0&Ep)]; [exfalso; rewrite Hq in E; apply (f_equal (@length _)) in E; rewrite app_length in E; cbn in E; lia|].
        destruct (@nested_ranges cfg (ed_input ed) (mkRowEdit Delete (mkMinPos p i) nds) doc1 p0 i j0 i j [] (mp_offset q) (mp_offset q - n) Hd1 Ep) as (_&Hn1&_).
        { cbn [re_pos mp_row]. rewrite <- Hq. destruct Hv as (row&Hrow&Hrl). exists row. cbn. split; [exact Hrow|lia]. }
        unfold token. rewrite Hq. cbn [re_pos mp_row] in Hn1.
        assert (Hcd : carried (mkRowEdit Delete (mkMinPos p i) nds) i i) by (unfold carried; cbn [re_pos re_values re_type mp_offset]; rewrite Hl1; right; right; split; [reflexivity|lia]).
        apply (proj2 Hn1) in Hcd. rewrite Hcd.
        cbn [bind]. unfold nested_after, node_after. cbn [re_pos re_values re_type mp_offset mp_row]. rewrite Hl1, Nat.ltb_irrefl.
        replace (i <? i + 1) with true by (symmetry; apply Nat.ltb_lt; lia). rewrite map_same_row by reflexivity. cbn [mr_start mr_end mr_row bind]. rewrite Nat.leb_refl.
        unfold left_map, right_map, ins_pos, ins_end. cbn [re_type re_pos re_values mp_offset]. rewrite Nat.ltb_irrefl, Nat.leb_refl. do 2 eexists. split; [reflexivity|]. lia. }
    destruct Hr as (a&b&Hr&Hab&Hlen). rewrite Hr. cbn [bind]. rewrite (Hinside _ _ Hab Hlen). reflexivity.
  - intros -> Hq. destruct (range_apply_edits cfg (token q n) es) as [r|e] eqn:Hr; [exfalso|exists e; reflexivity].
    unfold range_apply_edits, es in Hr. cbn [apply_edits] in Hr. apply bind_ok in Hr as (r1&Hr1&_).
    destruct (@track_range_root cfg (mkRowEdit Delete (mkMinPos [] i) nds) (token q n) eq_refl Hq) as (e&He). rewrite Hr1 in He. discriminate He.
Qed.

(** ** Dissolving a container of a row in another container *)
Lemma complete_iff rule input caret ms : rule_matches rule input caret 1 = Ok ms ->
  (existsb is_complete_match ms = true <-> exists before syms last, firstn caret input = before ++ map Symbol (syms ++ [last]) /\ rule_parser rule = concat (syms ++ [last]) /\ byte_len last = 1).
Proof.
  intros H. destruct (rule_matches_inv H) as [_ Hi]. rewrite existsb_exists. split.
  - intros (m&Hm&Hc). apply Hi in Hm as (before&syms&last&rest&Hf&Hp&_&->&Hl&_). unfold is_complete_match in Hc. cbn [m_rule_match_length m_rule] in Hc. apply Nat.eqb_eq in Hc.
    rewrite Hp, !byte_len_app in Hc. pose proof (byte_len_pos Hl). assert (rest = []) by (apply byte_len_0; lia). subst rest. rewrite app_nil_r in Hp. change (byte_len []) with 0 in Hc.
    exists before, syms, last. rewrite concat_app. cbn [concat]. rewrite app_nil_r. split; [exact Hf|]. split; [exact Hp|lia].
  - intros (before&syms&last&Hf&Hp&Hb).
    assert (Hne : exists before' syms', firstn caret input = before' ++ map Symbol (syms' ++ [last]) /\ concat syms' = concat syms /\ forall b, before' <> b ++ [Symbol []]).
    { clear Hp. revert syms Hf. induction before as [|x before IH] using rev_ind; intros syms Hf.
      - exists [], syms. split; [exact Hf|]. split; [reflexivity|]. intros [|]; discriminate.
      - destruct x as [v g|[|c s]].
        + exists (before ++ [Container v g]), syms. split; [exact Hf|]. split; [reflexivity|]. intros b E. apply app_inj_tail in E as [_ E]. discriminate E.
        + destruct (IH ([] :: syms)) as (b'&s'&H1&H2&H3); [rewrite Hf, <- app_assoc; reflexivity|]. exists b', s'. split; [exact H1|]. split; [exact H2|exact H3].
        + exists (before ++ [Symbol (c :: s)]), syms. split; [exact Hf|]. split; [reflexivity|]. intros b E. apply app_inj_tail in E as [_ E]. discriminate E. }
    destruct Hne as (before'&syms'&Hf'&Hs'&Hb'). rewrite concat_app, <- Hs' in Hp. cbn [concat] in Hp. rewrite app_nil_r in Hp.
    exists (mkMatch rule (byte_len (concat syms') + 1) (length syms' + 1)). split.
    + apply Hi. exists before', syms', last, []. rewrite app_nil_r. split; [exact Hf'|]. split; [exact Hp|]. split; [lia|]. split; [reflexivity|]. split; [|exact Hb']. intros ->. discriminate Hb.
    + unfold is_complete_match. cbn [m_rule_match_length m_rule]. rewrite Hp, byte_len_app, Hb. apply Nat.eqb_refl.
Qed.
Ltac usub_is H := match type of H with _ = ?r => match goal with |- context [usub ?c ?l 1] => replace (usub c l 1) with r by (symmetry; exact H) end end.
Lemma track_elsewhere p0 i0 j0 i j nds vs a b : length nds = 1 -> i0 <> i -> 
  range_apply_edits cfg (mkMinRange (p0 ++ [(i0, j0); (i, j)]) a b) [ERow (mkRowEdit Delete (mkMinPos (p0 ++ [(i0, j0)]) i) nds); ERow (mkRowEdit Insert (mkMinPos (p0 ++ [(i0, j0)]) i) vs)] =
  Ok (mkMinRange (p0 ++ [(if i <? i0 then i0 - 1 else i0, j0); (i, j)]) a b).
Proof.
  intros Hl Hne. unfold range_apply_edits. cbn [apply_edits].
  assert (Hpre : forall x, indices_starts_with (p0 ++ [(x, j0); (i, j)]) (p0 ++ [(i0, j0)]) = (x =? i0)).
  { intros x. apply Bool.eq_iff_eq_true. rewrite starts_with_prefix, Nat.eqb_eq. split.
    - intros (t&E). rewrite <- app_assoc in E. apply app_inv_head in E. cbn [app] in E. now injection E.
    - intros ->. exists [(i, j)]. now rewrite <- app_assoc. }
  assert (Heq : forall x, rowindices_eqb (p0 ++ [(x, j0); (i, j)]) (p0 ++ [(i0, j0)]) = false).
  { intros x. apply not_true_iff_false. intros E. apply rowindices_eqb_eq in E. apply (f_equal (@length _)) in E. rewrite !app_length in E. cbn [length] in E. lia. }
  assert (Hn : forall x, nth_error (p0 ++ [(x, j0); (i, j)]) (length p0) = Some (x, j0)) by (intros x; rewrite nth_error_app2, Nat.sub_diag by lia; reflexivity).
  assert (Hu : usub cfg (length (p0 ++ [(i0, j0)])) 1 = Ok (Some (length p0))).
  { unfold usub. rewrite app_length. cbn [length]. replace (1 <=? length p0 + 1) with true by (symmetry; apply Nat.leb_le; lia). do 2 f_equal. lia. }
  assert (Hset : forall x y, list_set (p0 ++ [(x, j0); (i, j)]) (length p0) y = p0 ++ [y; (i, j)]).
  { intros x y. clear. induction p0 as [|z p0 IH]; cbn [app length list_set]; [reflexivity|]. now rewrite IH. }
  assert (H1 : range_apply_edit cfg (mkMinRange (p0 ++ [(i0, j0); (i, j)]) a b) (ERow (mkRowEdit Delete (mkMinPos (p0 ++ [(i0, j0)]) i) nds)) =
    Ok (mkMinRange (p0 ++ [(if i <? i0 then i0 - 1 else i0, j0); (i, j)]) a b)).
  { unfold range_apply_edit. cbn [get_row_indices_edit row_get_row_indices_edit re_type re_pos re_values mp_row mp_offset bind mr_row mr_start mr_end]. rewrite Hpre, Nat.eqb_refl, Heq, Hl. cbn [negb].
    rewrite !andb_false_r. usub_is Hu. cbn [bind unwrap]. rewrite Hn. cbn [bind unwrap fst snd].
    replace (i + 1 <? i) with false by (symmetry; apply Nat.ltb_ge; lia).
    destruct (Nat.ltb_spec i i0) as [Hlt|Hge].
    - replace ((i <=? i0) && (i0 <? i + 1)) with false by lia. replace (i + 1 <=? i0) with true by lia. rewrite Hset. replace (i + 1 - i) with 1 by lia.
      destruct (a <=? b); reflexivity.
    - replace ((i <=? i0) && (i0 <? i + 1)) with false by lia. replace (i + 1 <=? i0) with false by lia. destruct (a <=? b); reflexivity. }
  rewrite H1. cbn [bind]. unfold range_apply_edit. cbn [get_row_indices_edit row_get_row_indices_edit re_type re_pos re_values mp_row mp_offset bind mr_row mr_start mr_end].
  rewrite Hpre, Heq. destruct (Nat.ltb_spec i i0) as [Hlt|Hge].
  - replace (i0 - 1 =? i0) with false by lia. reflexivity.
  - rewrite Nat.eqb_refl. cbn [negb]. rewrite !andb_false_r. usub_is Hu. cbn [bind unwrap]. rewrite Hn. cbn [bind unwrap fst snd].
    replace (i <=? i0) with false by lia. cbn [andb].
    replace ((i + length vs <=? i0) && (i0 <? i)) with false by lia. destruct (i <? i + length vs), (a <=? b); reflexivity.
Qed.
Lemma not_there p0 i0 j0 i a b o : i0 <> i -> ~ pos_in_range (mkMinPos (p0 ++ [(i0, j0)]) o) (mkMinRange (looked_in p0 i0 j0 i) a b).
Proof.
  intros Hne [H1 H2]. unfold looked_in, range_left, range_right in *. cbn [mr_row mr_start mr_end] in *. unfold pos_le in *.
  assert (Hx : forall z, mkMinPos (p0 ++ [(if i <? i0 then i0 - 1 else i0, j0); (i, 0)]) z <> mkMinPos (p0 ++ [(i0, j0)]) o).
  { intros z E. injection E as E _. apply (f_equal (@length _)) in E. rewrite !app_length in E. cbn in E. lia. }
  destruct H1 as [H1|H1]; [|exact (Hx _ H1)]. destruct H2 as [H2|H2]; [|exact (Hx _ (eq_sym H2))].
  pose proof (fun z => cmp_under p0 (mkMinPos [(if i <? i0 then i0 - 1 else i0, j0); (i, 0)] z) (mkMinPos [(i0, j0)] o)) as C1.
  pose proof (fun z => cmp_under p0 (mkMinPos [(i0, j0)] o) (mkMinPos [(if i <? i0 then i0 - 1 else i0, j0); (i, 0)] z)) as C2. cbn [mp_row mp_offset] in C1, C2. rewrite C1 in H1. rewrite C2 in H2. clear C1 C2.
  change (mkMinPos [(i0, j0)] o) with (below (i0, j0) (here o)) in *.
  set (x := if i <? i0 then i0 - 1 else i0) in *. 
  change (minpos_cmp (below (x, j0) (below (i, 0) (here (Nat.min a b)))) (below (i0, j0) (here o)) = Lt) in H1.
  change (minpos_cmp (below (i0, j0) (here o)) (below (x, j0) (below (i, 0) (here (Nat.max a b)))) = Lt) in H2.
  rewrite cmp_below in H1, H2. rewrite cmp_below_here in H1. rewrite cmp_here_below in H2. cbn [fst] in *. unfold x in *. clear x.
  destruct (Nat.ltb_spec i i0) as [Hlt|Hge].
  - unfold rowindex_cmp in H2. cbn [fst snd] in H2. rewrite (proj2 (Nat.compare_gt_iff i0 (i0 - 1))) in H2 by lia. discriminate H2.
  - unfold rowindex_cmp in H1, H2. cbn [fst snd] in H1, H2. rewrite !Nat.compare_refl in H1, H2. destruct (o <=? i); discriminate.
Qed.
Lemma dissolve_elsewhere ed q n rule p0 i0 j0 i k : wf_row (ed_input ed) -> completed env ed q n rule ->
  let p := p0 ++ [(i0, j0)] in dissolves (ed_input ed) HRight q p i k -> i0 <> i -> mp_row q <> p ->
  exists v g doc', node_get (ed_input ed) p i = Some (Container v g) /\ nodes_replaced (ed_input ed) p i (S i) (concat (gvalues g)) doc' /\
  let place := looked_in p0 i0 j0 i in let row := row_get doc' place in
  (~ looks rule q n row -> exists e, step env ed (OpRemoveAtCaret RemoveRight) = Panic e) /\
  (looks rule q n row -> finds rule q n row -> exists ed', step env ed (OpRemoveAtCaret RemoveRight) = Ok (ed', OutNone _) /\
     nodes_replaced doc' place (mp_offset q - n) (mp_offset q) (rule_result rule) (ed_input ed') /\ ed_caret ed' = collapsed (mkMinPos p (i + k))) /\
  (looks rule q n row -> ~ finds rule q n row -> exists ed', step env ed (OpRemoveAtCaret RemoveRight) = Ok (ed', OutNone _) /\
     ed_input ed' = doc' /\ ed_caret ed' = collapsed (mkMinPos p (i + k))).
Proof.
  intros Hwf Hco p Hdis Hne Hrow. destruct (dissolve_start Hwf Hco Hdis) as (v&g&nds&doc1&doc'&act&ed2&Hng&Hk&Hplace&Hv&Hnq&Hact&Hrule&Hrne&Hl1&Hd1&Hrep&Hwf'&Hi2&Hc2&Hstep).
  exists v, g, doc'. split; [exact Hng|]. split; [exact Hrep|]. intros place row.
  assert (Hq : mp_row q = p0 ++ [(i0, j0); (i, 0)]).
  { destruct Hplace as [[E _]|(j&Hj)]; [elim (Hrow E)|]. assert (Ho : 0 < n).
    { destruct Hco as (ed1&r&m&Hg&Hm&_&_&En&_). pose proof (nth_error_In _ _ Hm) as Hin. destruct (popup_match Hwf Hg Hin) as (?&?&syms&?&?&_&_&_&_&_&_&_&Em&_). rewrite <- En, Em. cbn [m_input_match_length]. lia. }
    unfold p in Hdis, Hj. inversion Hdis as [p' i' v' g' Hn' Hv'| | |p' i' v' g' first cells Hn' Hv' Hg'| |p' i' v' g' Hn' Ha']; subst; cbn [mp_row mp_offset] in *; [elim (Hrow eq_refl)| |lia].
    rewrite <- app_assoc. reflexivity. }
  assert (Htr : range_apply_edits cfg (token q n) [ERow (mkRowEdit Delete (mkMinPos p i) nds); ERow (mkRowEdit Insert (mkMinPos p i) (concat (gvalues g)))] = Ok (mkMinRange place (mp_offset q) (mp_offset q - n))).
  { unfold token. rewrite Hq. apply track_elsewhere; assumption. }
  rewrite Hstep. unfold autocorrect_finish. rewrite Hact, Htr. cbn [bind]. rewrite Hrule. clear Hstep.
  destruct (@collapsed_caret doc' (mkMinPos p (i + k)) Hwf') as (tp&Gt&Et&Ect); [eapply nodes_replaced_valid; [exact Hrep|lia]|].
  assert (Happ : apply_autocorrect env ed2 (Some (mkAutocorrect rule (mkMinRange place (mp_offset q) (mp_offset q - n)))) =
    (rg <- rg_from_minimal (from_root doc') (mkMinRange place (mp_offset q) (mp_offset q - n)) ;;
     values <- rg_values rg ;; ms <- rule_matches rule values (mp_offset q - n) 1 ;;
     if negb (existsb is_complete_match ms) then Ok ed2 else splice_at_range env ed2 (mkMinRange place (mp_offset q) (mp_offset q - n)) (rule_result rule))).
  { unfold apply_autocorrect. rewrite Hi2, Hc2, Ect. cbn [bind c_selection ac_range ac_rule].
    destruct (rg_from_minimal (from_root doc') (mkMinRange place (mp_offset q) (mp_offset q - n))) as [rg|e] eqn:Hrg; [|reflexivity]. cbn [bind].
    replace (rg_start_position (range_of_pos tp)) with tp by (destruct tp; reflexivity). pose proof (rg_from_minimal_inv Hrg) as [Grg Emin].
    assert (Hcon : rg_contains rg tp = false).
    { apply not_true_iff_false. intros Hc. apply rg_contains_iff in Hc. rewrite Et, Emin in Hc. exact (not_there Hne Hc). }
    rewrite Hcon, Emin. assert (El : rg_left rg = mp_offset q - n).
    { rewrite rg_left_min. pose proof (f_equal mr_start Emin) as E1. pose proof (f_equal mr_end Emin) as E2. cbn in E1, E2. lia. }
    rewrite El. reflexivity. }
  rewrite Happ. clear Happ.
  assert (Hvals : forall rg l, rg_from_minimal (from_root doc') (mkMinRange place (mp_offset q) (mp_offset q - n)) = Ok rg -> row = Some l ->
            mp_offset q <= length l /\ rg_values rg = Ok (firstn n (skipn (mp_offset q - n) l))).
  { intros rg l Hrg Hl. pose proof (rg_from_minimal_inv Hrg) as [Grg Emin]. pose proof (f_equal mr_start Emin) as E1. pose proof (f_equal mr_end Emin) as E2. pose proof (f_equal mr_row Emin) as E3. cbn in E1, E2, E3.
    assert (Ef : fr_row (rg_focus rg) = l).
    { destruct Grg as (Gc&_). pose proof (canonical_row Gc) as Hr. unfold rg_indices in E3. rewrite E3 in Hr. unfold row in Hl. rewrite Hl in Hr. now injection Hr. }
    assert (El : rg_left rg = mp_offset q - n) by (rewrite rg_left_min; lia). assert (Er : rg_right rg = mp_offset q) by (rewrite rg_right_max; lia).
    pose proof (good_range_right Grg) as Hgr. rewrite Er, Ef in Hgr. split; [exact Hgr|]. rewrite (rg_values_eq Grg), Ef, El, Er. do 3 f_equal. lia. }
  assert (Hlooks : looks rule q n row -> exists rg l ms, rg_from_minimal (from_root doc') (mkMinRange place (mp_offset q) (mp_offset q - n)) = Ok rg /\ row = Some l /\
            rg_values rg = Ok (firstn n (skipn (mp_offset q - n) l)) /\ rule_matches rule (firstn n (skipn (mp_offset q - n) l)) (mp_offset q - n) 1 = Ok ms).
  { intros (l&Hl&Hlen&Hst&Hs). destruct (@rg_from_minimal_ok doc' (mkMinRange place (mp_offset q) (mp_offset q - n)) Hwf') as (rg&Hrg); [exists l; cbn; split; [exact Hl|lia]|].
    destruct (Hvals rg l Hrg Hl) as [_ Hv'].
    destruct (proj2 (@rule_matches_exact rule (firstn n (skipn (mp_offset q - n) l)) (mp_offset q - n) 1)) as (ms&Hms).
    { split; [exact Hrne|]. split; [rewrite firstn_length, skipn_length; unfold token_start in Hst; lia|]. intros b [v' g'|s] Hb; [exact I|]. cbn [searchable]. exact (Hs _ _ Hb). }
    exists rg, l, ms. auto. }
  split; [|split].
  - intros Hnl. destruct (rg_from_minimal (from_root doc') (mkMinRange place (mp_offset q) (mp_offset q - n))) as [rg|e] eqn:Hrg; [|exists e; reflexivity]. cbn [bind].
    pose proof (rg_from_minimal_inv Hrg) as [Grg Emin]. pose proof (f_equal mr_row Emin) as E3. cbn in E3.
    assert (Hl : row = Some (fr_row (rg_focus rg))) by (destruct Grg as (Gc&_); pose proof (canonical_row Gc) as Hr; unfold rg_indices in E3; rewrite E3 in Hr; exact Hr).
    destruct (Hvals rg _ eq_refl Hl) as [Hlen Hv']. rewrite Hv'. cbn [bind].
    destruct (rule_matches rule (firstn n (skipn (mp_offset q - n) (fr_row (rg_focus rg)))) (mp_offset q - n) 1) as [ms|e] eqn:Hms; [exfalso|exists e; reflexivity].
    apply Hnl. exists (fr_row (rg_focus rg)). split; [exact Hl|]. split; [exact Hlen|].
    destruct (proj1 (@rule_matches_exact rule (firstn n (skipn (mp_offset q - n) (fr_row (rg_focus rg)))) (mp_offset q - n) 1) (ex_intro _ ms Hms)) as (_&Hc&Hx).
    split; [unfold token_start; rewrite firstn_length, skipn_length in Hc; lia|]. intros b s Hb. exact (Hx _ _ Hb).
  - intros Hlk Hfi. destruct (Hlooks Hlk) as (rg&l&ms&Hrg&Hl&Hv'&Hms). rewrite Hrg. cbn [bind]. rewrite Hv'. cbn [bind]. rewrite Hms. cbn [bind].
    assert (Hc : existsb is_complete_match ms = true).
    { apply (complete_iff Hms). destruct Hfi as (l'&b&syms&last&Hl'&Hb&Hp&H1). rewrite Hl in Hl'. injection Hl' as <-. exists b, syms, last. auto. }
    rewrite Hc. cbn [negb]. destruct (@splice_ok SyntaxNode env ed2 (mkMinRange place (mp_offset q) (mp_offset q - n)) (rule_result rule)) as (ed'&Hs).
    { exists rg. rewrite Hi2. exact Hrg. }
    { left. cbn [mr_row]. unfold place, looked_in. destruct p0; discriminate. }
    rewrite Hs. cbn [bind]. exists ed'. split; [reflexivity|]. pose proof (splice_result Hs) as (Hrep'&Hcar'&_). unfold lo, hi in Hrep'. cbn [mr_start mr_end mr_row] in Hrep'.
    replace (Nat.min (mp_offset q) (mp_offset q - n)) with (mp_offset q - n) in Hrep' by lia. replace (Nat.max (mp_offset q) (mp_offset q - n)) with (mp_offset q) in Hrep' by lia.
    rewrite Hi2 in Hrep'. rewrite Hc2 in Hcar'. auto.
  - intros Hlk Hfi. destruct (Hlooks Hlk) as (rg&l&ms&Hrg&Hl&Hv'&Hms). rewrite Hrg. cbn [bind]. rewrite Hv'. cbn [bind]. rewrite Hms. cbn [bind].
    assert (Hc : existsb is_complete_match ms = false).
    { apply not_true_iff_false. intros Hc. apply (complete_iff Hms) in Hc as (b&syms&last&Hb&Hp&H1). apply Hfi. exists l, b, syms, last. auto. }
    rewrite Hc. cbn [negb bind]. exists ed2. auto.
Qed.

(** With overflow checks, Backspace at the start of a first cell that does not dissolve panics. *)
Lemma underflow_step ed q : wf_row (ed_input ed) -> valid_pos (ed_input ed) q -> ed_caret ed = collapsed q -> (exists x, get_autocomplete env ed = Ok x) ->
  (forall p i k, ~ dissolves (ed_input ed) HLeft q p i k) -> overflow_checks cfg = true -> at_cell_zero q ->
  step env ed (OpRemoveAtCaret RemoveLeft) = Panic POverflow.
Proof.
  intros Hwf Hv Hc [[ed1 r] Hg] Hdis Hov Hz. destruct (start_autocorrect_ok Hg) as (a&Ha&_). apply get_autocomplete_only in Hg as (x&->).
  destruct (collapsed_caret Hwf Hv) as (qq&Gq&Eq&Ec). rewrite <- Eq in *. cbn [step]. unfold editor_remove_at_caret. rewrite Ha.
  cbn [bind set_autocomplete ed_input ed_caret]. rewrite Hc, Ec. cbn [bind c_selection].
  unfold remove_at_caret, rg_is_collapsed. cbn [range_of_pos rg_start rg_end]. rewrite Nat.eqb_refl. cbn [negb].
  replace (rg_start_position (range_of_pos qq)) with qq by (destruct qq; reflexivity).
  assert (Hs : ~ symbol_beside (ed_input ed) HLeft (pos_to_minimal qq)) by (intros (i&s&Hi&_); destruct Hz as [Hz _]; lia).
  fold cfg. destruct (otherwise_moves cfg Hwf Gq Hs Hdis) as [E|[E1 E2]].
  - rewrite E. unfold remove_move_caret, move_caret_range. cbn [h_to_dir].
    assert (El : rg_left_position (range_of_pos qq) = qq) by (unfold rg_left_position, rg_left, rg_is_forwards; cbn; rewrite Nat.leb_refl; destruct qq; reflexivity).
    rewrite El, (cell_zero_panics Gq Hov Hz). reflexivity.
  - rewrite E1 in Hz. destruct Hz as [_ (p&i&Hp)]. destruct p; discriminate Hp.
Qed.

(** Delete where nothing is removed or dissolved, in front of the end. *)
Lemma delete_moves ed q n rule : wf_row (ed_input ed) -> completed env ed q n rule -> q <> edge DRight (ed_input ed) ->
  ~ symbol_beside (ed_input ed) HRight q -> (forall p i k, ~ dissolves (ed_input ed) HRight q p i k) ->
  exists t, follows DRight (ed_input ed) q t /\ goes cfg (ed_input ed) q (OpRemoveAtCaret RemoveRight) t.
Proof.
  intros Hwf Hco He Hs Hd. destruct (leaving Hwf Hco) as (x&act&Hv&_). destruct (collapsed_caret Hwf Hv) as (qq&Gq&Eq&Ec).
  destruct (move_right cfg Hwf Gq) as (m&Hm&HQ). destruct m as [m|]; [|elim He; rewrite <- Eq; exact HQ].
  exists (pos_to_minimal m). assert (Hf : follows DRight (ed_input ed) q (pos_to_minimal m)) by (rewrite <- Eq; apply right_step_next, HQ).
  split; [exact Hf|now constructor].
Qed.
End Leave.
