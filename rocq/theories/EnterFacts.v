(** How every document of symbols, roots and tables is entered, whoever enters it. *)
From Coq Require Import String.
From Verif Require Import Base Str Grid Node Focus Edit Caret Autocomplete Editor Rules Spec SpecAuto SpecMove SpecEditor SpecSafety SpecContent SpecEnter
  BaseFacts TreeFacts EditFacts AutoFacts PopupFacts ExactFacts OpFacts TypingFacts SafetyFacts SafetyProofs ContentFacts.
Open Scope list_scope.
Open Scope nat_scope.
Set Implicit Arguments.
Unset Strict Implicit.

(** ** Replacing a part of a row *)
Lemma edit_row d p a b c vs : row_get d p = Some (a ++ b ++ c) ->
  exists d', nodes_replaced d p (List.length a) (List.length a + List.length b) vs d' /\ replaced p (a ++ b ++ c) (a ++ vs ++ c) d d'.
Proof.
  intros H. destruct (@replaced_exists p (a ++ b ++ c) (a ++ vs ++ c) d H) as (d'&R). exists d'. split; [|exact R].
  exists (a ++ b ++ c). split; [lia|]. split; [rewrite !app_length; lia|].
  replace (firstn (List.length a) (a ++ b ++ c)) with a by (rewrite firstn_app, firstn_all, Nat.sub_diag, app_nil_r; reflexivity).
  replace (skipn (List.length a + List.length b) (a ++ b ++ c)) with c; [exact R|].
  rewrite app_assoc, <- app_length, skipn_app, skipn_all, Nat.sub_diag. reflexivity.
Qed.
(** A change in a cell of the first node of a row is a change of this row. *)
Lemma replaced_in_first p v b c c' a w rest : forall d d', row_get d p = Some (Container v (mkGrid (b ++ c :: a) w) :: rest) ->
  replaced (p ++ [(0, List.length b)]) c c' d d' ->
  replaced p (Container v (mkGrid (b ++ c :: a) w) :: rest) (Container v (mkGrid (b ++ c' :: a) w) :: rest) d d'.
Proof.
  induction p as [|[i j] p IH]; intros d d' H R.
  - cbn in H. injection H as ->. cbn [app] in R.
    assert (R' : replaced [(0, List.length b)] c c' (Container v (mkGrid (b ++ c :: a) w) :: rest) (Container v (mkGrid (b ++ c' :: a) w) :: rest)) by exact (@replaced_below [] c c' [] v b c c' a w rest (replaced_here c c')).
    rewrite (replaced_unique R R'). constructor.
  - cbn [app] in R. inversion R as [|path r r' l v0 b0 c0 c0' a0 w0 rt R0]; subst. constructor. apply IH; [|exact R0].
    cbn [row_get] in H. rewrite nth_error_middle in H. cbn [gvalues] in H. now rewrite nth_error_middle in H.
Qed.

(** ** Where no rule looks *)
Lemma calm_start d p row : row_get d p = Some row -> unwatched d (mkMinPos p 0).
Proof. intros H. exists row. split; [exact H|]. split; [cbn; lia|]. vm_compute. reflexivity. Qed.
Lemma calm_symbol d p s row : s <> [] -> row_get d p = Some (Symbol s :: row) -> unwatched d (mkMinPos p 1).
Proof.
  intros Hs H. exists (Symbol s :: row). split; [exact H|]. split; [cbn; lia|]. cbn [mp_offset].
  destruct (@ascii_rules_total default_rules (Symbol s :: row) 1 2 default_rules_ascii) as (ms&Hms); [cbn; lia| |].
  { intros b E. cbn [firstn] in E. apply (app_inj_tail [] b) in E as [_ E]. injection E as E. exact (Hs E). }
  rewrite Hms. destruct ms as [|m ms]; [reflexivity|exfalso].
  destruct (proj1 (@rules_matches_in default_rules (Symbol s :: row) 1 2 (m :: ms) m Hms) (or_introl eq_refl)) as (rule&_&(before&syms&last&rest&Hf&_&_&_&->)&Hm).
  cbn [m_input_match_length] in Hm. apply (f_equal (@List.length _)) in Hf. rewrite app_length, map_length in Hf. cbn [firstn List.length] in Hf. lia.
Qed.
Notation nodes w := (map Symbol (letter_by_letter w)).
Lemma nodes_length w : List.length (nodes w) = List.length w.
Proof. unfold letter_by_letter. now rewrite !map_length. Qed.
Lemma pad_length k : List.length (pad k) = k.
Proof. unfold pad. rewrite nodes_length. apply repeat_length. Qed.
Lemma pad_S k : pad (S k) = pad k ++ [Symbol [97%N]].
Proof. unfold pad, letter_by_letter. rewrite <- (Nat.add_1_r k), repeat_app, !map_app. reflexivity. Qed.
Lemma pad_app j k : pad (j + k) = pad j ++ pad k.
Proof. unfold pad, letter_by_letter. now rewrite repeat_app, !map_app. Qed.
Lemma word_short word n : spells word n -> 0 < List.length word <= 6.
Proof. intros [[-> _]|[-> _]]; cbn; lia. Qed.
Lemma calm_pad k rest : k <= 12 -> rules_matches default_rules (pad k ++ rest) k 2 = Ok [].
Proof. intros H. do 13 (destruct k as [|k]; [vm_compute; reflexivity|]). lia. Qed.
Lemma calm_behind word n k rest : spells word n -> k <= List.length word ->
  rules_matches default_rules (pad (List.length word) ++ n :: pad k ++ rest) (List.length word + S k) 2 = Ok [].
Proof.
  intros [[-> ->]|[-> ->]] H; cbn [List.length lit String.list_ascii_of_string map] in *; [do 5 (destruct k as [|k]; [vm_compute; reflexivity|])|do 7 (destruct k as [|k]; [vm_compute; reflexivity|])]; cbn in H; lia.
Qed.

(** ** Entering *)
Section Enter.
(** The documents and carets that can be reached, and what can be typed *)
Variable can : InputRow -> MinimalCaret -> Prop.
Variable typable : str -> Prop.
Hypothesis typable_nonempty : forall s, typable s -> s <> [].
Hypothesis can_click : forall d q p, can d (collapsed q) -> unwatched d q -> valid_pos d (mkMinPos p 0) -> can d (collapsed (mkMinPos p 0)).
Hypothesis can_right : forall d p o s, can d (collapsed (mkMinPos p o)) -> unwatched d (mkMinPos p o) -> node_get d p o = Some (Symbol s) -> can d (collapsed (mkMinPos p (o + 1))).
Hypothesis can_type : forall d p o vs d', can d (collapsed (mkMinPos p o)) -> unwatched d (mkMinPos p o) ->
  (exists s, typable s /\ vs = [s]) \/ (exists w, Forall (fun ch => 97 <= ch <= 122)%N w /\ vs = letter_by_letter w) ->
  nodes_replaced d p o o (map Symbol vs) d' -> can d' (collapsed (mkMinPos p (o + List.length vs))).
Hypothesis can_backspace : forall d p o s d', can d (collapsed (mkMinPos p (S o))) -> unwatched d (mkMinPos p (S o)) -> node_get d p o = Some (Symbol s) ->
  nodes_replaced d p o (S o) [] d' -> can d' (collapsed (mkMinPos p o)).
Hypothesis can_correct : forall d p word n rest d', spells word n -> let k := List.length word in can d (collapsed (mkMinPos p (k + k))) ->
  row_get d p = Some (pad k ++ nodes word ++ pad k ++ rest) ->
  nodes_replaced d p k (k + k) [n] d' -> can d' (collapsed (mkMinPos p (k + k + 1))).

Definition at_rest d : Prop := exists q, can d (collapsed q) /\ unwatched d q.
Lemma click_rest d p row : at_rest d -> row_get d p = Some row -> can d (collapsed (mkMinPos p 0)).
Proof. intros (q&Hc&Hq) Hr. eapply can_click; [exact Hc|exact Hq|]. exists row. split; [exact Hr|cbn; lia]. Qed.
Lemma calm_here d p o row : row_get d p = Some row -> o <= List.length row -> rules_matches default_rules row o 2 = Ok [] -> unwatched d (mkMinPos p o).
Proof. intros H1 H2 H3. exists row. auto. Qed.
(** Going to the right through the padding *)
Lemma walk d p k rest : k <= 12 -> can d (collapsed (mkMinPos p 0)) -> row_get d p = Some (pad k ++ rest) -> can d (collapsed (mkMinPos p k)).
Proof.
  revert rest. induction k as [|k IH]; intros rest Hk H0 Hrow; [exact H0|]. rewrite pad_S, <- app_assoc in Hrow. rewrite <- Nat.add_1_r. apply can_right with (s := [97%N]).
  - eapply IH; [lia|exact H0|exact Hrow].
  - eapply calm_here; [exact Hrow|rewrite app_length, pad_length; lia|apply calm_pad; lia].
  - unfold node_get. rewrite Hrow, nth_error_app2, pad_length, Nat.sub_diag by (rewrite pad_length; lia). reflexivity.
Qed.
(** Removing it with Backspace *)
Lemma erase k : forall d p a rest, can d (collapsed (mkMinPos p (List.length a + k))) -> row_get d p = Some (a ++ pad k ++ rest) ->
  (forall j rest', j <= k -> rules_matches default_rules (a ++ pad j ++ rest') (List.length a + j) 2 = Ok []) ->
  exists d', replaced p (a ++ pad k ++ rest) (a ++ rest) d d' /\ can d' (collapsed (mkMinPos p (List.length a))).
Proof.
  induction k as [|k IH]; intros d p a rest Hc Hrow Hm.
  - rewrite Nat.add_0_r in Hc. destruct (@replaced_exists p _ (a ++ rest) d Hrow) as (d'&R). exists d'. split; [exact R|]. now rewrite (replaced_refl R).
  - pose proof Hrow as Hrow0. rewrite pad_S, <- app_assoc in Hrow. cbn [app] in Hrow.
    assert (Ea : a ++ pad k ++ Symbol [97%N] :: rest = (a ++ pad k) ++ [Symbol [97%N]] ++ rest) by (rewrite <- app_assoc; reflexivity).
    destruct (@edit_row d p (a ++ pad k) [Symbol [97%N]] rest [] (eq_trans Hrow (f_equal Some Ea))) as (d1&N1&R1). cbn [app List.length] in N1, R1. rewrite Nat.add_1_r in N1.
    assert (L : List.length (a ++ pad k) = List.length a + k) by (now rewrite app_length, pad_length).
    assert (H1 : can d1 (collapsed (mkMinPos p (List.length a + k)))).
    { rewrite <- L. apply can_backspace with (d := d) (s := [97%N]).
      - rewrite L. replace (S (List.length a + k)) with (List.length a + S k) by lia. exact Hc.
      - eapply calm_here; [exact Hrow0|rewrite !app_length, !pad_length; lia|]. rewrite L. replace (S (List.length a + k)) with (List.length a + S k) by lia. apply Hm. lia.
      - unfold node_get. rewrite Hrow, Ea, nth_error_app2, Nat.sub_diag by lia. reflexivity.
      - exact N1. }
    rewrite <- !app_assoc in R1. cbn [app] in R1. destruct (IH d1 p a rest H1 (replaced_get_new R1)) as (d2&R2&H2); [intros j rest' Hj; apply Hm; lia|].
    exists d2. split; [|exact H2]. rewrite pad_S, <- app_assoc. cbn [app]. exact (replaced_trans R1 R2).
Qed.

Lemma enter_symbol d p rest s : typable s -> at_rest d -> row_get d p = Some rest -> exists d', replaced p rest (Symbol s :: rest) d d' /\ at_rest d'.
Proof.
  intros Hs Hr Hrow. destruct (@edit_row d p [] [] rest [Symbol s] Hrow) as (d'&N&R). cbn [app List.length Nat.add] in *. exists d'. split; [exact R|].
  exists (mkMinPos p 1). split; [|eapply calm_symbol; [exact (typable_nonempty Hs)|exact (replaced_get_new R)]].
  refine (@can_type d p 0 [s] d' _ (calm_start Hrow) (or_introl _) N); [eapply click_rest; [exact Hr|exact Hrow]|eauto].
Qed.
Lemma pad_letters k : Forall (fun ch => 97 <= ch <= 122)%N (repeat 97%N k).
Proof. apply Forall_forall. intros x Hx. apply repeat_spec in Hx as ->. split; discriminate. Qed.
Lemma word_letters word n : spells word n -> Forall (fun ch => 97 <= ch <= 122)%N word.
Proof. intros [[-> _]|[-> _]]; repeat constructor; discriminate. Qed.

Lemma enter_container d p rest word n : spells word n -> at_rest d -> row_get d p = Some rest -> exists d', replaced p rest (n :: rest) d d' /\ at_rest d'.
Proof.
  intros Hm Hr Hrow. set (k := List.length word). set (W := nodes word). destruct (word_short Hm) as [Hk0 Hk]. fold k in Hk0, Hk.
  assert (LW : List.length W = k) by (unfold W; apply nodes_length).
  (* padding on both sides *)
  destruct (@edit_row d p [] [] rest (pad (k + k)) Hrow) as (d1&N1&R1). cbn [app List.length Nat.add] in N1, R1.
  assert (H1 : can d1 (collapsed (mkMinPos p (k + k)))).
  { replace (k + k) with (0 + List.length (letter_by_letter (repeat 97%N (k + k)))) by (unfold letter_by_letter; rewrite map_length, repeat_length; reflexivity).
    eapply can_type; [eapply click_rest; [exact Hr|exact Hrow]|exact (calm_start Hrow)|right; eexists; split; [apply pad_letters|reflexivity]|exact N1]. }
  pose proof (replaced_get_new R1) as G1.
  assert (Hr1 : at_rest d1) by (exists (mkMinPos p (k + k)); split; [exact H1|]; eapply calm_here; [exact G1|rewrite app_length, pad_length; lia|apply calm_pad; lia]). clear N1 H1.
  rewrite pad_app, <- app_assoc in R1, G1.
  (* the word between them *)
  destruct (@edit_row d1 p (pad k) [] (pad k ++ rest) W G1) as (d2&N2&R2). cbn [app List.length] in N2, R2. rewrite Nat.add_0_r, pad_length in N2.
  assert (H2 : can d2 (collapsed (mkMinPos p (k + k)))).
  { replace (k + k) with (k + List.length (letter_by_letter word)) by (unfold letter_by_letter; now rewrite map_length).
    eapply can_type; [eapply walk; [lia|eapply click_rest; [exact Hr1|exact G1]|exact G1]|eapply calm_here; [exact G1|rewrite app_length, pad_length; lia|apply calm_pad; lia]|right; exists word; split; [exact (word_letters Hm)|reflexivity]|exact N2]. }
  pose proof (replaced_get_new R2) as G2. clear N2 Hr1.
  (* it becomes the container *)
  destruct (@edit_row d2 p (pad k) W (pad k ++ rest) [n] G2) as (d3&N3&R3). rewrite pad_length, LW in N3. cbn [app] in R3.
  pose proof (@can_correct d2 p word n rest d3 Hm H2 G2 N3) as H3. fold k in H3. pose proof (replaced_get_new R3) as G3. clear N3 H2.
  (* the padding behind it goes *)
  destruct (@erase k d3 p (pad k ++ [n]) rest) as (d4&R4&H4).
  { rewrite app_length, pad_length. cbn [List.length]. replace (k + 1 + k) with (k + k + 1) by lia. exact H3. }
  { rewrite <- app_assoc. exact G3. }
  { intros j rest' Hj. rewrite <- app_assoc, app_length, pad_length. cbn [app List.length]. replace (k + 1 + j) with (k + S j) by lia. now apply calm_behind. }
  rewrite <- !app_assoc in R4. cbn [app] in R4. rewrite app_length, pad_length in H4. cbn [List.length] in H4. pose proof (replaced_get_new R4) as G4.
  assert (Hr4 : at_rest d4) by (eexists; split; [exact H4|]; eapply calm_here; [exact G4|rewrite app_length, pad_length; cbn [List.length]; lia|exact (calm_behind rest Hm (Nat.le_0_l _))]).
  (* and the padding in front of it *)
  destruct (@erase k d4 p [] (n :: rest)) as (d5&R5&H5).
  { cbn [List.length Nat.add]. eapply walk; [lia|eapply click_rest; [exact Hr4|exact G4]|exact G4]. }
  { exact G4. }
  { intros j rest' Hj. cbn [app List.length Nat.add]. apply calm_pad. lia. }
  cbn [app List.length] in R5, H5. exists d5. split.
  - exact (replaced_trans R1 (replaced_trans R2 (replaced_trans R3 (replaced_trans R4 R5)))).
  - eexists. split; [exact H5|]. exact (calm_start (replaced_get_new R5)).
Qed.

(** Content that can be entered: built from what can be typed *)
Definition enterable_part (x : Part) : Prop := hand_part x /\ match x with PartSymbol s => typable s | _ => True end.
Definition enters (n : InputNode) : Prop := (forall x, In x (node_parts n) -> enterable_part x) ->
  forall d p rest, at_rest d -> row_get d p = Some rest -> exists d', replaced p rest (n :: rest) d d' /\ at_rest d'.
Lemma enter_row vs : (forall n, In n vs -> enters n) -> (forall x, In x (row_parts vs) -> enterable_part x) ->
  forall d p rest, at_rest d -> row_get d p = Some rest -> exists d', replaced p rest (vs ++ rest) d d' /\ at_rest d'.
Proof.
  induction vs as [|n vs IH]; intros Hn Hq d p rest Hr Hrow.
  - destruct (@replaced_exists p rest rest d Hrow) as (d'&R). exists d'. split; [exact R|]. now rewrite (replaced_refl R).
  - destruct (IH (fun m Hm => Hn m (or_intror Hm)) (fun x Hx => Hq x (in_or_app _ _ _ (or_intror Hx))) d p rest Hr Hrow) as (d1&R1&Hr1).
    destruct (Hn n (or_introl eq_refl) (fun x Hx => Hq x (in_or_app _ _ _ (or_introl Hx))) d1 p (vs ++ rest) Hr1 (replaced_get_new R1)) as (d2&R2&Hr2).
    exists d2. split; [exact (replaced_trans R1 R2)|exact Hr2].
Qed.
Lemma enter_cell d p v b c c' a w rest : (forall n, In n c' -> enters n) -> (forall x, In x (row_parts c') -> enterable_part x) -> c = [] ->
  at_rest d -> row_get d p = Some (Container v (mkGrid (b ++ c :: a) w) :: rest) ->
  exists d', replaced p (Container v (mkGrid (b ++ c :: a) w) :: rest) (Container v (mkGrid (b ++ c' :: a) w) :: rest) d d' /\ at_rest d'.
Proof.
  intros Hn Hq -> Hr Hrow.
  assert (G : row_get d (p ++ [(0, List.length b)]) = Some []).
  { rewrite row_get_app, Hrow. cbn [row_get nth_error gvalues]. rewrite nth_error_middle. reflexivity. }
  destruct (enter_row Hn Hq Hr G) as (d'&R&Hr'). rewrite app_nil_r in R. exists d'. split; [exact (replaced_in_first Hrow R)|exact Hr'].
Qed.
Lemma enter_node n : enters n.
Proof.
  induction n as [s|v cells w IH] using node_ind'; intros Hq d p rest Hr Hrow.
  - apply enter_symbol; [|exact Hr|exact Hrow]. exact (proj2 (Hq _ (or_introl eq_refl))).
  - pose proof (proj1 (Hq _ (or_introl eq_refl))) as Hp. cbn in Hp.
    assert (Hc : forall cell, In cell cells -> forall x, In x (row_parts cell) -> enterable_part x).
    { intros cell Hcell x Hx. apply Hq. right. apply in_concat. exists (row_parts cell). split; [|exact Hx]. apply in_map_iff. exists cell. split; [reflexivity|exact Hcell]. }
    destruct v; try (exfalso; exact Hp).
    + destruct Hp as [Hl ->]. destruct cells as [|a [|b [|]]]; try discriminate Hl. clear Hl.
      destruct (@enter_container d p rest (lit "sqrt") (root [] [])) as (d1&R1&Hr1); [left; auto|exact Hr|exact Hrow|].
      destruct (@enter_cell d1 p RootV [] [] a [[]] 2 rest) as (d2&R2&Hr2); [intros m Hm; apply (IH a); [now left|exact Hm]|apply Hc; now left|reflexivity|exact Hr1|exact (replaced_get_new R1)|].
      destruct (@enter_cell d2 p RootV [a] [] b [] 2 rest) as (d3&R3&Hr3); [intros m Hm; apply (IH b); [right; now left|exact Hm]|apply Hc; right; now left|reflexivity|exact Hr2|exact (replaced_get_new R2)|].
      exists d3. split; [exact (replaced_trans R1 (replaced_trans R2 R3))|exact Hr3].
    + destruct Hp as [Hl ->]. destruct cells as [|a [|]]; try discriminate Hl. clear Hl.
      destruct (@enter_container d p rest (lit "vector") (Container Table (mkGrid [[]] 1))) as (d1&R1&Hr1); [right; auto|exact Hr|exact Hrow|].
      destruct (@enter_cell d1 p Table [] [] a [] 1 rest) as (d2&R2&Hr2); [intros m Hm; apply (IH a); [now left|exact Hm]|apply Hc; now left|reflexivity|exact Hr1|exact (replaced_get_new R1)|].
      exists d2. split; [exact (replaced_trans R1 R2)|exact Hr2].
Qed.
Lemma enter_document doc : can [] (collapsed (mkMinPos [] 0)) -> (forall x, In x (row_parts doc) -> enterable_part x) -> exists q, can doc (collapsed q).
Proof.
  intros H0 Hq. destruct (@enter_row doc (fun n _ => @enter_node n) Hq [] [] []) as (d&R&(q&Hc&_)); [|reflexivity|].
  - exists (mkMinPos [] 0). split; [exact H0|]. now apply calm_start with (row := []).
  - rewrite app_nil_r in R. inversion R; subst. exists q. exact Hc.
Qed.
End Enter.
