(** Backspace and Delete next to containers. *)
From Verif Require Import Base Str Grid Node Focus Edit Caret Autocomplete Editor Spec SpecAuto SpecEditor SpecMove SpecSafety SpecSelect SpecRemove BaseFacts
  TreeFacts OrderFacts EditFacts TreeProofs MoveFacts MoveProofs SpecTrack TrackFacts AutoFacts PopupFacts EditorFacts HistoryFacts
  OpFacts SpliceFacts TypingFacts SafetyFacts SafetyProofs.
Set Implicit Arguments.
Unset Strict Implicit.

(** ** The decision at the edge of a cell *)
(** For the proofs only: what primitive_edit.rs:136-175 decides at the edge of cell [j], [Some k] for [flatten_node] with offset [k] *)
Definition all_empty (cells : list InputRow) : bool := forallb (fun v => match v with [] => true | _ => false end) cells.
Definition edge_choice (v : InputNodeVariant) (cells : list InputRow) (j : nat) (d : HorizontalDirection) : option nat :=
  let general := if match d with HLeft => j =? 0 | HRight => length cells - 1 <=? j end && all_empty cells then Some 0 else None in
  match v with
  | Sub | Sup => match d with HLeft => Some 0 | HRight => general end
  | Fraction | RootV => if match d with HLeft => j =? 1 | HRight => j =? 0 end then option_map (@length _) (nth_error cells 0) else general
  | _ => general
  end.
Lemma all_empty_iff cells : all_empty cells = true <-> forall cell, In cell cells -> cell = [].
Proof.
  unfold all_empty. rewrite forallb_forall. split; intros H c Hc; specialize (H c Hc); [destruct c; [reflexivity|discriminate]|now subst].
Qed.

Lemma no_neighbour q d : match focus_offset_to_index (pos_focus q) (pos_offset q) d with
    | Some index => match focus_node_at (pos_focus q) index with Some n => Some (index, n) | None => None end
    | None => None end = None -> pos_offset q <= length (fr_row (pos_focus q)) ->
  match d with HLeft => pos_offset q = 0 | HRight => pos_offset q = length (fr_row (pos_focus q)) end.
Proof.
  intros En Ho. destruct (focus_offset_to_index (pos_focus q) (pos_offset q) d) as [i|] eqn:Eo.
  - unfold focus_node_at in En. destruct (nth_error (fr_row (pos_focus q)) i) eqn:E; [discriminate|].
    apply nth_error_None in E. unfold focus_offset_to_index, row_offset_to_index in Eo.
    destruct d; repeat match type of Eo with context [if ?b then _ else _] => destruct b eqn:? end; try discriminate; inv Eo; lia.
  - unfold focus_offset_to_index, row_offset_to_index in Eo.
    destruct d; repeat match type of Eo with context [if ?b then _ else _] => destruct b eqn:? end; try discriminate; lia.
Qed.
Lemma at_edge q d : match d with HLeft => pos_offset q = 0 | HRight => pos_offset q = length (fr_row (pos_focus q)) end ->
  match focus_offset_to_index (pos_focus q) (pos_offset q) d with
    | Some index => match focus_node_at (pos_focus q) index with Some n => Some (index, n) | None => None end
    | None => None end = None.
Proof.
  intros E. unfold focus_offset_to_index, row_offset_to_index. destruct d; rewrite E; [reflexivity|].
  repeat match goal with |- context [if ?b then _ else _] => destruct b eqn:? end; auto. lia.
Qed.
Lemma has_neighbour q d i n : match d with HLeft => pos_offset q = S i | HRight => pos_offset q = i end ->
  pos_offset q <= length (fr_row (pos_focus q)) -> nth_error (fr_row (pos_focus q)) i = Some n ->
  match focus_offset_to_index (pos_focus q) (pos_offset q) d with
    | Some index => match focus_node_at (pos_focus q) index with Some n => Some (index, n) | None => None end
    | None => None end = Some (i, n).
Proof.
  intros E Ho Hn. pose proof (nth_error_Some_lt Hn) as Hl. unfold focus_offset_to_index, row_offset_to_index, focus_node_at.
  replace (match d with HLeft => _ | HRight => _ end) with (Some i)
    by (destruct d; rewrite E; [cbn [Nat.ltb Nat.leb Nat.sub]; rewrite ?Nat.sub_0_r|]; repeat match goal with |- context [if ?b then _ else _] => destruct b eqn:? end; auto; lia).
  now rewrite Hn.
Qed.

(** The container around a position *)
Lemma cell_around doc q p i j v g : good_pos doc q -> pos_indices q = p ++ [(i, j)] -> node_get doc p i = Some (Container v g) ->
  exists n, focus_parent (pos_focus q) = Some n /\ canonical doc (fn_parent n) /\ fr_indices (fn_parent n) = p /\ fn_index n = i /\
    fn_node n = Container v g /\ nth_error (fr_row (fn_parent n)) i = Some (Container v g) /\ nth_error (gvalues g) j = Some (fr_row (pos_focus q)).
Proof.
  intros [Hc Ho] Ei Hn. destruct (focus_parent (pos_focus q)) as [n|] eqn:Ep.
  2:{ apply (canonical_parent_none Hc) in Ep. unfold pos_indices in Ei. rewrite Ep in Ei. destruct p; discriminate. }
  pose proof (canonical_parent_inv Hc Ep) as (p'&j'&Hidx&Hcp&Hp'&Hnth&Hrow). unfold pos_indices in Ei. rewrite Ei in Hidx.
  apply app_inj_tail in Hidx as [<- Hidx]. injection Hidx as -> ->. exists n.
  unfold node_get in Hn. rewrite <- Hp', (canonical_row Hcp) in Hn. rewrite Hn in Hnth. injection Hnth as Hnd. rewrite <- Hnd.
  repeat split; auto. apply focus_row_at_inv in Hrow as (v'&g'&c&H1&H2&E). rewrite Hn in H1. injection H1 as <- <-. now rewrite E.
Qed.
Lemma remove_at_edge cfg doc q d p i j v g : wf_row doc -> good_pos doc q -> pos_indices q = p ++ [(i, j)] -> node_get doc p i = Some (Container v g) ->
  match d with HLeft => pos_offset q = 0 | HRight => pos_offset q = length (fr_row (pos_focus q)) end ->
  exists n, canonical doc (fn_parent n) /\ fr_indices (fn_parent n) = p /\ fn_index n = i /\ fn_node n = Container v g /\
    nth_error (fr_row (fn_parent n)) i = Some (Container v g) /\
    remove_at_caret_position cfg q d = match edge_choice v (gvalues g) j d with Some k => flatten_node n k | None => remove_move_caret cfg q d end.
Proof.
  intros Hwf G Ei Hn He. destruct (cell_around G Ei Hn) as (n&Ep&Hcp&Hp&Hx&Hnd&Hnth&Hcell). exists n.
  repeat (split; [assumption|]). pose proof (focus_wf_node Hwf Hcp Hnth) as Hwn. destruct (wf_grid_size Hwn) as (Hsz&Hmul&Hlen).
  pose proof (nth_error_Some_lt Hcell) as Hj. pose proof G as [Hc _].
  unfold remove_at_caret_position. cbv zeta. rewrite (at_edge He), (index_in_parent_eq cfg Hc Ei). cbn [bind]. rewrite Ep. cbn [unwrap bind]. rewrite Hnd. cbn [node_grid].
  assert (Hgen : (at_edge <- match d with
              | HLeft => Ok (j =? 0)
              | HRight => ' (w, h) <- gsize g ;; last <- usub cfg (w * h) 1 ;; Ok (match last with Some last => last <=? j | None => false end)
              end ;; if at_edge && forallb (fun v => match v with [] => true | _ => false end) (gvalues g)
                     then flatten_node n 0 else remove_move_caret cfg q d) =
     match (if match d with HLeft => j =? 0 | HRight => length (gvalues g) - 1 <=? j end && all_empty (gvalues g) then Some 0 else None) with
     | Some k => flatten_node n k | None => remove_move_caret cfg q d end).
  { fold (all_empty (gvalues g)). destruct d; cbn [bind].
    - now destruct (_ && _).
    - rewrite Hsz. cbn [bind]. unfold usub. rewrite Hmul. replace (1 <=? length (gvalues g)) with true by lia. cbn [bind]. now destruct (_ && _). }
  assert (Hfirst : forall c : list InputNode, nth_error (gvalues g) 0 = Some c -> (xy <- from_index 0 g ;; first <- gget g xy ;; first <- unwrap first ;; flatten_node n (length first)) = flatten_node n (length c)).
  { intros c E0. apply wf_container_inv in Hwn as (Hw&Hne&Hmod&_). rewrite from_index_eq by auto. cbn [bind]. rewrite gget_from_index by auto. cbn [bind].
    now rewrite E0. }
  destruct (nth_error (gvalues g) 0) as [c0|] eqn:E0; [|apply nth_error_None in E0; lia]. specialize (Hfirst c0 eq_refl).
  unfold edge_choice. rewrite E0. cbn [option_map]. unfold is_left. destruct v; try exact Hgen.
  - destruct d; cbn [negb andb orb]; rewrite ?Bool.orb_false_r; [destruct (j =? 1)|destruct (j =? 0)]; first [exact Hfirst|exact Hgen].
  - destruct d; cbn [negb andb orb]; rewrite ?Bool.orb_false_r; [destruct (j =? 1)|destruct (j =? 0)]; first [exact Hfirst|exact Hgen].
  - destruct d; [reflexivity|exact Hgen].
  - destruct d; [reflexivity|exact Hgen].
Qed.
Lemma edge_dissolves doc q d p i j v g k : good_pos doc q -> pos_indices q = p ++ [(i, j)] -> node_get doc p i = Some (Container v g) ->
  match d with HLeft => pos_offset q = 0 | HRight => pos_offset q = length (fr_row (pos_focus q)) end ->
  edge_choice v (gvalues g) j d = Some k -> dissolves doc d (pos_to_minimal q) p i k.
Proof.
  intros G Ei Hn He Hk. destruct (cell_around G Ei Hn) as (n&_&_&_&_&_&_&Hcell). pose proof (nth_error_Some_lt Hcell) as Hj.
  unfold pos_to_minimal. rewrite Ei.
  assert (Hgen : (if match d with HLeft => j =? 0 | HRight => length (gvalues g) - 1 <=? j end && all_empty (gvalues g) then Some 0 else None) = Some k ->
     dissolves doc d (mkMinPos (p ++ [(i, j)]) (pos_offset q)) p i k).
  { intros H. destruct (_ && _) eqn:Eb; [|discriminate]. injection H as <-. apply andb_prop in Eb as [Eb Ea]. rewrite all_empty_iff in Ea.
    pose proof (Ea _ (nth_error_In _ _ Hcell)) as Ec. rewrite Ec in He. destruct d; rewrite He.
    - apply Nat.eqb_eq in Eb. subst j. eapply empty_from_start; eauto.
    - apply Nat.leb_le in Eb. cbn [length]. replace j with (length (gvalues g) - 1) by lia. eapply empty_from_end; eauto. }
  assert (Hfr : v = Fraction \/ v = RootV -> (if match d with HLeft => j =? 1 | HRight => j =? 0 end then option_map (@length _) (nth_error (gvalues g) 0)
       else if match d with HLeft => j =? 0 | HRight => length (gvalues g) - 1 <=? j end && all_empty (gvalues g) then Some 0 else None) = Some k ->
       dissolves doc d (mkMinPos (p ++ [(i, j)]) (pos_offset q)) p i k).
  { intros Hv H. destruct (match d with HLeft => j =? 1 | HRight => j =? 0 end) eqn:Eb; [|auto].
    destruct (gvalues g) as [|c cells] eqn:Eg; [discriminate|]. cbn in H. injection H as <-. destruct d; rewrite He; apply Nat.eqb_eq in Eb; subst j.
    - eapply second_cell; eauto.
    - cbn in Hcell. injection Hcell as <-. eapply first_cell; eauto. }
  unfold edge_choice in Hk. destruct v; auto.
  - destruct d; auto. injection Hk as <-. rewrite He. eapply script_start; eauto.
  - destruct d; auto. injection Hk as <-. rewrite He. eapply script_start; eauto.
Qed.

(** A cell in which all is as the constructor says dissolves. *)
Lemma dissolves_flattens cfg doc q d p i k : wf_row doc -> good_pos doc q -> dissolves doc d (pos_to_minimal q) p i k ->
  exists v g n, canonical doc (fn_parent n) /\ fr_indices (fn_parent n) = p /\ fn_index n = i /\ fn_node n = Container v g /\
    nth_error (fr_row (fn_parent n)) i = Some (Container v g) /\ remove_at_caret_position cfg q d = flatten_node n k.
Proof.
  intros Hwf G H. remember (pos_to_minimal q) as m eqn:Em. pose proof G as [Hc Ho].
  assert (Hedge : forall j v g, pos_indices q = p ++ [(i, j)] -> node_get doc p i = Some (Container v g) ->
    match d with HLeft => pos_offset q = 0 | HRight => pos_offset q = length (fr_row (pos_focus q)) end ->
    edge_choice v (gvalues g) j d = Some k ->
    exists v g n, canonical doc (fn_parent n) /\ fr_indices (fn_parent n) = p /\ fn_index n = i /\ fn_node n = Container v g /\
    nth_error (fr_row (fn_parent n)) i = Some (Container v g) /\ remove_at_caret_position cfg q d = flatten_node n k).
  { intros j v g Ei Hn He Hk. destruct (remove_at_edge cfg Hwf G Ei Hn He) as (n&H1&H2&H3&H4&H5&H6). rewrite Hk in H6. exists v, g, n. auto 10. }
  assert (Hcell : forall j v g, pos_indices q = p ++ [(i, j)] -> node_get doc p i = Some (Container v g) -> nth_error (gvalues g) j = Some (fr_row (pos_focus q))).
  { intros j v g Ei Hn. now destruct (cell_around G Ei Hn) as (n&_&_&_&_&_&_&H'). }
  destruct H as [p i v g Hn Hv|p i j v g Hn Hv|p i v g c cells Hn Hv Hg|p i v g c cells Hn Hv Hg|p i v g Hn Ha|p i v g Hn Ha];
    injection Em as Ei Eo; symmetry in Ei; symmetry in Eo.
  - pose proof Hn as Hn'. unfold node_get in Hn'. rewrite <- Ei in Hn'. unfold pos_indices in Hn'. rewrite (canonical_row Hc) in Hn'.
    exists v, g, (mkFocusNode (Container v g) (pos_focus q) i). cbn [fn_parent fn_index fn_node]. repeat (split; [solve [auto]|]).
    unfold remove_at_caret_position. cbv zeta. rewrite (has_neighbour (d := HRight) Eo Ho Hn').
    unfold focus_child_at. rewrite Hn'. destruct Hv as [-> | ->]; reflexivity.
  - eapply Hedge; eauto. destruct Hv as [-> | ->]; reflexivity.
  - eapply Hedge; eauto. rewrite Hg. destruct Hv as [-> | ->]; reflexivity.
  - pose proof (Hcell _ _ _ Ei Hn) as Hx. rewrite Hg in Hx. injection Hx as Hx. eapply Hedge; eauto; [congruence|]. rewrite Hg. destruct Hv as [-> | ->]; reflexivity.
  - eapply Hedge; eauto. unfold edge_choice. rewrite (proj2 (all_empty_iff _) Ha). cbn [Nat.eqb andb]. destruct v; reflexivity.
  - pose proof (Hcell _ _ _ Ei Hn) as Hx. pose proof (Ha _ (nth_error_In _ _ Hx)) as Ec. eapply Hedge; eauto; [rewrite Ec; exact Eo|].
    unfold edge_choice. rewrite (proj2 (all_empty_iff _) Ha), Nat.leb_refl. cbn [andb]. destruct v; try reflexivity.
    + destruct (_ =? 0); [|reflexivity]. destruct (gvalues g) as [|c l] eqn:Eg; [destruct (length _ - 1); discriminate Hx|]. cbn. f_equal. rewrite (Ha c) by now left. reflexivity.
    + destruct (_ =? 0); [|reflexivity]. destruct (gvalues g) as [|c l] eqn:Eg; [destruct (length _ - 1); discriminate Hx|]. cbn. f_equal. rewrite (Ha c) by now left. reflexivity.
Qed.
(** Everywhere else the caret moves, or is at the end of the document. *)
Lemma otherwise_moves cfg doc q d : wf_row doc -> good_pos doc q -> ~ symbol_beside doc d (pos_to_minimal q) ->
  (forall p i k, ~ dissolves doc d (pos_to_minimal q) p i k) ->
  remove_at_caret_position cfg q d = remove_move_caret cfg q d \/
  pos_to_minimal q = edge (h_to_dir d) doc /\ remove_at_caret_position cfg q d = if overflow_checks cfg then Panic POverflow else Ok None.
Proof.
  intros Hwf G Hs Hd. pose proof G as [Hc Ho].
  destruct (match focus_offset_to_index (pos_focus q) (pos_offset q) d with
            | Some index => match focus_node_at (pos_focus q) index with Some n => Some (index, n) | None => None end
            | None => None end) as [[i nd]|] eqn:En.
  - assert (Hi : match d with HLeft => pos_offset q = S i | HRight => pos_offset q = i end /\
                 nth_error (fr_row (pos_focus q)) i = Some nd).
    { destruct (focus_offset_to_index (pos_focus q) (pos_offset q) d) as [i'|] eqn:Eo; [|discriminate].
      unfold focus_node_at in En. destruct (nth_error (fr_row (pos_focus q)) i') eqn:E; [|discriminate]. inv En. split; auto.
      unfold focus_offset_to_index, row_offset_to_index in Eo. destruct d; repeat match type of Eo with context [if ?b then _ else _] => destruct b eqn:? end;
        try discriminate; inv Eo; lia. }
    destruct Hi as [Hi Hnd]. left. unfold remove_at_caret_position. cbv zeta. rewrite En.
    assert (Hget : node_get doc (pos_indices q) i = Some nd) by (unfold node_get, pos_indices; now rewrite (canonical_row Hc)).
    destruct nd as [v g|s].
    + destruct v, d; try reflexivity; exfalso; subst i; eapply Hd; eapply script_behind; eauto.
    + elim Hs. exists i, s. auto.
  - pose proof (no_neighbour En Ho) as He. destruct (focus_parent (pos_focus q)) as [n|] eqn:Ep.
    + left. pose proof (canonical_parent_inv Hc Ep) as (p&j&Hidx&Hcp&Hp'&Hnth&Hrow). pose proof (focus_row_at_inv Hrow) as (v&g&c&Hn'&_&_).
      assert (Hn : node_get doc p (fn_index n) = Some (Container v g)) by (unfold node_get; rewrite <- Hp', (canonical_row Hcp); exact Hn').
      destruct (remove_at_edge cfg Hwf G Hidx Hn He) as (n'&_&_&_&_&_&H6). destruct (edge_choice v (gvalues g) j d) as [k|] eqn:Ek; [|exact H6].
      elim (Hd p (fn_index n) k). exact (edge_dissolves G Hidx Hn He Ek).
    + right. pose proof Ep as Ep'. apply (canonical_parent_none Hc) in Ep'. split.
      * unfold pos_to_minimal, pos_indices. rewrite Ep'. pose proof (canonical_row Hc) as Hrow. rewrite Ep' in Hrow. cbn in Hrow. injection Hrow as Hrow.
        rewrite <- Hrow in He. destruct d; cbn; unfold here; now rewrite He.
      * unfold remove_at_caret_position. cbv zeta. rewrite En. unfold index_in_parent, usub. rewrite Ep'. cbn. rewrite Ep. destruct (overflow_checks cfg); reflexivity.
Qed.

(** ** The whole operation *)
Section Ed.
Context {SyntaxNode : Type}.
Variable env : Env SyntaxNode.
Implicit Type ed : MathEditor SyntaxNode.
Let cfg := env_cfg env.

Lemma flatten_replaces doc n p i v g k : canonical doc (fn_parent n) -> fr_indices (fn_parent n) = p -> fn_index n = i -> fn_node n = Container v g ->
  nth_error (fr_row (fn_parent n)) i = Some (Container v g) ->
  exists e es doc', flatten_node n k = Ok (Some (e :: es, mkMinPos p (i + k))) /\ chain cfg doc (e :: es) doc' /\ nodes_replaced doc p i (S i) (concat (gvalues g)) doc'.
Proof.
  intros Hc Hp Hi Hn Hnth. subst p i. assert (Hnth' : nth_error (fr_row (fn_parent n)) (fn_index n) = Some (fn_node n)) by now rewrite Hn.
  destruct (@flatten_ok doc n k v g Hc Hnth' Hn) as ([[es m]|]&Hr).
  2:{ exfalso. unfold flatten_node in Hr. rewrite Hn in Hr. cbn [node_grid unwrap bind] in Hr. cbv zeta in Hr. apply bind_ok in Hr as (r&_&Hr). apply bind_ok in Hr as ([? ?]&_&Hr).
      destruct (insert_at_position _ _). discriminate. }
  destruct (flatten_node_inv Hc Hr) as (v'&g'&r&En&Hr'&G&Hrep&->). rewrite Hn in En. injection En as <- <-.
  destruct (replace_range_replaces cfg G Hrep) as (doc'&C&Hrep2&_&_). pose proof (range_new_inv Hr') as (Er&_&_).
  assert (El : rg_left r = fn_index n) by (rewrite Er, rg_left_min; cbn; lia).
  assert (Erg : rg_right r = S (fn_index n)) by (rewrite Er, rg_right_max; cbn; lia).
  assert (Ei : rg_indices r = fr_indices (fn_parent n)) by (rewrite Er; reflexivity). rewrite El, Erg, Ei in Hrep2.
  rewrite (replace_range_eq _ G) in Hrep. injection Hrep as Hes. subst es. do 3 eexists. split; [exact Hr|]. split; [exact C|exact Hrep2].
Qed.

(** A token in front of the caret ends with a symbol. *)
Lemma pending_symbol ed q : wf_row (ed_input ed) -> ed_caret ed = collapsed q -> autocorrect_pending env ed -> symbol_beside (ed_input ed) HLeft q.
Proof.
  intros Hwf Hc Hp. destruct (pending_start Hp) as (ed1&act&Ha). destruct (pending_token Hwf Ha) as (q'&n&s&[Gc Go]&Hcq&H1&H2&_&Hn).
  rewrite Hc in Hcq. injection Hcq as ->. exists (pos_offset q' - 1), s. cbn [pos_to_minimal mp_row mp_offset]. split; [lia|].
  unfold node_get, pos_indices. rewrite (canonical_row Gc). exact Hn.
Qed.
Lemma dissolves_no_symbol doc q p i k : dissolves doc HLeft q p i k -> ~ symbol_beside doc HLeft q.
Proof. intros H (i'&s&E&_). inversion H; subst; cbn in E; discriminate. Qed.

Lemma dissolve_step ed q mode d p i k : wf_row (ed_input ed) -> valid_pos (ed_input ed) q -> ed_caret ed = collapsed q -> remove_dir mode = Some d ->
  (exists x, get_autocomplete env ed = Ok x) -> (d = HRight -> ~ autocorrect_pending env ed) -> dissolves (ed_input ed) d q p i k ->
  exists v g ed', step env ed (OpRemoveAtCaret mode) = Ok (ed', OutNone _) /\ node_get (ed_input ed) p i = Some (Container v g) /\
    nodes_replaced (ed_input ed) p i (S i) (concat (gvalues g)) (ed_input ed') /\ ed_caret ed' = collapsed (mkMinPos p (i + k)).
Proof.
  intros Hwf Hv Hc Hd [[ed1 r] Hg] Hp' Hdis.
  assert (Hp : ~ autocorrect_pending env ed) by (destruct d; [|auto]; intros Hp; exact (dissolves_no_symbol Hdis (pending_symbol Hwf Hc Hp))). destruct (start_autocorrect_ok Hg) as (a&Ha&Hn). rewrite (Hn Hp) in Ha. clear a Hn.
  apply get_autocomplete_only in Hg as (x&->). destruct (collapsed_caret Hwf Hv) as (qq&Gq&Eq&Ec). rewrite <- Eq in Hdis.
  destruct (dissolves_flattens cfg Hwf Gq Hdis) as (v&g&n&H1&H2&H3&H4&H5&Hrp).
  destruct (flatten_replaces k H1 H2 H3 H4 H5) as (e&es&doc'&Hf&C&Hrep). rewrite Hf in Hrp.
  exists v, g. cbn [step]. unfold editor_remove_at_caret. rewrite Ha. cbn [bind set_autocomplete ed_input ed_caret]. rewrite Hc, Ec. cbn [bind c_selection].
  unfold remove_at_caret, rg_is_collapsed. cbn [range_of_pos rg_start rg_end]. rewrite Nat.eqb_refl. cbn [negb].
  replace (rg_start_position (range_of_pos qq)) with qq by (destruct qq; reflexivity).
  assert (Hm : (match mode with RemoveLeft => remove_at_caret_position cfg qq HLeft | RemoveRight => remove_at_caret_position cfg qq HRight
               | RemoveRange => r <- remove_range (range_of_pos qq) ;; Ok (Some r) end) = Ok (Some (e :: es, mkMinPos p (i + k)))).
  { destruct mode; try discriminate Hd; injection Hd as Hd; rewrite Hd; exact Hrp. }
  fold cfg. rewrite Hm. cbn [bind]. unfold builder_finish. cbn [set_autocomplete ed_input]. pose proof (chain_apply C) as Hap.
  unfold cfg in Hap. rewrite Hap. cbn [bind]. rewrite finish_autocorrect_none. cbn [bind]. eexists. split; [reflexivity|]. cbn [ed_input ed_caret].
  split; [|split; [exact Hrep|reflexivity]]. unfold node_get. rewrite <- H2, (canonical_row H1). exact H5.
Qed.

Lemma otherwise_step ed q mode d : wf_row (ed_input ed) -> valid_pos (ed_input ed) q -> ed_caret ed = collapsed q -> remove_dir mode = Some d ->
  (exists x, get_autocomplete env ed = Ok x) -> (d = HRight -> ~ autocorrect_pending env ed) ->
  ~ symbol_beside (ed_input ed) d q -> (forall p i k, ~ dissolves (ed_input ed) d q p i k) ->
  (overflow_checks cfg = true -> q <> edge (h_to_dir d) (ed_input ed)) -> ~ underflows cfg (h_to_dir d) q ->
  exists ed', ed_input ed' = ed_input ed /\ ed_undo ed' = ed_undo ed /\
    (q = edge (h_to_dir d) (ed_input ed) /\ step env ed (OpRemoveAtCaret mode) = Ok (ed', OutNo _) /\ ed_caret ed' = ed_caret ed \/
     exists q', follows (h_to_dir d) (ed_input ed) q q' /\ step env ed (OpRemoveAtCaret mode) = Ok (ed', OutNone _) /\ ed_caret ed' = collapsed q').
Proof.
  intros Hwf Hv Hc Hd [[ed1 r] Hg] Hp' Hs Hdis Ho Hu.
  assert (Hp : ~ autocorrect_pending env ed) by (destruct d; [|auto]; intros Hp; exact (Hs (pending_symbol Hwf Hc Hp))). destruct (start_autocorrect_ok Hg) as (a&Ha&Hn). rewrite (Hn Hp) in Ha. clear a Hn.
  apply get_autocomplete_only in Hg as (x&->). destruct (collapsed_caret Hwf Hv) as (qq&Gq&Eq&Ec). rewrite <- Eq in *.
  assert (Hrp : exists r, remove_at_caret_position cfg qq d = Ok r /\
    match r with None => pos_to_minimal qq = edge (h_to_dir d) (ed_input ed) | Some (es, m) => es = [] /\ follows (h_to_dir d) (ed_input ed) (pos_to_minimal qq) m end).
  { destruct (otherwise_moves cfg Hwf Gq Hs Hdis) as [E|[E1 E2]].
    - rewrite E. unfold remove_move_caret, move_caret_range.
      assert (El : rg_left_position (range_of_pos qq) = qq /\ rg_right_position (range_of_pos qq) = qq).
      { unfold rg_left_position, rg_right_position, rg_left, rg_right, rg_is_forwards. cbn. rewrite Nat.leb_refl. destruct qq; split; reflexivity. }
      destruct El as [El Er]. assert (Ecol : rg_is_collapsed (range_of_pos qq) = true) by apply Nat.eqb_refl.
      destruct d; cbn [h_to_dir]; [rewrite El|rewrite Er].
      + destruct (@move_left cfg (ed_input ed) _ Hwf Gq) as (m&Hm&HQ).
        { intros Hov Hz. apply Hu. split; auto. }
        rewrite Hm. cbn [bind]. destruct m as [m|].
        * eexists. split; [reflexivity|]. cbn. split; [reflexivity|]. apply right_step_next, HQ.
        * rewrite Ecol. eexists. split; [reflexivity|exact HQ].
      + destruct (move_right cfg Hwf Gq) as (m&Hm&HQ). rewrite Hm. cbn [bind]. destruct m as [m|].
        * eexists. split; [reflexivity|]. cbn. split; [reflexivity|]. apply right_step_next, HQ.
        * rewrite Ecol. eexists. split; [reflexivity|exact HQ].
    - rewrite E2. destruct (overflow_checks cfg); [elim Ho; auto|]. eauto. }
  destruct Hrp as (y&Hrp&Hy).
  cbn [step]. unfold editor_remove_at_caret. rewrite Ha. cbn [bind set_autocomplete ed_input ed_caret]. rewrite Hc, Ec. cbn [bind c_selection].
  unfold remove_at_caret, rg_is_collapsed. cbn [range_of_pos rg_start rg_end]. rewrite Nat.eqb_refl. cbn [negb].
  replace (rg_start_position (range_of_pos qq)) with qq by (destruct qq; reflexivity).
  assert (Hm : (match mode with RemoveLeft => remove_at_caret_position cfg qq HLeft | RemoveRight => remove_at_caret_position cfg qq HRight
               | RemoveRange => r <- remove_range (range_of_pos qq) ;; Ok (Some r) end) = Ok y).
  { destruct mode; try discriminate Hd; injection Hd as Hd; rewrite Hd; exact Hrp. }
  fold cfg. rewrite Hm. cbn [bind]. destruct y as [[es m]|].
  - destruct Hy as [-> Hy]. cbn [builder_finish bind]. rewrite finish_autocorrect_none. cbn [bind]. eexists. split; [|split; [|right; exists m; split; [exact Hy|split; reflexivity]]]; reflexivity.
  - eexists. split; [|split; [|left; split; [exact Hy|split; [reflexivity|exact Hc]]]]; reflexivity.
Qed.
End Ed.
