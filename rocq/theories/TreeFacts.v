(** Grids, paths and foci. *)
From Verif Require Import Base Str Grid Node Focus Spec BaseFacts.
Set Implicit Arguments.
Unset Strict Implicit.

(** ** Grids *)
Definition full_grid {T} (g : GridVec T) : Prop :=
  0 < gwidth g /\ gvalues g <> [] /\ length (gvalues g) mod gwidth g = 0.

Lemma gsize_ok T (g : GridVec T) : 0 < gwidth g -> gsize g = Ok (gwidth g, length (gvalues g) / gwidth g).
Proof. intros H. unfold gsize, udiv. destruct (gwidth g =? 0) eqn:E; [lia|reflexivity]. Qed.

Lemma gsize_inv T (g : GridVec T) s :
  gsize g = Ok s -> 0 < gwidth g /\ s = (gwidth g, length (gvalues g) / gwidth g).
Proof.
  unfold gsize, udiv. destruct (gwidth g =? 0) eqn:E; simpl; intros H; [discriminate|].
  injection H as <-. split; [lia|reflexivity].
Qed.

Lemma from_index_eq T (g : GridVec T) j : 0 < gwidth g ->
  from_index j g = Ok (mkIndex2D (j mod gwidth g) (j / gwidth g) (gwidth g)).
Proof.
  intros H. unfold from_index, gwidth_of. rewrite gsize_ok by auto. simpl.
  unfold umod, udiv. destruct (gwidth g =? 0) eqn:E; [lia|reflexivity].
Qed.

Lemma from_index_inv T (g : GridVec T) j xy : from_index j g = Ok xy ->
  0 < gwidth g /\ xy = mkIndex2D (j mod gwidth g) (j / gwidth g) (gwidth g).
Proof.
  intros H. destruct (Nat.eq_dec (gwidth g) 0) as [E|E].
  - unfold from_index, gwidth_of, gsize, udiv in H. rewrite E in H. discriminate.
  - rewrite from_index_eq in H by lia. injection H as <-. split; [lia|reflexivity].
Qed.

Lemma to_index_from j w : 0 < w -> to_index (mkIndex2D (j mod w) (j / w) w) = j.
Proof. intros H. unfold to_index; simpl. rewrite (Nat.div_mod j w) at 3 by lia. lia. Qed.

Lemma div_lt_full len w j : 0 < w -> len mod w = 0 -> (j / w < len / w <-> j < len).
Proof.
  intros Hw Hm.
  assert (E : len = w * (len / w)) by (rewrite (Nat.div_mod len w) at 1; lia).
  split; intros H.
  - rewrite E. rewrite (Nat.div_mod j w) by lia.
    pose proof (Nat.mod_upper_bound j w ltac:(lia)). nia.
  - apply Nat.div_lt_upper_bound; lia.
Qed.

(** The lookup [grid.get(Index2D::from_index(j))] is the lookup of cell [j]. *)
Definition cell_at {T} (g : GridVec T) (j : nat) : Res (option T) :=
  xy <- from_index j g ;; gget g xy.

Lemma gget_from_index T (g : GridVec T) j : 0 < gwidth g -> length (gvalues g) mod gwidth g = 0 ->
  gget g (mkIndex2D (j mod gwidth g) (j / gwidth g) (gwidth g)) = Ok (nth_error (gvalues g) j).
Proof.
  intros Hw Hm. unfold gget, to_index_checked, with_grid. rewrite gsize_ok by auto. simpl.
  unfold with_size; simpl. rewrite Nat.eqb_refl. simpl.
  pose proof (Nat.mod_upper_bound j (gwidth g) ltac:(lia)).
  replace (gwidth g <=? j mod gwidth g) with false by lia. simpl.
  destruct (length (gvalues g) / gwidth g <=? j / gwidth g) eqn:E; simpl.
  - assert (~ j < length (gvalues g)) by (rewrite <- div_lt_full by eauto; lia).
    symmetry. f_equal. apply nth_error_None. lia.
  - f_equal. rewrite to_index_from by auto. reflexivity.
Qed.

Lemma cell_at_eq T (g : GridVec T) j : 0 < gwidth g -> length (gvalues g) mod gwidth g = 0 ->
  cell_at g j = Ok (nth_error (gvalues g) j).
Proof. intros. unfold cell_at. rewrite from_index_eq by auto. simpl. now apply gget_from_index. Qed.

(** A successful lookup or assignment, also in grids that are not full. *)
Lemma to_index_checked_inv T (g : GridVec T) j k : 0 < gwidth g ->
  to_index_checked (mkIndex2D (j mod gwidth g) (j / gwidth g) (gwidth g)) g = Ok (Some k) -> k = j.
Proof.
  intros Hw. unfold to_index_checked, with_grid. rewrite gsize_ok by auto. simpl.
  unfold with_size. destruct (_ || _); simpl; [discriminate|].
  intros H; injection H as <-. rewrite <- (to_index_from j Hw) at 3. reflexivity.
Qed.

Lemma gget_inv T (g : GridVec T) j xy c : from_index j g = Ok xy -> gget g xy = Ok (Some c) ->
  nth_error (gvalues g) j = Some c.
Proof.
  intros H H'. apply from_index_inv in H as [Hw ->]. unfold gget in H'. bind_inv.
  destruct x as [k|]; [|discriminate]. apply to_index_checked_inv in E; auto. now subst.
Qed.

(** ** Well-formed documents and paths *)
Lemma wf_container_inv v g : wf_node (Container v g) ->
  0 < gwidth g /\ gvalues g <> [] /\ length (gvalues g) mod gwidth g = 0 /\
  (forall cell, In cell (gvalues g) -> wf_row cell).
Proof. intros H. inv H. simpl. repeat split; auto. Qed.

Lemma wf_row_nth r i n : wf_row r -> nth_error r i = Some n -> wf_node n.
Proof. intros H E. apply H. eapply nth_error_In; eauto. Qed.

Lemma wf_row_app a b : wf_row (a ++ b) <-> wf_row a /\ wf_row b.
Proof.
  unfold wf_row. split.
  - intros H. split; intros n Hn; apply H; apply in_or_app; auto.
  - intros [Ha Hb] n Hn. apply in_app_or in Hn as [?|?]; auto.
Qed.
Lemma wf_row_cons n r : wf_row (n :: r) <-> wf_node n /\ wf_row r.
Proof.
  unfold wf_row; simpl. split.
  - intros H; split; auto.
  - intros [Hn Hr] m [<-|Hm]; auto.
Qed.
Lemma wf_row_nil : wf_row [].
Proof. intros n []. Qed.
Lemma wf_row_firstn r k : wf_row r -> wf_row (firstn k r).
Proof. intros H n Hn. apply H. rewrite <- (firstn_skipn k r). apply in_or_app; auto. Qed.
Lemma wf_row_skipn r k : wf_row r -> wf_row (skipn k r).
Proof. intros H n Hn. apply H. rewrite <- (firstn_skipn k r). apply in_or_app; auto. Qed.

Lemma wf_row_cell r i v g j c : wf_row r -> nth_error r i = Some (Container v g) ->
  nth_error (gvalues g) j = Some c -> wf_row c.
Proof.
  intros H E Ec. pose proof (wf_row_nth H E) as Hn. apply wf_container_inv in Hn as (_&_&_&Hc).
  apply Hc. eapply nth_error_In; eauto.
Qed.

Lemma row_get_wf doc p row : wf_row doc -> row_get doc p = Some row -> wf_row row.
Proof.
  revert doc; induction p as [|[i j] p IH]; simpl; intros doc Hwf E.
  - now inv E.
  - destruct (nth_error doc i) as [[v g|s]|] eqn:En; try discriminate.
    destruct (nth_error (gvalues g) j) as [c|] eqn:Ec; try discriminate.
    eapply IH; [|exact E]. eapply wf_row_cell; eauto.
Qed.

Lemma row_get_app doc p q : row_get doc (p ++ q) =
  match row_get doc p with Some r => row_get r q | None => None end.
Proof.
  revert doc; induction p as [|[i j] p IH]; simpl; intros doc; auto.
  destruct (nth_error doc i) as [[v g|s]|]; auto.
  destruct (nth_error (gvalues g) j); auto.
Qed.

Lemma row_get_snoc doc p i j : row_get doc (p ++ [(i, j)]) =
  match row_get doc p with
  | Some r => match nth_error r i with
              | Some (Container _ g) => nth_error (gvalues g) j
              | _ => None
              end
  | None => None
  end.
Proof.
  rewrite row_get_app. destruct (row_get doc p) as [r|]; simpl; auto.
  destruct (nth_error r i) as [[v g|s]|]; auto.
  destruct (nth_error (gvalues g) j); auto.
Qed.

(** ** Foci *)
Definition canonical (doc : InputRow) (f : InputFocusRow) : Prop :=
  walk_down_indices (from_root doc) (fr_indices f) = Ok f.

Lemma walk_app f p q : walk_down_indices f (p ++ q) =
  (f' <- walk_down_indices f p ;; walk_down_indices f' q).
Proof.
  revert f; induction p as [|[i j] p IH]; simpl; intros f; auto.
  destruct (unwrap (focus_child_at f i)); simpl; auto.
  destruct (fn_child_at a (Some j)); simpl; auto.
  destruct (unwrap a0); simpl; auto.
Qed.

(** Going down by one step. *)
Lemma focus_row_at_inv f i j f' :
  focus_row_at f (i, j) = Ok (Some f') ->
  exists v g cell, nth_error (fr_row f) i = Some (Container v g) /\
    nth_error (gvalues g) j = Some cell /\
    f' = mkFocusRow cell (Some (mkFocusNode (Container v g) (fr_set_indices f []) i))
           (fr_indices f ++ [(i, j)]).
Proof.
  unfold focus_row_at, focus_child_at; simpl.
  destruct (nth_error (fr_row f) i) as [n|] eqn:En; [|discriminate].
  unfold fn_child_at; simpl. destruct n as [v g|s]; [|discriminate].
  intros H. bind_inv. destruct x0 as [cell|]; [|discriminate]. injection H as <-.
  exists v, g, cell. split; [reflexivity|]. split; [eapply gget_inv; eauto|].
  destruct f; reflexivity.
Qed.

Lemma focus_row_at_eq f i j v g : nth_error (fr_row f) i = Some (Container v g) ->
  0 < gwidth g -> length (gvalues g) mod gwidth g = 0 ->
  focus_row_at f (i, j) =
  Ok (match nth_error (gvalues g) j with
      | Some cell => Some (mkFocusRow cell (Some (mkFocusNode (Container v g) (fr_set_indices f []) i))
           (fr_indices f ++ [(i, j)]))
      | None => None
      end).
Proof.
  intros En Hw Hm. unfold focus_row_at, focus_child_at; simpl. rewrite En.
  unfold fn_child_at; simpl. rewrite from_index_eq by auto. simpl. rewrite gget_from_index by auto. simpl.
  destruct (nth_error (gvalues g) j); destruct f; reflexivity.
Qed.

Lemma walk_cons f i j p : walk_down_indices f ((i, j) :: p) =
  (f' <- (r <- (n <- unwrap (focus_child_at f i) ;; fn_child_at n (Some j)) ;; unwrap r) ;;
   walk_down_indices f' p).
Proof.
  simpl. destruct (unwrap (focus_child_at f i)); simpl; auto.
  destruct (fn_child_at a (Some j)); simpl; auto.
Qed.

Lemma walk_cons_inv f i j p f'' : walk_down_indices f ((i, j) :: p) = Ok f'' ->
  exists f', focus_row_at f (i, j) = Ok (Some f') /\ walk_down_indices f' p = Ok f''.
Proof.
  simpl. intros H. bind_inv. exists x1. split; auto.
  unfold focus_row_at; simpl. now rewrite E.
Qed.
Lemma walk_cons_eq f i j p f' : focus_row_at f (i, j) = Ok (Some f') ->
  walk_down_indices f ((i, j) :: p) = walk_down_indices f' p.
Proof.
  unfold focus_row_at; simpl. destruct (focus_child_at f i); simpl; [|discriminate].
  intros ->. reflexivity.
Qed.

(** The result of a successful walk. *)
Lemma walk_inv f p f' : walk_down_indices f p = Ok f' ->
  fr_indices f' = fr_indices f ++ p /\ row_get (fr_row f) p = Some (fr_row f').
Proof.
  revert f; induction p as [|[i j] p IH]; intros f H.
  - simpl in H. injection H as <-. rewrite app_nil_r. auto.
  - apply walk_cons_inv in H as [f1 [H1 H2]]. apply focus_row_at_inv in H1 as (v&g&c&En&Ec&->).
    apply IH in H2 as [Hi Hr]. simpl in *. rewrite En, Ec. split; auto.
    rewrite Hi, <- app_assoc. reflexivity.
Qed.

(** Every path of a well-formed document can be walked. *)
Lemma walk_exists f p row : wf_row (fr_row f) -> row_get (fr_row f) p = Some row ->
  exists f', walk_down_indices f p = Ok f'.
Proof.
  revert f; induction p as [|[i j] p IH]; intros f Hwf H.
  - simpl. eauto.
  - simpl in H. destruct (nth_error (fr_row f) i) as [[v g|s]|] eqn:En; try discriminate.
    destruct (nth_error (gvalues g) j) as [c|] eqn:Ec; try discriminate.
    pose proof (wf_row_nth Hwf En) as Hn. apply wf_container_inv in Hn as (Hw&_&Hm&Hc).
    pose proof (focus_row_at_eq j En Hw Hm) as E. rewrite Ec in E.
    erewrite walk_cons_eq by exact E. apply IH; simpl; auto.
    apply Hc. eapply nth_error_In; eauto.
Qed.

Lemma walk_iff doc p : wf_row doc ->
  (exists f, walk_down_indices (from_root doc) p = Ok f) <-> (exists row, row_get doc p = Some row).
Proof.
  intros Hwf. split.
  - intros [f H]. apply walk_inv in H as [_ H]. eauto.
  - intros [row H]. eapply walk_exists with (f := from_root doc); eauto.
Qed.

Lemma walk_canonical doc p f : walk_down_indices (from_root doc) p = Ok f ->
  canonical doc f /\ fr_indices f = p /\ row_get doc p = Some (fr_row f).
Proof.
  intros H. pose proof (walk_inv H) as [Hi Hr]. simpl in *.
  repeat split; auto. unfold canonical. now rewrite Hi.
Qed.

Lemma canonical_root doc : canonical doc (from_root doc).
Proof. reflexivity. Qed.

Lemma canonical_row doc f : canonical doc f -> row_get doc (fr_indices f) = Some (fr_row f).
Proof. intros H. now apply walk_inv in H as [_ H]. Qed.

Lemma canonical_unique doc f f' : canonical doc f -> canonical doc f' -> fr_indices f = fr_indices f' -> f = f'.
Proof. unfold canonical. intros H H' E. rewrite E, H' in H. now injection H as ->. Qed.

Lemma canonical_child doc f i j f' : canonical doc f -> focus_row_at f (i, j) = Ok (Some f') ->
  canonical doc f'.
Proof.
  intros Hc H. unfold canonical.
  assert (Hi : fr_indices f' = fr_indices f ++ [(i, j)]).
  { apply focus_row_at_inv in H as (v&g&c&_&_&->). reflexivity. }
  rewrite Hi, walk_app, Hc. change (walk_down_indices f [(i, j)] = Ok f'). erewrite walk_cons_eq by exact H. reflexivity.
Qed.

(** Going up from a canonical focus gives the canonical focus of the enclosing row. *)
Lemma canonical_parent_none doc f : canonical doc f -> focus_parent f = None <-> fr_indices f = [].
Proof.
  intros Hc. split; intros H.
  - destruct (list_snoc (fr_indices f)) as [E|(p&[i j]&E)]; auto.
    unfold canonical in Hc. rewrite E, walk_app in Hc. bind_inv.
    apply walk_cons_inv in Hc as [f1 [H1 H2]]. apply focus_row_at_inv in H1 as (v&g&c&_&_&->).
    simpl in H2. injection H2 as <-. simpl in H. destruct (fr_set_indices x []); discriminate.
  - unfold canonical in Hc. rewrite H in Hc. injection Hc as <-. reflexivity.
Qed.

Lemma fr_set_indices_set f a b : fr_set_indices (fr_set_indices f a) b = fr_set_indices f b.
Proof. destruct f; reflexivity. Qed.
Lemma fr_set_indices_same f : fr_set_indices f (fr_indices f) = f.
Proof. destruct f; reflexivity. Qed.
Lemma fr_row_set f a : fr_row (fr_set_indices f a) = fr_row f.
Proof. destruct f; reflexivity. Qed.

Lemma canonical_snoc_inv doc f p i j : canonical doc f -> fr_indices f = p ++ [(i, j)] ->
  exists f0 v g, canonical doc f0 /\ fr_indices f0 = p /\
    nth_error (fr_row f0) i = Some (Container v g) /\
    nth_error (gvalues g) j = Some (fr_row f) /\
    focus_row_at f0 (i, j) = Ok (Some f) /\
    focus_parent f = Some (mkFocusNode (Container v g) f0 i).
Proof.
  intros Hc Hi. unfold canonical in Hc. rewrite Hi, walk_app in Hc. bind_inv.
  rename x into f0. apply walk_canonical in E as (Hc0&Hi0&Hr0).
  apply walk_cons_inv in Hc as [f1 [H1 H2]]. simpl in H2. injection H2 as ->.
  pose proof (focus_row_at_inv H1) as (v&g&c&En&Ec&Ef). subst f.
  exists f0, v, g. simpl in *. repeat split; auto.
  rewrite Hi0, removelast_last, fr_set_indices_set. rewrite <- Hi0 at 1. now rewrite fr_set_indices_same.
Qed.

Lemma canonical_parent_inv doc f n : canonical doc f -> focus_parent f = Some n ->
  exists p j, fr_indices f = p ++ [(fn_index n, j)] /\ canonical doc (fn_parent n) /\
    fr_indices (fn_parent n) = p /\ nth_error (fr_row (fn_parent n)) (fn_index n) = Some (fn_node n) /\
    focus_row_at (fn_parent n) (fn_index n, j) = Ok (Some f).
Proof.
  intros Hc Hp. destruct (list_snoc (fr_indices f)) as [E|(p&[i j]&E)].
  - apply (proj2 (canonical_parent_none Hc)) in E. congruence.
  - destruct (canonical_snoc_inv Hc E) as (f0&v&g&Hc0&Hi0&En&Ec&Ef&Hp').
    rewrite Hp in Hp'. injection Hp' as ->. exists p, j. simpl. repeat split; auto.
Qed.

(** Siblings. *)
Lemma fn_child_at_row_at n k : nth_error (fr_row (fn_parent n)) (fn_index n) = Some (fn_node n) ->
  fn_child_at n (Some k) = focus_row_at (fn_parent n) (fn_index n, k).
Proof.
  intros E. unfold focus_row_at, focus_child_at; simpl. rewrite E. destruct n; reflexivity.
Qed.

Lemma index_in_parent_eq cfg doc f p i j : canonical doc f -> fr_indices f = p ++ [(i, j)] ->
  index_in_parent cfg f = Ok (Some j).
Proof.
  intros _ E. unfold index_in_parent. rewrite E, app_length. simpl.
  unfold usub. replace (1 <=? length p + 1) with true by lia. simpl.
  replace (length p + 1 - 1) with (length p) by lia. rewrite nth_error_middle. reflexivity.
Qed.

(** ** Positions and ranges *)
Definition good_pos (doc : InputRow) (p : InputRowPosition) : Prop :=
  canonical doc (pos_focus p) /\ pos_offset p <= length (fr_row (pos_focus p)).
Definition good_range (doc : InputRow) (r : InputRowRange) : Prop :=
  canonical doc (rg_focus r) /\ rg_start r <= length (fr_row (rg_focus r)) /\
  rg_end r <= length (fr_row (rg_focus r)).

Lemma pos_new_ok f o : o <= length (fr_row f) -> pos_new f o = Ok (mkPos f o).
Proof. intros H. unfold pos_new. replace (o <=? _) with true by lia. reflexivity. Qed.
Lemma pos_new_inv f o p : pos_new f o = Ok p -> p = mkPos f o /\ o <= length (fr_row f).
Proof. unfold pos_new. intros H. bind_inv. split; [reflexivity|lia]. Qed.

Lemma range_new_ok f s e : s <= length (fr_row f) -> e <= length (fr_row f) ->
  range_new f s e = Ok (mkRange f s e).
Proof. intros. unfold range_new. replace (s <=? _) with true by lia. replace (e <=? _) with true by lia. reflexivity. Qed.
Lemma range_new_inv f s e r : range_new f s e = Ok r ->
  r = mkRange f s e /\ s <= length (fr_row f) /\ e <= length (fr_row f).
Proof. unfold range_new. intros H. bind_inv. repeat split; lia. Qed.

Lemma pos_from_minimal_inv doc m p : pos_from_minimal (from_root doc) m = Ok p ->
  good_pos doc p /\ pos_to_minimal p = m.
Proof.
  unfold pos_from_minimal. intros H. bind_inv. apply pos_new_inv in H as [-> Ho].
  apply walk_canonical in E as (Hc&Hi&Hr). split; [split; auto|].
  unfold pos_to_minimal, pos_indices; simpl. rewrite Hi. now destruct m.
Qed.

Lemma pos_from_minimal_ok doc m : wf_row doc -> valid_pos doc m ->
  exists p, pos_from_minimal (from_root doc) m = Ok p.
Proof.
  intros Hwf (row&Hr&Ho).
  destruct (walk_exists (f := from_root doc) Hwf Hr) as [f Hf].
  exists (mkPos f (mp_offset m)). unfold pos_from_minimal. rewrite Hf. simpl.
  apply walk_canonical in Hf as (_&_&Hf). rewrite Hr in Hf. injection Hf as ->.
  now apply pos_new_ok.
Qed.

Lemma good_pos_valid doc p : good_pos doc p -> valid_pos doc (pos_to_minimal p).
Proof. intros [Hc Ho]. exists (fr_row (pos_focus p)). split; auto. now apply canonical_row. Qed.

Lemma good_pos_from_minimal doc p : good_pos doc p ->
  pos_from_minimal (from_root doc) (pos_to_minimal p) = Ok p.
Proof.
  intros [Hc Ho]. unfold pos_from_minimal. simpl. unfold pos_indices. rewrite Hc. simpl.
  rewrite pos_new_ok by auto. now destruct p.
Qed.

Lemma pos_from_minimal_iff doc m : wf_row doc ->
  (exists p, pos_from_minimal (from_root doc) m = Ok p) <-> valid_pos doc m.
Proof.
  intros Hwf. split.
  - intros [p H]. apply pos_from_minimal_inv in H as [H <-]. now apply good_pos_valid.
  - now apply pos_from_minimal_ok.
Qed.

Lemma rg_from_minimal_inv doc m r : rg_from_minimal (from_root doc) m = Ok r ->
  good_range doc r /\ rg_to_minimal r = m.
Proof.
  unfold rg_from_minimal. intros H. bind_inv. apply range_new_inv in H as (->&Hs&He).
  apply walk_canonical in E as (Hc&Hi&Hr). split; [repeat split; auto|].
  unfold rg_to_minimal, rg_indices; simpl. rewrite Hi. now destruct m.
Qed.
Lemma rg_from_minimal_ok doc m : wf_row doc -> valid_range doc m ->
  exists r, rg_from_minimal (from_root doc) m = Ok r.
Proof.
  intros Hwf (row&Hr&Hs&He).
  destruct (walk_exists (f := from_root doc) Hwf Hr) as [f Hf].
  exists (mkRange f (mr_start m) (mr_end m)). unfold rg_from_minimal. rewrite Hf. simpl.
  apply walk_canonical in Hf as (_&_&Hf). rewrite Hr in Hf. injection Hf as ->.
  now apply range_new_ok.
Qed.
Lemma good_range_valid doc r : good_range doc r -> valid_range doc (rg_to_minimal r).
Proof. intros (Hc&Hs&He). exists (fr_row (rg_focus r)). split; auto. now apply canonical_row. Qed.
Lemma good_range_from_minimal doc r : good_range doc r ->
  rg_from_minimal (from_root doc) (rg_to_minimal r) = Ok r.
Proof.
  intros (Hc&Hs&He). unfold rg_from_minimal. simpl. unfold rg_indices. rewrite Hc. simpl.
  rewrite range_new_ok by auto. now destruct r.
Qed.
