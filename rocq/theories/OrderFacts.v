(** The order of caret positions, the enumeration of all positions, and the
    smallest range around two positions. *)
From Verif Require Import Base Str Grid Node Focus Edit Spec BaseFacts TreeFacts.
From Coq Require Import Sorting.Sorted.
Set Implicit Arguments.
Unset Strict Implicit.

(** ** Recursive characterisation of the comparison *)
Lemma cmp_here a b : minpos_cmp (here a) (here b) = Nat.compare a b.
Proof.
  unfold minpos_cmp, cmp_indices_and_offset; simpl.
  destruct (Nat.compare_spec a b); subst;
    [apply Nat.compare_eq_iff | apply Nat.compare_lt_iff | apply Nat.compare_gt_iff]; lia.
Qed.
Lemma cmp_here_below o x q : minpos_cmp (here o) (below x q) = if o <=? fst x then Lt else Gt.
Proof.
  unfold minpos_cmp, cmp_indices_and_offset; simpl.
  destruct (o <=? fst x) eqn:E; [apply Nat.compare_lt_iff | apply Nat.compare_gt_iff]; lia.
Qed.
Lemma cmp_below_here o x q : minpos_cmp (below x q) (here o) = if o <=? fst x then Gt else Lt.
Proof.
  unfold minpos_cmp, cmp_indices_and_offset; simpl.
  destruct (o <=? fst x) eqn:E; [apply Nat.compare_gt_iff | apply Nat.compare_lt_iff]; lia.
Qed.
Lemma cmp_below x p y q : minpos_cmp (below x p) (below y q) =
  match rowindex_cmp x y with Eq => minpos_cmp p q | c => c end.
Proof. unfold minpos_cmp, cmp_indices_and_offset; simpl. destruct (rowindex_cmp x y); reflexivity. Qed.

Lemma pos_cases p : p = here (mp_offset p) \/ exists x q, p = below x q.
Proof.
  destruct p as [[|x path] o]; [left; reflexivity|].
  right. exists x, (mkMinPos path o). reflexivity.
Qed.

(** Induction over the path of a position. *)
Lemma pos_ind (P : MinPos -> Prop) :
  (forall o, P (here o)) -> (forall x p, P p -> P (below x p)) -> forall p, P p.
Proof.
  intros H0 H1 [path o]. induction path as [|x path IH]; [apply H0|]. apply (H1 x _ IH).
Qed.

Lemma rowindex_cmp_refl x : rowindex_cmp x x = Eq.
Proof. unfold rowindex_cmp. now rewrite !Nat.compare_refl. Qed.
Lemma rowindex_cmp_eq x y : rowindex_cmp x y = Eq <-> x = y.
Proof.
  split; [|intros ->; apply rowindex_cmp_refl].
  destruct x as [a b], y as [c d]. unfold rowindex_cmp; simpl.
  destruct (Nat.compare_spec a c); try discriminate. subst.
  intros H. apply Nat.compare_eq_iff in H. now subst.
Qed.
Lemma rowindex_cmp_lt x y : rowindex_cmp x y = Lt <-> fst x < fst y \/ (fst x = fst y /\ snd x < snd y).
Proof.
  destruct x as [a b], y as [c d]. unfold rowindex_cmp; simpl.
  destruct (Nat.compare_spec a c); rewrite ?Nat.compare_lt_iff; try (split; [discriminate|lia]); split; try lia; auto.
Qed.
Lemma rowindex_cmp_gt x y : rowindex_cmp x y = Gt <-> fst y < fst x \/ (fst x = fst y /\ snd y < snd x).
Proof.
  destruct x as [a b], y as [c d]. unfold rowindex_cmp; simpl.
  destruct (Nat.compare_spec a c); rewrite ?Nat.compare_gt_iff; try (split; [discriminate|lia]); split; try lia; auto.
Qed.
Lemma rowindex_cmp_opp x y : rowindex_cmp y x = CompOpp (rowindex_cmp x y).
Proof.
  unfold rowindex_cmp. rewrite (Nat.compare_antisym (fst x)), (Nat.compare_antisym (snd x)).
  destruct (fst x ?= fst y); reflexivity.
Qed.

(** ** It is a total order *)
Lemma cmp_refl p : minpos_cmp p p = Eq.
Proof.
  induction p using pos_ind.
  - rewrite cmp_here. apply Nat.compare_refl.
  - now rewrite cmp_below, rowindex_cmp_refl.
Qed.

Lemma cmp_eq p q : minpos_cmp p q = Eq <-> p = q.
Proof.
  split; [|intros ->; apply cmp_refl].
  revert q; induction p as [o|x p IH] using pos_ind; intros q; destruct (pos_cases q) as [E|(y&q'&E)]; rewrite E.
  - rewrite cmp_here. intros H. apply Nat.compare_eq_iff in H. now rewrite H.
  - rewrite cmp_here_below. destruct (_ <=? _); discriminate.
  - rewrite cmp_below_here. destruct (_ <=? _); discriminate.
  - rewrite cmp_below. destruct (rowindex_cmp x y) eqn:Exy; try discriminate.
    intros H. apply rowindex_cmp_eq in Exy as ->. now rewrite (IH q').
Qed.

Lemma cmp_opp p q : minpos_cmp q p = CompOpp (minpos_cmp p q).
Proof.
  revert q; induction p as [o|x p IH] using pos_ind; intros q; destruct (pos_cases q) as [E|(y&q'&E)]; rewrite E.
  - rewrite !cmp_here. apply Nat.compare_antisym.
  - rewrite cmp_here_below, cmp_below_here. now destruct (_ <=? _).
  - rewrite cmp_here_below, cmp_below_here. now destruct (_ <=? _).
  - rewrite !cmp_below, (rowindex_cmp_opp x y), IH. now destruct (rowindex_cmp x y).
Qed.

Lemma cmp_lt_trans p q r : minpos_cmp p q = Lt -> minpos_cmp q r = Lt -> minpos_cmp p r = Lt.
Proof.
  revert q r; induction p as [o|x p IH] using pos_ind; intros q r;
    destruct (pos_cases q) as [E|(y&q'&E)]; rewrite E; clear E;
    destruct (pos_cases r) as [E|(z&r'&E)]; rewrite E; clear E;
    rewrite ?cmp_here, ?cmp_here_below, ?cmp_below_here, ?cmp_below, ?Nat.compare_lt_iff;
    repeat match goal with |- context [if ?b then _ else _] => destruct b eqn:? end;
    try discriminate; try lia; auto.
  - (* here, below, below *)
    destruct (rowindex_cmp y z) eqn:Eyz; try discriminate.
    + apply rowindex_cmp_eq in Eyz. subst. lia.
    + apply rowindex_cmp_lt in Eyz. lia.
  - destruct (rowindex_cmp x z) eqn:Exz; auto.
    + apply rowindex_cmp_eq in Exz. subst. lia.
    + apply rowindex_cmp_gt in Exz. lia.
  - destruct (rowindex_cmp x y) eqn:Exy; try discriminate.
    + apply rowindex_cmp_eq in Exy. subst. lia.
    + apply rowindex_cmp_lt in Exy. lia.
  - destruct (rowindex_cmp x y) eqn:Exy; try discriminate.
    + apply rowindex_cmp_eq in Exy. subst y. destruct (rowindex_cmp x z); try discriminate; eauto.
    + intros _. apply rowindex_cmp_lt in Exy.
      destruct (rowindex_cmp y z) eqn:Eyz; try discriminate.
      * intros _. apply rowindex_cmp_eq in Eyz. subst z.
        apply rowindex_cmp_lt in Exy. now rewrite Exy.
      * intros _. apply rowindex_cmp_lt in Eyz.
        assert (H : rowindex_cmp x z = Lt) by (apply rowindex_cmp_lt; lia). now rewrite H.
Qed.

Lemma cmp_lt_irrefl p : minpos_cmp p p <> Lt.
Proof. rewrite cmp_refl. discriminate. Qed.

Lemma is_le_iff p q : is_le (minpos_cmp p q) = true <-> minpos_cmp p q = Lt \/ p = q.
Proof.
  destruct (minpos_cmp p q) eqn:E; simpl.
  - apply cmp_eq in E. tauto.
  - tauto.
  - split; [discriminate|]. intros [H| ->]; [discriminate|]. rewrite cmp_refl in E. discriminate.
Qed.

(** ** The enumeration of positions *)
Fixpoint cells_positions (i j : nat) (cells : list InputRow) : list MinPos :=
  match cells with
  | [] => []
  | cell :: cells => map (below (i, j)) (positions cell) ++ cells_positions i (S j) cells
  end.

Lemma node_positions_container i v cells w :
  node_positions i (Container v (mkGrid cells w)) = cells_positions i 0 cells.
Proof.
  simpl. generalize 0 at 3 4. induction cells as [|c cells IH]; intros j; [reflexivity|].
  simpl. rewrite IH. reflexivity.
Qed.

(** Membership *)
Lemma in_cells_positions i j cells p : In p (cells_positions i j cells) <->
  exists k cell q, nth_error cells k = Some cell /\ In q (positions cell) /\ p = below (i, j + k) q.
Proof.
  revert j; induction cells as [|c cells IH]; intros j; simpl.
  - split; [tauto|]. intros (k&cell&q&H&_); destruct k; discriminate.
  - assert (E : In p (below (i, j) (here 0) :: map (below (i, j)) (nodes_positions 0 c) ++ cells_positions i (S j) cells)
       <-> In p (map (below (i, j)) (positions c)) \/ In p (cells_positions i (S j) cells)).
    { unfold positions. simpl. rewrite in_app_iff. tauto. }
    rewrite E, in_map_iff, IH. clear E. split.
    + intros [(q&<-&Hq)|(k&cell&q&Hk&Hq&->)].
      * exists 0, c, q. rewrite Nat.add_0_r. auto.
      * exists (S k), cell, q. replace (j + S k) with (S j + k) by lia. auto.
    + intros (k&cell&q&Hk&Hq&->); destruct k; simpl in Hk.
      * left. inv Hk. exists q. rewrite Nat.add_0_r. auto.
      * right. exists k, cell, q. replace (j + S k) with (S j + k) by lia. auto.
Qed.

Lemma in_nodes_positions k nodes p : In p (nodes_positions k nodes) <->
  (exists o, p = here o /\ k < o <= k + length nodes) \/
  (exists i v g cell j q, nth_error nodes i = Some (Container v g) /\ nth_error (gvalues g) j = Some cell /\
     In q (positions cell) /\ p = below (k + i, j) q).
Proof.
  revert k; induction nodes as [|n nodes IH]; intros k.
  - simpl. split; [tauto|]. intros [(o&_&H)|(i&v&g&cell&j&q&H&_)]; [lia|destruct i; discriminate].
  - simpl nodes_positions. rewrite in_app_iff. simpl In. rewrite IH.
    assert (En : In p (node_positions k n) <-> exists v g cell j q, n = Container v g /\
       nth_error (gvalues g) j = Some cell /\ In q (positions cell) /\ p = below (k, j) q).
    { destruct n as [v [cells w]|s].
      - rewrite node_positions_container, in_cells_positions. split.
        + intros (j&cell&q&H&Hq&->). exists v, (mkGrid cells w), cell, j, q. auto.
        + intros (v'&g&cell&j&q&Hn&H&Hq&->). inv Hn. exists j, cell, q. auto.
      - simpl. split; [tauto|]. intros (v&g&cell&j&q&Hn&_). discriminate. }
    rewrite En. split.
    + intros [(v&g&cell&j&q&->&Hj&Hq&->)|[<-|[(o&->&Ho)|(i&v&g&cell&j&q&Hi&Hj&Hq&->)]]].
      * right. exists 0, v, g, cell, j, q. rewrite Nat.add_0_r. auto.
      * left. exists (S k). simpl. split; [reflexivity|lia].
      * left. exists o. simpl. split; [reflexivity|lia].
      * right. exists (S i), v, g, cell, j, q. replace (k + S i) with (S k + i) by lia. auto.
    + intros [(o&->&Ho)|(i&v&g&cell&j&q&Hi&Hj&Hq&->)]; [|destruct i]; simpl in *.
      * destruct (Nat.eq_dec o (S k)) as [->|Hne]; [right; left; reflexivity|].
        right. right. left. exists o. split; [reflexivity|lia].
      * inv Hi. left. exists v, g, cell, j, q. rewrite Nat.add_0_r. auto.
      * right. right. right. exists i, v, g, cell, j, q. replace (k + S i) with (S k + i) by lia. auto.
Qed.

Lemma in_positions doc p : In p (positions doc) <->
  (exists o, p = here o /\ o <= length doc) \/
  (exists i v g cell j q, nth_error doc i = Some (Container v g) /\ nth_error (gvalues g) j = Some cell /\
     In q (positions cell) /\ p = below (i, j) q).
Proof.
  unfold positions at 1. simpl In. rewrite in_nodes_positions. split.
  - intros [<-|[(o&->&Ho)|H]]; [left; exists 0; split; [reflexivity|lia] | left; exists o; split; [reflexivity|lia] | right; exact H].
  - intros [(o&->&Ho)|H]; [|tauto].
    destruct o; [tauto|]. right. left. exists (S o). split; [reflexivity|lia].
Qed.

Lemma in_positions_valid doc p : In p (positions doc) <-> valid_pos doc p.
Proof.
  revert doc; induction p as [o|[i j] p IH] using pos_ind; intros doc; rewrite in_positions; unfold valid_pos; simpl.
  - split.
    + intros [(o'&H&Ho)|(i&v&g&cell&j&q&_&_&_&H)]; [|discriminate]. inv H. eauto.
    + intros (row&H&Ho). inv H. left. eauto.
  - split.
    + intros [(o&H&_)|(i'&v&g&cell&j'&q&Hi&Hj&Hq&H)]; [discriminate|].
      assert (p = q /\ i' = i /\ j' = j) as (->&->&->).
      { destruct p, q. unfold below in H. simpl in H. inv H. auto. }
      rewrite Hi, Hj. now apply IH in Hq.
    + intros (row&H&Ho).
      destruct (nth_error doc i) as [[v g|s]|] eqn:En; try discriminate.
      destruct (nth_error (gvalues g) j) as [c|] eqn:Ec; try discriminate.
      right. exists i, v, g, c, j, p. repeat split; auto. apply IH. exists row. auto.
Qed.

(** Sortedness *)
Definition pos_lt (a b : MinPos) : Prop := minpos_cmp a b = Lt.

Lemma sorted_app A (R : A -> A -> Prop) l1 l2 : StronglySorted R l1 -> StronglySorted R l2 ->
  (forall a b, In a l1 -> In b l2 -> R a b) -> StronglySorted R (l1 ++ l2).
Proof.
  induction l1 as [|x l1 IH]; simpl; intros H1 H2 H; auto.
  inv H1. constructor; [apply IH; auto|].
  apply Forall_app. split; auto. apply Forall_forall. auto.
Qed.
Lemma sorted_map A B (R : A -> A -> Prop) (S : B -> B -> Prop) (f : A -> B) l :
  (forall a b, R a b -> S (f a) (f b)) -> StronglySorted R l -> StronglySorted S (map f l).
Proof.
  intros Hf. induction 1; simpl; constructor; auto.
  apply Forall_map. eapply Forall_impl; [|eassumption]. auto.
Qed.

Lemma sorted_positions_of doc :
  (forall i v g, nth_error doc i = Some (Container v g) ->
     forall cell, In cell (gvalues g) -> StronglySorted pos_lt (positions cell)) ->
  StronglySorted pos_lt (positions doc).
Proof.
  intros H. unfold positions. constructor.
  2:{ apply Forall_forall. intros p Hp. apply in_nodes_positions in Hp as [(o&->&Ho)|(i&v&g&cell&j&q&_&_&_&->)].
      - unfold pos_lt. rewrite cmp_here. apply Nat.compare_lt_iff. lia.
      - unfold pos_lt. now rewrite cmp_here_below. }
  generalize 0 as k. revert H. induction doc as [|n doc IH]; intros H k; simpl; [constructor|].
  apply sorted_app.
  - destruct n as [v [cells w]|s]; [|constructor].
    rewrite node_positions_container.
    specialize (H 0 v (mkGrid cells w) eq_refl). simpl in H. revert H. generalize 0 as j.
    induction cells as [|c cells IHc]; intros j H; [constructor|].
    change (cells_positions k j (c :: cells)) with (map (below (k, j)) (positions c) ++ cells_positions k (S j) cells).
    apply sorted_app.
    + eapply sorted_map; [|apply H; left; reflexivity].
      intros a b Hab. unfold pos_lt. now rewrite cmp_below, rowindex_cmp_refl.
    + apply IHc. intros c' Hc'. apply H. now right.
    + intros a b Ha Hb. apply in_map_iff in Ha as (q&<-&_).
      apply in_cells_positions in Hb as (m&cell&q'&_&_&->).
      unfold pos_lt. rewrite cmp_below.
      assert (E : rowindex_cmp (k, j) (k, S j + m) = Lt) by (apply rowindex_cmp_lt; simpl; lia).
      now rewrite E.
  - constructor; [apply IH; intros i v g Hi; apply (H (S i) v g Hi)|].
    apply Forall_forall. intros p Hp. apply in_nodes_positions in Hp as [(o&->&Ho)|(i&v&g&cell&j&q&_&_&_&->)].
    + unfold pos_lt. rewrite cmp_here. apply Nat.compare_lt_iff. lia.
    + unfold pos_lt. rewrite cmp_here_below. destruct (_ <=? _) eqn:Hle; [reflexivity|]. cbn [fst] in Hle. lia.
  - intros a b Ha Hb.
    assert (exists j q, a = below (k, j) q) as (j&q&->).
    { destruct n as [v [cells w]|s]; [|destruct Ha].
      rewrite node_positions_container in Ha. apply in_cells_positions in Ha as (m&cell&q&_&_&->). eauto. }
    destruct Hb as [<-|Hb].
    + unfold pos_lt. rewrite cmp_below_here. destruct (_ <=? _) eqn:Hle; [|reflexivity]. cbn [fst] in Hle. lia.
    + apply in_nodes_positions in Hb as [(o&->&Ho)|(i&v&g&cell&j'&q'&_&_&_&->)]; unfold pos_lt.
      * rewrite cmp_below_here. simpl. destruct (o <=? k) eqn:?; [lia|reflexivity].
      * rewrite cmp_below.
        assert (E : rowindex_cmp (k, j) (S k + i, j') = Lt) by (apply rowindex_cmp_lt; simpl; lia).
        now rewrite E.
Qed.

Lemma sorted_positions doc : StronglySorted pos_lt (positions doc).
Proof.
  apply sorted_positions_of. intros i v g Hi.
  assert (Hn : forall n, match n with
     | Symbol _ => True
     | Container _ g => forall cell, In cell (gvalues g) -> StronglySorted pos_lt (positions cell) end).
  { clear. induction n as [s|v cells w IH] using node_ind'; [exact I|].
    simpl. intros cell Hc. apply sorted_positions_of. intros i v' g Hi.
    exact (IH cell Hc _ (nth_error_In _ _ Hi)). }
  exact (Hn (Container v g)).
Qed.

Lemma sorted_NoDup l : StronglySorted pos_lt l -> NoDup l.
Proof.
  induction 1 as [|a l _ IH H]; constructor; auto.
  intros Ha. rewrite Forall_forall in H. apply H in Ha. now apply cmp_lt_irrefl in Ha.
Qed.
Lemma positions_NoDup doc : NoDup (positions doc).
Proof. apply sorted_NoDup, sorted_positions. Qed.

Lemma sorted_before l a b : StronglySorted pos_lt l -> before_in l a b -> pos_lt a b.
Proof.
  intros H (l1&l2&l3&->). induction l1 as [|x l1 IH]; simpl in H; inv H; auto.
  rewrite Forall_forall in H3. apply H3. apply in_or_app. right. now left.
Qed.
Lemma before_total A (l : list A) a b : In a l -> In b l -> a <> b -> before_in l a b \/ before_in l b a.
Proof.
  intros Ha Hb Hne. apply in_split in Ha as (l1&l2&->).
  apply in_app_or in Hb as [Hb|[->|Hb]]; [|congruence|].
  - right. apply in_split in Hb as (m1&m2&->). exists m1, m2, l2. now rewrite <- app_assoc.
  - left. apply in_split in Hb as (m1&m2&->). exists l1, m1, m2. reflexivity.
Qed.

Lemma reading_order doc a b : valid_pos doc a -> valid_pos doc b ->
  (minpos_cmp a b = Lt <-> before_in (positions doc) a b).
Proof.
  intros Ha Hb. split.
  - intros H. apply in_positions_valid in Ha, Hb.
    destruct (before_total Ha Hb) as [Hab|Hba]; auto.
    + intros ->. now apply cmp_lt_irrefl in H.
    + apply sorted_before in Hba; [|apply sorted_positions].
      exfalso. apply (@cmp_lt_irrefl a). eapply cmp_lt_trans; eauto.
  - apply sorted_before, sorted_positions.
Qed.

(** ** The smallest range around two positions *)
Lemma get_shared_nil_r a : get_shared a [] = [].
Proof. destruct a; reflexivity. Qed.

(** [range_from_positions] at the level of paths. *)
Definition span (a b : MinPos) : MinRange :=
  let shared := get_shared (mp_row a) (mp_row b) in
  let fwd := is_le (minpos_cmp a b) in
  mkMinRange shared
    (match nth_error (mp_row a) (length shared) with
     | Some i => if fwd then fst i else fst i + 1
     | None => mp_offset a
     end)
    (match nth_error (mp_row b) (length shared) with
     | Some i => if fwd then fst i + 1 else fst i
     | None => mp_offset b
     end).

Lemma span_below x a b : span (below x a) (below x b) =
  mkMinRange (x :: mr_row (span a b)) (mr_start (span a b)) (mr_end (span a b)).
Proof.
  unfold span. rewrite cmp_below, rowindex_cmp_refl. simpl.
  now rewrite (proj2 (rowindex_eqb_eq x x) eq_refl).
Qed.
Lemma span_here_here o o' : span (here o) (here o') = mkMinRange [] o o'.
Proof. reflexivity. Qed.
Lemma span_here_below o x b : span (here o) (below x b) =
  mkMinRange [] o (if o <=? fst x then fst x + 1 else fst x).
Proof. unfold span. rewrite cmp_here_below. simpl. now destruct (o <=? fst x). Qed.
Lemma span_below_here o x b : span (below x b) (here o) =
  mkMinRange [] (if o <=? fst x then fst x + 1 else fst x) o.
Proof. unfold span. rewrite cmp_below_here. simpl. now destruct (o <=? fst x). Qed.
Lemma span_diff x y a b : x <> y -> span (below x a) (below y b) =
  match rowindex_cmp x y with
  | Gt => mkMinRange [] (fst x + 1) (fst y)
  | _ => mkMinRange [] (fst x) (fst y + 1)
  end.
Proof.
  intros Hne. unfold span. rewrite cmp_below. simpl.
  assert (E : rowindex_eqb x y = false).
  { destruct (rowindex_eqb x y) eqn:E; auto. apply rowindex_eqb_eq in E. contradiction. }
  rewrite E. simpl. destruct (rowindex_cmp x y) eqn:Exy; simpl; auto.
  apply rowindex_cmp_eq in Exy. contradiction.
Qed.

Lemma range_from_positions_span doc a b : wf_row doc -> good_pos doc a -> good_pos doc b ->
  exists f, canonical doc f /\
    range_from_positions doc a b =
      range_new f (mr_start (span (pos_to_minimal a) (pos_to_minimal b)))
                  (mr_end (span (pos_to_minimal a) (pos_to_minimal b))) /\
    fr_indices f = mr_row (span (pos_to_minimal a) (pos_to_minimal b)).
Proof.
  intros Hwf Ha Hb. pose proof (good_pos_valid Ha) as (ra&Hra&_). simpl in Hra.
  unfold range_from_positions.
  assert (exists q, pos_indices a = get_shared (pos_indices a) (pos_indices b) ++ q) as [q Hq].
  { generalize (pos_indices a) (pos_indices b). clear. intros p.
    induction p as [|x p IH]; intros [|y p']; simpl; eauto.
    destruct (rowindex_eqb x y); simpl; eauto.
    destruct (IH p') as [q Hq]. exists q. now rewrite <- Hq. }
  assert (exists row, row_get doc (get_shared (pos_indices a) (pos_indices b)) = Some row) as [row Hrow].
  { rewrite Hq, row_get_app in Hra. destruct (row_get doc _); [eauto|discriminate]. }
  destruct (walk_exists (f := from_root doc) Hwf Hrow) as [f Hf].
  exists f. rewrite Hf. simpl. apply walk_canonical in Hf as (Hc&Hi&_).
  repeat split; auto.
Qed.

(** The span is valid and contains both positions. *)

Lemma valid_pos_below doc i j p : valid_pos doc (below (i, j) p) <->
  exists v g cell, nth_error doc i = Some (Container v g) /\ nth_error (gvalues g) j = Some cell /\ valid_pos cell p.
Proof.
  unfold valid_pos; simpl. split.
  - intros (row&H&Ho). destruct (nth_error doc i) as [[v g|s]|]; try discriminate.
    destruct (nth_error (gvalues g) j) as [c|] eqn:Ec; try discriminate.
    exists v, g, c. repeat split; auto. exists row. auto.
  - intros (v&g&c&->&->&row&H&Ho). eauto.
Qed.
Lemma valid_pos_here doc o : valid_pos doc (here o) <-> o <= length doc.
Proof. unfold valid_pos; simpl. split; [intros (r&H&Ho); now inv H|]. intros; eauto. Qed.

Lemma span_valid doc a b : valid_pos doc a -> valid_pos doc b -> valid_range doc (span a b).
Proof.
  revert doc b; induction a as [o|x a IH] using pos_ind; intros doc b; destruct (pos_cases b) as [E|(y&b'&E)]; rewrite E; clear E.
  - rewrite !valid_pos_here, span_here_here. intros. exists doc. auto.
  - destruct y as [i j]. rewrite valid_pos_here, valid_pos_below, span_here_below. intros Ho (v&g&c&Hi&_&_).
    apply nth_error_Some_lt in Hi. exists doc. simpl. repeat split; auto. destruct (_ <=? _); lia.
  - destruct x as [i j]. rewrite valid_pos_here, valid_pos_below, span_below_here. intros (v&g&c&Hi&_&_) Ho.
    apply nth_error_Some_lt in Hi. exists doc. simpl. repeat split; auto. destruct (_ <=? _); lia.
  - destruct (rowindex_eq_dec x y) as [<-|Hne].
    + rewrite span_below. destruct x as [i j]. rewrite !valid_pos_below.
      intros (v&g&c&Hi&Hj&Ha) (v'&g'&c'&Hi'&Hj'&Hb).
      rewrite Hi in Hi'. inv Hi'. rewrite Hj in Hj'. inv Hj'.
      destruct (IH c' b' Ha Hb) as (row&Hr&Hs&He). exists row. simpl. rewrite Hi, Hj. auto.
    + rewrite span_diff by auto. destruct x as [i j], y as [i' j']. rewrite !valid_pos_below.
      intros (v&g&c&Hi&_&_) (v'&g'&c'&Hi'&_&_).
      apply nth_error_Some_lt in Hi, Hi'. exists doc. destruct (rowindex_cmp _ _); simpl; repeat split; lia.
Qed.

Lemma pos_le_here a b : pos_le (here a) (here b) <-> a <= b.
Proof.
  unfold pos_le. rewrite cmp_here, Nat.compare_lt_iff. split.
  - intros [H|H]; [lia|]. inv H. lia.
  - intros H. destruct (Nat.eq_dec a b) as [->|]; [now right|left; lia].
Qed.
Lemma pos_le_here_below o x p : pos_le (here o) (below x p) <-> o <= fst x.
Proof.
  unfold pos_le. rewrite cmp_here_below. destruct (o <=? fst x) eqn:E; split; intros; try lia; auto.
  destruct H; discriminate.
Qed.
Lemma pos_le_below_here o x p : pos_le (below x p) (here o) <-> fst x < o.
Proof.
  unfold pos_le. rewrite cmp_below_here. destruct (o <=? fst x) eqn:E; split; intros; try lia; auto.
  destruct H; discriminate.
Qed.
Lemma below_inj x p y q : below x p = below y q -> x = y /\ p = q.
Proof. destruct p, q. unfold below; simpl. intros H. inv H. auto. Qed.
Lemma pos_le_below x p q : pos_le (below x p) (below x q) <-> pos_le p q.
Proof.
  unfold pos_le. rewrite cmp_below, rowindex_cmp_refl. split; intros [H|H]; auto.
  - apply below_inj in H as [_ ->]. auto.
  - subst. auto.
Qed.
Lemma pos_le_below_diff x y p q : x <> y -> (pos_le (below x p) (below y q) <-> rowindex_cmp x y = Lt).
Proof.
  intros Hne. unfold pos_le. rewrite cmp_below. split.
  - intros [H|H]; [|apply below_inj in H as [? _]; contradiction].
    destruct (rowindex_cmp x y) eqn:E; auto. apply rowindex_cmp_eq in E. contradiction.
  - intros ->. auto.
Qed.

Lemma range_left_here s e : range_left (mkMinRange [] s e) = here (Nat.min s e).
Proof. reflexivity. Qed.
Lemma range_right_here s e : range_right (mkMinRange [] s e) = here (Nat.max s e).
Proof. reflexivity. Qed.
Lemma range_left_below x p s e : range_left (mkMinRange (x :: p) s e) = below x (range_left (mkMinRange p s e)).
Proof. reflexivity. Qed.
Lemma range_right_below x p s e : range_right (mkMinRange (x :: p) s e) = below x (range_right (mkMinRange p s e)).
Proof. reflexivity. Qed.
Lemma range_eta r : mkMinRange (mr_row r) (mr_start r) (mr_end r) = r.
Proof. now destruct r. Qed.

Lemma span_contains a b : pos_in_range a (span a b) /\ pos_in_range b (span a b).
Proof.
  revert b; induction a as [o|x a IH] using pos_ind; intros b; destruct (pos_cases b) as [E|(y&b'&E)]; rewrite E; clear E; unfold pos_in_range.
  - rewrite span_here_here, range_left_here, range_right_here, !pos_le_here. lia.
  - rewrite span_here_below, range_left_here, range_right_here, !pos_le_here, pos_le_here_below, pos_le_below_here.
    destruct (_ <=? _) eqn:?; lia.
  - rewrite span_below_here, range_left_here, range_right_here, !pos_le_here, pos_le_here_below, pos_le_below_here.
    destruct (_ <=? _) eqn:?; lia.
  - destruct (rowindex_eq_dec x y) as [<-|Hne].
    + rewrite span_below, range_left_below, range_right_below, range_eta, !pos_le_below. apply IH.
    + rewrite span_diff by auto. destruct (rowindex_cmp x y) eqn:E;
        rewrite range_left_here, range_right_here, !pos_le_here_below, !pos_le_below_here.
      * apply rowindex_cmp_eq in E. contradiction.
      * apply rowindex_cmp_lt in E. lia.
      * apply rowindex_cmp_gt in E. lia.
Qed.

Lemma span_minimal a b r : pos_in_range a r -> pos_in_range b r ->
  pos_le (range_left r) (range_left (span a b)) /\ pos_le (range_right (span a b)) (range_right r).
Proof.
  revert b r; induction a as [o|x a IH] using pos_ind; intros b [[|z p] s e];
    destruct (pos_cases b) as [E|(y&b'&E)]; rewrite E; clear E; unfold pos_in_range;
    rewrite ?range_left_here, ?range_right_here, ?range_left_below, ?range_right_below.
  - rewrite span_here_here, range_left_here, range_right_here, !pos_le_here. lia.
  - rewrite span_here_below, range_left_here, range_right_here, !pos_le_here, pos_le_here_below, pos_le_below_here.
    destruct (_ <=? _) eqn:?; lia.
  - rewrite !pos_le_below_here, !pos_le_here_below. lia.
  - rewrite !pos_le_below_here, !pos_le_here_below. lia.
  - rewrite span_below_here, range_left_here, range_right_here, !pos_le_here, pos_le_here_below, pos_le_below_here.
    destruct (_ <=? _) eqn:?; lia.
  - destruct (rowindex_eq_dec x y) as [<-|Hne].
    + rewrite span_below, range_left_below, range_right_below, !pos_le_here_below, !pos_le_below_here. lia.
    + rewrite span_diff by auto. destruct (rowindex_cmp x y) eqn:E;
        rewrite range_left_here, range_right_here, !pos_le_here_below, !pos_le_below_here, !pos_le_here.
      * apply rowindex_cmp_eq in E. contradiction.
      * apply rowindex_cmp_lt in E. lia.
      * apply rowindex_cmp_gt in E. lia.
  - rewrite (pos_le_below_here (mp_offset b)), (pos_le_here_below (mp_offset b)). lia.
  - assert (Hd : forall u q, pos_le (below z (range_left (mkMinRange p s e))) (below u q) /\ pos_le (below u q) (below z (range_right (mkMinRange p s e))) -> u = z).
    { intros u q [H1 H2]. destruct (rowindex_eq_dec u z) as [|Hne]; auto.
      rewrite pos_le_below_diff in H1, H2 by congruence.
      apply rowindex_cmp_lt in H1, H2. lia. }
    intros Ha Hb. apply Hd in Ha as Hx. apply Hd in Hb as Hy. subst x y.
    rewrite !pos_le_below in Ha, Hb. rewrite span_below, range_left_below, range_right_below, range_eta, !pos_le_below.
    now apply IH.
Qed.

Lemma span_swap a b : span b a = mkMinRange (mr_row (span a b)) (mr_end (span a b)) (mr_start (span a b)).
Proof.
  revert b; induction a as [o|x a IH] using pos_ind; intros b; destruct (pos_cases b) as [E|(y&b'&E)]; rewrite E; clear E.
  - reflexivity.
  - rewrite span_here_below, span_below_here. reflexivity.
  - rewrite span_here_below, span_below_here. reflexivity.
  - destruct (rowindex_eq_dec x y) as [<-|Hne].
    + rewrite !span_below, IH. reflexivity.
    + rewrite !span_diff by auto. rewrite (rowindex_cmp_opp x y).
      destruct (rowindex_cmp x y) eqn:E; try reflexivity. apply rowindex_cmp_eq in E. contradiction.
Qed.

(** The direction: forwards exactly if the first position comes first. *)
Lemma span_direction a b : pos_le a b -> mr_start (span a b) <= mr_end (span a b).
Proof.
  revert b; induction a as [o|x a IH] using pos_ind; intros b; destruct (pos_cases b) as [E|(y&b'&E)]; rewrite E; clear E.
  - now rewrite pos_le_here.
  - rewrite pos_le_here_below, span_here_below. simpl. destruct (_ <=? _) eqn:?; lia.
  - rewrite pos_le_below_here, span_below_here. simpl. destruct (_ <=? _) eqn:?; lia.
  - destruct (rowindex_eq_dec x y) as [<-|Hne].
    + rewrite span_below, pos_le_below. apply IH.
    + rewrite span_diff, pos_le_below_diff by auto. intros H. rewrite H.
      apply rowindex_cmp_lt in H. simpl. lia.
Qed.

Lemma range_from_positions_ok doc a b : wf_row doc -> good_pos doc a -> good_pos doc b ->
  exists r, range_from_positions doc a b = Ok r /\ good_range doc r /\
    rg_to_minimal r = span (pos_to_minimal a) (pos_to_minimal b).
Proof.
  intros Hwf Ha Hb. destruct (range_from_positions_span Hwf Ha Hb) as (f&Hc&E&Hi).
  pose proof (span_valid (good_pos_valid Ha) (good_pos_valid Hb)) as (row&Hr&Hs&He).
  pose proof (canonical_row Hc) as Hrow. rewrite Hi, Hr in Hrow. inv Hrow.
  rewrite E, range_new_ok by auto.
  eexists. split; [reflexivity|]. split; [repeat split; auto|].
  unfold rg_to_minimal, rg_indices; simpl. rewrite Hi. apply range_eta.
Qed.
