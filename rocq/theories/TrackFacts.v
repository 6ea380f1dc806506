(** Positions and ranges that follow edits. *)
From Verif Require Import Base Str Grid Node Focus Edit Spec SpecTrack BaseFacts TreeFacts OrderFacts EditFacts TreeProofs.
Set Implicit Arguments.
Unset Strict Implicit.

Lemma starts_with_prefix a b : indices_starts_with a b = true <-> prefix b a.
Proof.
  revert a; induction b as [|y b IH]; intros a.
  - split; [intros _; now exists a|]. now destruct a.
  - destruct a as [|x a]; [split; [discriminate|intros [s H]; discriminate]|].
    cbn [indices_starts_with]. rewrite andb_true_iff, rowindex_eqb_eq, IH. split.
    + intros [-> [s ->]]. now exists s.
    + intros [s H]. injection H as -> ->. split; auto. now exists s.
Qed.
Lemma prefix_refl p : prefix p p.
Proof. exists []. now rewrite app_nil_r. Qed.

(** ** The mapped offsets *)
Definition ins_pos (o n t : nat) := if o <? t then t + n else t.
Definition ins_end (o n t : nat) := if o <=? t then t + n else t.
Definition del_pos (o n t : nat) := if o <? t then Nat.max (t - n) o else t.
Definition left_map (e : RowEdit) := match re_type e with
  | Insert => ins_pos (mp_offset (re_pos e)) (length (re_values e))
  | Delete => del_pos (mp_offset (re_pos e)) (length (re_values e)) end.
Definition right_map (e : RowEdit) := match re_type e with
  | Insert => ins_end (mp_offset (re_pos e)) (length (re_values e))
  | Delete => del_pos (mp_offset (re_pos e)) (length (re_values e)) end.

Lemma map_same_row cfg e r : mp_row (re_pos e) = mr_row r ->
  range_apply_edit cfg r (ERow e) =
  Ok (if mr_start r <=? mr_end r then mkMinRange (mr_row r) (left_map e (mr_start r)) (right_map e (mr_end r))
      else mkMinRange (mr_row r) (right_map e (mr_start r)) (left_map e (mr_end r))).
Proof.
  intros Hr. destruct e as [t [p o] vs], r as [q s e]. cbn [re_pos mp_row mr_row mr_start mr_end] in *. subst q.
  unfold range_apply_edit, left_map, right_map, ins_pos, ins_end, del_pos.
  cbn [get_row_indices_edit row_get_row_indices_edit re_type re_pos re_values mp_row mp_offset mr_row mr_start mr_end bind].
  assert (Hs : indices_starts_with p p = true) by (apply starts_with_prefix, prefix_refl).
  assert (He : rowindices_eqb p p = true) by (apply rowindices_eqb_eq; reflexivity).
  destruct t; cbn [row_get_row_indices_edit re_type re_pos re_values mp_row mp_offset mr_row mr_start mr_end bind]; cbv beta iota zeta; rewrite Hs, He; cbn [negb].
  - replace (o + length vs <? o) with false by lia. cbn [andb negb bind].
    destruct (s <=? e); cbn [andb negb bind]; do 2 f_equal.
    + destruct (o <? s) eqn:E1; lia.
    + destruct (o <=? e) eqn:E1, (o <? e) eqn:E2; lia.
    + destruct (o <=? s) eqn:E1, (o <? s) eqn:E2; lia.
    + destruct (o <? e) eqn:E1; lia.
  - destruct (length vs) as [|n] eqn:El.
    + replace (o <? o + 0) with false by lia. cbn [andb negb bind].
      destruct (s <=? e); cbn [andb negb bind]; do 2 f_equal.
      all: repeat match goal with |- context [if ?b then _ else _] => destruct b eqn:? end; lia.
    + replace (o <? o + S n) with true by lia. cbn [andb negb bind].
      destruct (s <=? e); cbn [andb negb bind]; do 2 f_equal.
      all: repeat match goal with |- context [if ?b then _ else _] => destruct b eqn:? end; lia.
Qed.

Lemma firstn_app_le A (l r : list A) n : n <= length l -> firstn n (l ++ r) = firstn n l.
Proof. intros H. rewrite firstn_app. replace (n - length l) with 0 by lia. simpl. now rewrite app_nil_r. Qed.
Lemma skipn_app_ge A (l r : list A) n : length l <= n -> skipn n (l ++ r) = skipn (n - length l) r.
Proof. intros H. rewrite skipn_app. rewrite skipn_all2 by auto. reflexivity. Qed.
Lemma firstn_firstn_le A (l : list A) n m : n <= m -> firstn n (firstn m l) = firstn n l.
Proof. intros H. rewrite firstn_firstn. f_equal. lia. Qed.
Lemma skipn_skipn' A (l : list A) n m : skipn n (skipn m l) = skipn (m + n) l.
Proof. revert l; induction m; intros l; simpl; auto. destruct l; auto. now rewrite skipn_nil. Qed.

Lemma ins_pos_spec (row vs : InputRow) o t : o <= length row -> t <= length row ->
  let row' := firstn o row ++ vs ++ skipn o row in let t' := ins_pos o (length vs) t in
  (t <= o -> same_left row t row' t') /\ (o < t -> same_right row t row' t').
Proof.
  intros Ho Ht row' t'. assert (Hl : length (firstn o row) = o) by (apply firstn_length_le; auto).
  assert (Hlen : length row' = length row + length vs).
  { unfold row'. rewrite !app_length, skipn_length. lia. }
  unfold t', ins_pos. split; intros H; (destruct (o <? t) eqn:E; try lia).
  - split; [lia|]. unfold row'. rewrite firstn_app_le by lia. apply firstn_firstn_le. auto.
  - split; [lia|]. unfold row'. rewrite skipn_app_ge by lia. rewrite skipn_app_ge by lia.
    rewrite skipn_skipn'. f_equal. lia.
Qed.
Lemma ins_end_spec (row vs : InputRow) o t : o <= length row -> t <= length row ->
  let row' := firstn o row ++ vs ++ skipn o row in let t' := ins_end o (length vs) t in
  (t < o -> same_left row t row' t') /\ (o <= t -> same_right row t row' t').
Proof.
  intros Ho Ht row' t'. assert (Hl : length (firstn o row) = o) by (apply firstn_length_le; auto).
  assert (Hlen : length row' = length row + length vs).
  { unfold row'. rewrite !app_length, skipn_length. lia. }
  unfold t', ins_end. split; intros H; (destruct (o <=? t) eqn:E; try lia).
  - split; [lia|]. unfold row'. rewrite firstn_app_le by lia. apply firstn_firstn_le. lia.
  - split; [lia|]. unfold row'. rewrite skipn_app_ge by lia. rewrite skipn_app_ge by lia.
    rewrite skipn_skipn'. f_equal. lia.
Qed.
Lemma del_pos_spec (row : InputRow) o n t : o + n <= length row -> t <= length row ->
  let row' := firstn o row ++ skipn (o + n) row in let t' := del_pos o n t in
  (t <= o -> same_left row t row' t') /\ (o + n <= t -> same_right row t row' t') /\
  (o <= t -> t <= o + n -> t' = o).
Proof.
  intros Ho Ht row' t'. assert (Hl : length (firstn o row) = o) by (apply firstn_length_le; lia).
  assert (Hlen : length row' = length row - n).
  { unfold row'. rewrite !app_length, skipn_length. lia. }
  unfold t', del_pos. split; [|split].
  - intros H. replace (o <? t) with false by lia. split; [lia|]. unfold row'.
    rewrite firstn_app_le by lia. apply firstn_firstn_le. lia.
  - intros H. assert (E : (if o <? t then Nat.max (t - n) o else t) = t - n) by (destruct (o <? t) eqn:?; lia).
    rewrite E. split; [lia|]. unfold row'. rewrite skipn_app_ge by lia. rewrite skipn_skipn'. f_equal. lia.
  - intros H1 H2. destruct (o <? t) eqn:?; lia.
Qed.

Lemma pos_same_row cfg e m : mp_row (re_pos e) = mp_row m ->
  pos_apply_edit cfg m (ERow e) = Ok (mkMinPos (mp_row m) (left_map e (mp_offset m))).
Proof.
  intros H. unfold pos_apply_edit. rewrite map_same_row by auto. cbn [mr_start mr_end mr_row].
  rewrite Nat.leb_refl. reflexivity.
Qed.

(** ** Positions in the edited row *)
Lemma track_insert cfg doc p o vs doc' row t :
  tree_apply_edit cfg doc (ERow (mkRowEdit Insert (mkMinPos p o) vs)) = Ok doc' ->
  row_get doc p = Some row -> t <= length row ->
  exists t' row', pos_apply_edit cfg (mkMinPos p t) (ERow (mkRowEdit Insert (mkMinPos p o) vs)) = Ok (mkMinPos p t') /\
    row_get doc' p = Some row' /\ (t <= o -> same_left row t row' t') /\ (o < t -> same_right row t row' t').
Proof.
  intros E Hr Ht. destruct (tree_insert_inv E) as (r&Hr'&Ho&Hrep).
  rewrite Hr in Hr'. inv Hr'.
  exists (ins_pos o (length vs) t), (firstn o r ++ vs ++ skipn o r).
  rewrite pos_same_row by reflexivity. split; [reflexivity|]. split; [exact (replaced_get_new Hrep)|].
  now apply ins_pos_spec.
Qed.
Lemma track_delete cfg doc p o vs doc' row t :
  tree_apply_edit cfg doc (ERow (mkRowEdit Delete (mkMinPos p o) vs)) = Ok doc' ->
  row_get doc p = Some row -> t <= length row ->
  exists t' row', pos_apply_edit cfg (mkMinPos p t) (ERow (mkRowEdit Delete (mkMinPos p o) vs)) = Ok (mkMinPos p t') /\
    row_get doc' p = Some row' /\ (t <= o -> same_left row t row' t') /\
    (o + length vs <= t -> same_right row t row' t') /\ (o <= t -> t <= o + length vs -> t' = o /\ t' <= length row').
Proof.
  intros E Hr Ht. destruct (tree_delete_inv E) as (r&Hr'&Ho&Hrep).
  rewrite Hr in Hr'. inv Hr'.
  exists (del_pos o (length vs) t), (firstn o r ++ skipn (o + length vs) r).
  rewrite pos_same_row by reflexivity. split; [reflexivity|]. split; [exact (replaced_get_new Hrep)|].
  destruct (del_pos_spec Ho Ht) as (H1&H2&H3). split; auto. split; auto. intros H4 H5. split; auto.
  rewrite H3 by auto. rewrite app_length, firstn_length, skipn_length. lia.
Qed.

(** ** Ranges in the edited row *)
Lemma track_range cfg doc ty p o vs doc' row s e :
  tree_apply_edit cfg doc (ERow (mkRowEdit ty (mkMinPos p o) vs)) = Ok doc' ->
  row_get doc p = Some row -> s <= length row -> e <= length row ->
  exists s' e' row',
    range_apply_edit cfg (mkMinRange p s e) (ERow (mkRowEdit ty (mkMinPos p o) vs)) = Ok (mkMinRange p s' e') /\
    row_get doc' p = Some row' /\ (s <= e -> s' <= e') /\ (e < s -> e' <= s') /\
    let l := Nat.min s e in let r := Nat.max s e in let l' := Nat.min s' e' in let r' := Nat.max s' e' in
    match ty with
    | Insert => (l <= o -> same_left row l row' l') /\ (o < l -> same_right row l row' l') /\
                (r < o -> same_left row r row' r') /\ (o <= r -> same_right row r row' r')
    | Delete => forall t t', (t = l /\ t' = l') \/ (t = r /\ t' = r') ->
                (t <= o -> same_left row t row' t') /\ (o + length vs <= t -> same_right row t row' t') /\
                (o <= t -> t <= o + length vs -> t' = o /\ t' <= length row')
    end.
Proof.
  intros E Hr Hs He. set (ed := mkRowEdit ty (mkMinPos p o) vs) in *.
  set (L := left_map ed (Nat.min s e)). set (R := right_map ed (Nat.max s e)).
  assert (Hmap : range_apply_edit cfg (mkMinRange p s e) (ERow ed) =
     Ok (if s <=? e then mkMinRange p L R else mkMinRange p R L)).
  { rewrite map_same_row by reflexivity. cbn [mr_start mr_end mr_row]. unfold L, R.
    destruct (s <=? e) eqn:Ese; do 2 f_equal; f_equal; lia. }
  assert (HLR : L <= R).
  { unfold L, R, left_map, right_map, ed; cbn [re_type re_pos re_values mp_offset].
    unfold ins_pos, ins_end, del_pos.
    destruct ty; repeat match goal with |- context [if ?b then _ else _] => destruct b eqn:? end; lia. }
  destruct ty.
  - destruct (tree_delete_inv E) as (r0&Hr'&Ho&Hrep). rewrite Hr in Hr'. inv Hr'.
    exists (if s <=? e then L else R), (if s <=? e then R else L), (firstn o r0 ++ skipn (o + length vs) r0).
    rewrite Hmap. split; [destruct (s <=? e); reflexivity|]. split; [exact (replaced_get_new Hrep)|].
    split; [intros; destruct (s <=? e) eqn:?; lia|]. split; [intros; destruct (s <=? e) eqn:?; lia|].
    cbv zeta.
    replace (Nat.min (if s <=? e then L else R) (if s <=? e then R else L)) with L by (destruct (s <=? e); lia).
    replace (Nat.max (if s <=? e then L else R) (if s <=? e then R else L)) with R by (destruct (s <=? e); lia).
    intros t t' Ht. assert (Htl : t <= length r0) by (destruct Ht as [[-> _]|[-> _]]; lia).
    assert (t' = del_pos o (length vs) t) as -> by (destruct Ht as [[-> ->]|[-> ->]]; reflexivity).
    destruct (del_pos_spec Ho Htl) as (H1&H2&H3). split; auto. split; auto. intros H4 H5. split; auto.
    rewrite H3 by auto. rewrite app_length, firstn_length, skipn_length. lia.
  - destruct (tree_insert_inv E) as (r0&Hr'&Ho&Hrep). rewrite Hr in Hr'. inv Hr'.
    exists (if s <=? e then L else R), (if s <=? e then R else L), (firstn o r0 ++ vs ++ skipn o r0).
    rewrite Hmap. split; [destruct (s <=? e); reflexivity|]. split; [exact (replaced_get_new Hrep)|].
    split; [intros; destruct (s <=? e) eqn:?; lia|]. split; [intros; destruct (s <=? e) eqn:?; lia|].
    cbv zeta.
    replace (Nat.min (if s <=? e then L else R) (if s <=? e then R else L)) with L by (destruct (s <=? e); lia).
    replace (Nat.max (if s <=? e then L else R) (if s <=? e then R else L)) with R by (destruct (s <=? e); lia).
    destruct (@ins_pos_spec r0 vs o (Nat.min s e)) as [H1 H2]; try lia.
    destruct (@ins_end_spec r0 vs o (Nat.max s e)) as [H3 H4]; try lia. auto.
Qed.

(** ** Other rows *)
Lemma track_elsewhere cfg r e : ~ prefix (mp_row (re_pos e)) (mr_row r) ->
  range_apply_edit cfg r (ERow e) = Ok r.
Proof.
  intros H. destruct e as [t [p o] vs]. unfold range_apply_edit.
  cbn [get_row_indices_edit row_get_row_indices_edit re_type re_pos re_values mp_row mp_offset bind] in *.
  destruct (indices_starts_with (mr_row r) p) eqn:Es.
  { exfalso. apply H. now apply starts_with_prefix. }
  destruct t; cbn [row_get_row_indices_edit re_type re_pos re_values mp_row mp_offset mr_row mr_start mr_end bind]; cbv beta iota zeta; rewrite Es; reflexivity.
Qed.
Lemma tree_row_replaced cfg doc e doc' : tree_apply_edit cfg doc (ERow e) = Ok doc' ->
  exists r r', replaced (mp_row (re_pos e)) r r' doc doc'.
Proof.
  destruct e as [[] [p o] vs]; intros H.
  - destruct (tree_delete_inv H) as (r&_&_&Hrep). eauto.
  - destruct (tree_insert_inv H) as (r&_&_&Hrep). eauto.
Qed.
Lemma track_other cfg doc e doc' m : tree_apply_edit cfg doc (ERow e) = Ok doc' -> valid_pos doc m ->
  ~ prefix (mp_row (re_pos e)) (mp_row m) ->
  pos_apply_edit cfg m (ERow e) = Ok m /\ valid_pos doc' m /\
  exists row row', row_get doc (mp_row m) = Some row /\ row_get doc' (mp_row m) = Some row' /\
    length row' = length row /\
    (~ prefix (mp_row m) (mp_row (re_pos e)) -> row' = row) /\
    (forall x s, mp_row (re_pos e) = mp_row m ++ x :: s -> forall i, i <> fst x -> nth_error row' i = nth_error row i).
Proof.
  intros E [row [Hr Ho]] Hp. split.
  { unfold pos_apply_edit. rewrite track_elsewhere by auto. destruct m. reflexivity. }
  destruct (tree_row_replaced E) as (r&r'&Hrep).
  destruct (indices_starts_with (mp_row (re_pos e)) (mp_row m)) eqn:Es.
  - apply starts_with_prefix in Es as [s Hs]. destruct s as [|x s].
    { exfalso. apply Hp. rewrite Hs, app_nil_r. apply prefix_refl. }
    rewrite Hs in Hrep. destruct (replaced_above Hrep) as (row1&row2&H1&H2&H3).
    rewrite Hr in H1. inv H1. pose proof (replaced_length H3) as Hl.
    split; [exists row2; split; auto; lia|].
    exists row1, row2. split; auto. split; auto. split; auto. split.
    + intros Hn. exfalso. apply Hn. exists (x :: s). auto.
    + intros x' s' Hx i Hi. rewrite Hs in Hx. apply app_inv_head in Hx. inv Hx.
      inv H3. simpl in Hi. now apply app_cons_nth_other.
  - assert (Hn : ~ prefix (mp_row m) (mp_row (re_pos e))).
    { intros H. apply starts_with_prefix in H. congruence. }
    pose proof (replaced_elsewhere Hrep Hp Hn) as Heq.
    split; [exists row; split; auto; congruence|].
    exists row, row. split; auto. split; [congruence|]. split; auto.
Qed.

(** ** Below an edited root row *)
Lemma track_root_panics cfg e m : mp_row (re_pos e) = [] -> mp_row m <> [] ->
  exists k, pos_apply_edit cfg m (ERow e) = Panic k.
Proof.
  intros Hp Hm. destruct e as [t [p o] vs]. cbn [re_pos mp_row] in Hp. subst p.
  unfold pos_apply_edit, range_apply_edit.
  cbn [get_row_indices_edit row_get_row_indices_edit re_type re_pos re_values mp_row mp_offset bind mr_row mr_start mr_end].
  assert (He : rowindices_eqb (mp_row m) [] = false) by (destruct (mp_row m); [congruence|reflexivity]).
  rewrite Nat.leb_refl.
  assert (Hs : indices_starts_with (mp_row m) [] = true) by (destruct (mp_row m); reflexivity).
  destruct t; cbn [row_get_row_indices_edit re_type re_pos re_values mp_row mp_offset mr_row mr_start mr_end bind]; cbv beta iota zeta; rewrite Hs; cbn [negb]; rewrite He, !andb_false_r; unfold usub; cbn [length Nat.leb];
    destruct (overflow_checks cfg); eexists; reflexivity.
Qed.

(** ** Below an edited row *)
Lemma rowindices_neq_app p x s : rowindices_eqb (p ++ x :: s) p = false.
Proof. destruct (rowindices_eqb (p ++ x :: s) p) eqn:E; auto. apply rowindices_eqb_eq in E. rewrite <- (app_nil_r p) in E at 2. apply app_inv_head in E. discriminate. Qed.
Lemma list_set_mid A (l r : list A) x y : list_set (l ++ x :: r) (length l) y = l ++ y :: r.
Proof. induction l as [|z l IH]; cbn; [reflexivity|]. now rewrite IH. Qed.
Lemma nested_map cfg e q i j k l s a b : mp_row (re_pos e) = q ++ [(i, j)] ->
  let o := mp_offset (re_pos e) in let n := length (re_values e) in
  range_apply_edit cfg (mkMinRange (mp_row (re_pos e) ++ (k, l) :: s) a b) (ERow e) =
  Ok (match re_type e with
      | Insert => mkMinRange (q ++ ((if o <=? i then i + n else i), j) :: (k, l) :: s) a b
      | Delete => if (o <=? i) && (i <? o + n) then mkMinRange (q ++ [(i, j)]) o o
                  else mkMinRange (q ++ ((if o + n <=? i then i - n else i), j) :: (k, l) :: s) a b
      end).
Proof.
  intros Hp. destruct e as [t [p o] vs]. cbn [re_pos re_type re_values mp_row mp_offset] in *. set (n := length vs).
  assert (Hs : indices_starts_with (p ++ (k, l) :: s) p = true) by (apply starts_with_prefix; eexists; reflexivity).
  assert (Hu : usub cfg (length p) 1 = Ok (Some (length q))) by (rewrite Hp, app_length; unfold usub; cbn [length]; replace (1 <=? length q + 1) with true by lia; do 2 f_equal; lia).
  assert (Hn : nth_error (p ++ (k, l) :: s) (length q) = Some (i, j)).
  { rewrite Hp, <- app_assoc, nth_error_app2, Nat.sub_diag by lia. reflexivity. }
  assert (Hset : forall y, list_set (p ++ (k, l) :: s) (length q) y = q ++ y :: (k, l) :: s).
  { intros y. rewrite Hp, <- app_assoc. apply list_set_mid. }
  assert (Hid : p ++ (k, l) :: s = q ++ (i, j) :: (k, l) :: s) by (rewrite Hp, <- app_assoc; reflexivity).
  unfold range_apply_edit.
  destruct t; cbn [get_row_indices_edit row_get_row_indices_edit re_type re_pos re_values mp_row mp_offset mr_row mr_start mr_end bind]; cbv beta iota zeta; rewrite Hs, rowindices_neq_app; cbn [negb]; rewrite !andb_false_r, Hu; cbn [bind unwrap]; rewrite Hn; cbn [bind unwrap fst snd]; rewrite !Hset, ?Hid, ?Hp; fold n.
  - replace (o + n <? o) with false by lia. 
    destruct (a <=? b), (o <=? i) eqn:E1, (i <? o + n) eqn:E2, (o + n <=? i) eqn:E3; try lia; cbn [andb bind]; rewrite ?Hid; try reflexivity; do 3 f_equal; f_equal; f_equal; lia.
  - destruct (a <=? b), (o <? o + n) eqn:E1, (o <=? i) eqn:E2, (o + n <=? i) eqn:E3, (i <? o) eqn:E4; try lia; cbn [andb bind]; rewrite ?Hid; try reflexivity; do 3 f_equal; f_equal; f_equal; lia.
Qed.
Lemma app_same_tail (q : RowIndices) x y s t : q ++ x :: s = q ++ y :: t <-> x = y /\ s = t.
Proof. split; [intros H; apply app_inv_head in H; now inv H|intros [-> ->]; reflexivity]. Qed.
Lemma nested_exact cfg e q i j k l s a b : mp_row (re_pos e) = q ++ [(i, j)] ->
  range_apply_edit cfg (mkMinRange (mp_row (re_pos e) ++ (k, l) :: s) a b) (ERow e) = Ok (nested_after e k l s a b) <-> carried e i k.
Proof.
  intros Hp. rewrite (nested_map cfg k l s a b Hp). unfold nested_after, node_after, carried. rewrite Hp. destruct e as [t [p o] vs]. cbn [re_pos re_type re_values mp_row mp_offset] in *. set (n := length vs).
  assert (L : forall (x y : RowIndex) r, q ++ [(i, j)] <> q ++ x :: y :: r) by (intros x y r H; apply app_inv_head in H; discriminate).
  assert (R : forall x y, (Ok x : Res MinRange) = Ok y -> mr_row x = mr_row y) by (intros x y H; congruence).
  destruct t.
  - destruct ((o <=? i) && (i <? o + n)) eqn:E1, (k <? o) eqn:E2, (k <? o + n) eqn:E3, (o + n <=? i) eqn:E4; try (exfalso; lia); rewrite <- ?app_assoc; cbn [app]; (split; [intros H; apply R in H; cbn [mr_row] in H|intros H; try (exfalso; lia)]).
    all: try (exfalso; eapply L; solve [exact H|symmetry; exact H]).
    all: try (right; right; split; [reflexivity|lia]).
    all: try lia.
    all: try (apply app_same_tail in H as [H1 H2]; apply (f_equal fst) in H1; apply (f_equal (fun l => match l with x :: _ => fst x | [] => 0 end)) in H2; cbn [fst] in H1, H2; lia).
    all: try reflexivity.
    all: do 2 f_equal; f_equal; try reflexivity; do 2 f_equal; try lia; do 2 f_equal; lia.
  - destruct (o <=? i) eqn:E1, (k <? o) eqn:E2; rewrite <- ?app_assoc; cbn [app]; (split; [intros H; apply R in H; cbn [mr_row] in H|intros H; try (exfalso; lia)]).
    all: try (apply app_same_tail in H as [H1 H2]; apply (f_equal fst) in H1; apply (f_equal (fun l => match l with x :: _ => fst x | [] => 0 end)) in H2; cbn [fst] in H1, H2; lia).
    all: try reflexivity.
    all: try lia.
    all: destruct H as [H|[H|[H _]]]; [|exfalso; lia|discriminate]; clearbody n; subst n; rewrite ?Nat.add_0_r; reflexivity.
Qed.
Lemma row_get_moved row row' k k' l s : nth_error row' k' = nth_error row k -> row_get row' ((k', l) :: s) = row_get row ((k, l) :: s).
Proof. cbn [row_get]. now intros ->. Qed.
Lemma node_after_insert (row vs : InputRow) o k : o <= length row -> 
  nth_error (firstn o row ++ vs ++ skipn o row) (if k <? o then k else k + length vs) = nth_error row k.
Proof.
  intros Ho. pose proof (firstn_length_le row Ho) as Hl. destruct (k <? o) eqn:E.
  - rewrite nth_error_app1 by lia. rewrite <- (firstn_skipn o row) at 2. rewrite nth_error_app1 by lia. reflexivity.
  - rewrite nth_error_app2, nth_error_app2 by lia. rewrite <- (firstn_skipn o row) at 3. rewrite (nth_error_app2 (firstn o row)) by lia. f_equal. lia.
Qed.
Lemma node_after_delete (row : InputRow) o n k : o + n <= length row -> ~ (o <= k < o + n) ->
  nth_error (firstn o row ++ skipn (o + n) row) (if k <? o then k else k - n) = nth_error row k.
Proof.
  intros Ho Hk. assert (Hl : length (firstn o row) = o) by (apply firstn_length_le; lia). destruct (k <? o) eqn:E.
  - rewrite nth_error_app1 by lia. rewrite <- (firstn_skipn o row) at 2. rewrite nth_error_app1 by lia. reflexivity.
  - rewrite nth_error_app2 by lia. transitivity (nth_error (firstn (o + n) row ++ skipn (o + n) row) k); [|now rewrite firstn_skipn]. assert (Hl' : length (firstn (o + n) row) = o + n) by (apply firstn_length_le; lia).
    rewrite (nth_error_app2 (firstn (o + n) row)) by lia. f_equal. lia.
Qed.
Lemma nested_right cfg doc e doc' k l s a b : tree_apply_edit cfg doc (ERow e) = Ok doc' ->
  valid_range doc (mkMinRange (mp_row (re_pos e) ++ (k, l) :: s) a b) -> let r' := nested_after e k l s a b in valid_range doc' r' /\
  match node_after e k with
  | Some _ => row_get doc' (mr_row r') = row_get doc (mp_row (re_pos e) ++ (k, l) :: s) /\ mr_start r' = a /\ mr_end r' = b
  | None => r' = mkMinRange (mp_row (re_pos e)) (mp_offset (re_pos e)) (mp_offset (re_pos e))
  end.
Proof.
  intros E (row0&Hr0&Ha&Hb). cbn [mr_row mr_start mr_end] in *. unfold nested_after, node_after. destruct e as [ty [p o] vs]. cbn [re_pos re_type re_values mp_row mp_offset] in *.
  destruct ty.
  - destruct (tree_delete_inv E) as (row&Hr&Ho&Hrep). pose proof (replaced_get_new Hrep) as Hn. rewrite row_get_app, Hr in Hr0.
    assert (G : forall k', ~ (o <= k < o + length vs) -> k' = (if k <? o then k else k - length vs) -> row_get doc' (p ++ (k', l) :: s) = Some row0).
    { intros k' Hk ->. rewrite row_get_app, Hn. rewrite <- Hr0. apply row_get_moved. now apply node_after_delete. }
    rewrite (row_get_app doc p), Hr, Hr0. destruct (k <? o) eqn:E1; [|destruct (k <? o + length vs) eqn:E2].
    + cbn [mr_row mr_start mr_end]. rewrite (G k) by (try lia; reflexivity). split; [|auto]. exists row0. split; [|auto]. apply G; auto; lia.
    + split; [|reflexivity]. eexists. split; [exact Hn|]. cbn. rewrite app_length, firstn_length, skipn_length. lia.
    + cbn [mr_row mr_start mr_end]. rewrite (G (k - length vs)) by (try lia; reflexivity). split; [|auto]. exists row0. split; [|auto]. apply G; auto; lia.
  - destruct (tree_insert_inv E) as (row&Hr&Ho&Hrep). pose proof (replaced_get_new Hrep) as Hn. rewrite row_get_app, Hr in Hr0.
    assert (G : row_get doc' (p ++ ((if k <? o then k else k + length vs), l) :: s) = Some row0).
    { rewrite row_get_app, Hn. rewrite <- Hr0. apply row_get_moved. now apply node_after_insert. }
    rewrite (row_get_app doc p), Hr, Hr0. cbn [mr_row mr_start mr_end]. split; [|auto]. exists row0. auto.
Qed.
Lemma nested_pos_exact cfg e q i j k l s t : mp_row (re_pos e) = q ++ [(i, j)] ->
  let r' := nested_after e k l s t t in
  pos_apply_edit cfg (mkMinPos (mp_row (re_pos e) ++ (k, l) :: s) t) (ERow e) = Ok (mkMinPos (mr_row r') (mr_start r')) <-> carried e i k.
Proof.
  intros Hp r'. rewrite <- (nested_exact cfg k l s t t Hp). fold r'. unfold pos_apply_edit. cbn [mp_row mp_offset].
  assert (H1 : mr_start r' = mr_end r') by (unfold r', nested_after; destruct (node_after e k); reflexivity).
  rewrite (nested_map cfg k l s t t Hp). cbn [bind]. 
  match goal with |- context [Ok (mkMinPos (mr_row ?r) _)] => set (r2 := r) end.
  assert (H2 : mr_start r2 = mr_end r2) by (unfold r2; destruct (re_type e); [|reflexivity]; match goal with |- context [if ?b then _ else _] => destruct b end; reflexivity).
  clearbody r' r2. destruct r' as [p1 s1 e1], r2 as [p2 s2 e2]. cbn in *. subst. split; intros H; inv H; reflexivity.
Qed.
Lemma nested_ranges cfg doc e doc' q i j k l s a b : tree_apply_edit cfg doc (ERow e) = Ok doc' -> mp_row (re_pos e) = q ++ [(i, j)] ->
  valid_range doc (mkMinRange (mp_row (re_pos e) ++ (k, l) :: s) a b) -> let r' := nested_after e k l s a b in
  (valid_range doc' r' /\
   match node_after e k with
   | Some _ => row_get doc' (mr_row r') = row_get doc (mp_row (re_pos e) ++ (k, l) :: s) /\ mr_start r' = a /\ mr_end r' = b
   | None => r' = mkMinRange (mp_row (re_pos e)) (mp_offset (re_pos e)) (mp_offset (re_pos e))
   end) /\
  (range_apply_edit cfg (mkMinRange (mp_row (re_pos e) ++ (k, l) :: s) a b) (ERow e) = Ok r' <-> carried e i k) /\
  (a = b -> pos_apply_edit cfg (mkMinPos (mp_row (re_pos e) ++ (k, l) :: s) a) (ERow e) = Ok (mkMinPos (mr_row r') (mr_start r')) <-> carried e i k).
Proof.
  intros E Hp Hv r'. split; [exact (nested_right E Hv)|]. split; [now apply nested_exact with (1 := Hp)|]. intros <-. now apply nested_pos_exact with (1 := Hp).
Qed.
