(** Properties of table edits and of positions that follow edits (C06, C07, C08). *)
From Coq Require Import String.
From Verif Require Import Base Str Grid Node Focus Edit Spec SpecGrid SpecTrack BaseFacts TreeFacts OrderFacts
  EditFacts GridFacts GridExact TrackFacts Samples.
Open Scope list_scope.

(** * C06: inserting rows or columns into a table puts every cell where it belongs *)
Theorem C06_insert_lines : forall cfg doc p i g k ins,
  wf_row doc -> node_get doc p i = Some (Container Table g) ->
  rectangular ins -> gwidth ins = gwidth g -> k <= height g ->
  exists doc' g', tree_apply_edit cfg doc (EGrid (mkGridEdit Insert (mkElementIndices p i) GRow k ins)) = Ok doc' /\
    table_replaced p i g g' doc doc' /\ lines_inserted k ins g g'.
Proof. exact insert_lines_ok. Qed.
Print Assumptions C06_insert_lines.

Theorem C06_insert_columns : forall cfg doc p i g k ins,
  wf_row doc -> node_get doc p i = Some (Container Table g) ->
  rectangular ins -> height ins = height g -> k <= gwidth g ->
  exists doc' g', tree_apply_edit cfg doc (EGrid (mkGridEdit Insert (mkElementIndices p i) GColumn k ins)) = Ok doc' /\
    table_replaced p i g g' doc doc' /\ columns_inserted k ins g g'.
Proof. exact insert_columns_ok. Qed.
Print Assumptions C06_insert_columns.

(** The document stays well-formed. *)
Theorem C06_stays_well_formed : forall cfg doc p i g d k ins doc',
  wf_row doc -> node_get doc p i = Some (Container Table g) ->
  rectangular ins -> (forall c, In c (gvalues ins) -> wf_row c) ->
  match d with
  | GRow => gwidth ins = gwidth g /\ k <= height g
  | GColumn => height ins = height g /\ k <= gwidth g
  end ->
  tree_apply_edit cfg doc (EGrid (mkGridEdit Insert (mkElementIndices p i) d k ins)) = Ok doc' -> wf_row doc'.
Proof. exact insert_wf. Qed.
Print Assumptions C06_stays_well_formed.

(** The edit says which lines or columns it moves, and how far. *)
Theorem C06_moved : forall cfg doc p i g d k ins doc',
  wf_row doc -> node_get doc p i = Some (Container Table g) -> rectangular ins ->
  match d with
  | GRow => gwidth ins = gwidth g /\ k <= height g
  | GColumn => height ins = height g /\ k <= gwidth g
  end ->
  tree_apply_edit cfg doc (EGrid (mkGridEdit Insert (mkElementIndices p i) d k ins)) = Ok doc' ->
  exists old new g', get_row_indices_edit (EGrid (mkGridEdit Insert (mkElementIndices p i) d k ins)) = Ok (GridIndexEdit (mkElementIndices p i) d old new) /\
    node_get doc' p i = Some (Container Table g') /\ old <= new /\
    forall x y, match d with
      | GRow => (y < old -> cell g' x y = cell g x y) /\ (old <= y -> cell g' x (y + (new - old)) = cell g x y)
      | GColumn => (x < old -> cell g' x y = cell g x y) /\ (old <= x -> cell g' (x + (new - old)) y = cell g x y)
      end.
Proof.
  intros cfg doc p i g d k ins doc' Hwf Hn [Hw Hm] Hd H. exists k, (k + match d with GRow => height ins | GColumn => gwidth ins end).
  assert (E : get_row_indices_edit (EGrid (mkGridEdit Insert (mkElementIndices p i) d k ins)) = Ok (GridIndexEdit (mkElementIndices p i) d k (k + match d with GRow => height ins | GColumn => gwidth ins end))).
  { cbn [get_row_indices_edit]. unfold grid_get_row_indices_edit, gwidth_of, gheight_of, gsize, udiv. cbn [ge_direction ge_values ge_type ge_element ge_row_or_column]. destruct (gwidth ins =? 0) eqn:E0; [apply Nat.eqb_eq in E0; lia|]. destruct d; reflexivity. }
  assert (G : forall g', table_replaced p i g g' doc doc' -> node_get doc' p i = Some (Container Table g')).
  { intros g' (l&r&<-&Hr). unfold node_get. rewrite (replaced_get_new Hr). rewrite nth_error_app2 by lia. now rewrite Nat.sub_diag. }
  destruct d.
  all: destruct Hd as [Hd1 Hd2].
  all: first [destruct (C06_insert_lines cfg doc p i g k ins Hwf Hn (conj Hw Hm) Hd1 Hd2) as (doc1&g'&E1&Ht&_&_&_&Hc)|destruct (C06_insert_columns cfg doc p i g k ins Hwf Hn (conj Hw Hm) Hd1 Hd2) as (doc1&g'&E1&Ht&_&_&_&Hc)].
  all: rewrite H in E1; injection E1 as <-; exists g'; split; [exact E|]; split; [now apply G|]; split; [lia|]; intros x y; split; intros Hk; rewrite Hc.
  all: repeat match goal with |- context [?a <? ?b] => destruct (Nat.ltb_spec a b); try lia end; try reflexivity; f_equal; lia.
Qed.
Print Assumptions C06_moved.

(** Nothing but a table is edited. *)
Theorem C06_only_tables : forall cfg doc e doc', tree_apply_edit cfg doc (EGrid e) = Ok doc' ->
  exists g, node_get doc (ei_row (ge_element e)) (ei_index (ge_element e)) = Some (Container Table g).
Proof.
  intros cfg doc e doc' H. cbn [tree_apply_edit] in H. apply update_row_inv in H as (r&r2&H&Hr&_). unfold apply_grid_edit in H. unfold node_get. rewrite (replaced_get_old Hr).
  destruct (nth_error r _) as [n|]; [|discriminate H]. cbn [unwrap bind] in H. apply bind_ok in H as (x&Ha&_). destruct n as [v g|s]; [|discriminate Ha]. destruct v; try discriminate Ha. exists g. reflexivity.
Qed.
Print Assumptions C06_only_tables.

(** Exactly these insertions are carried out: what is inserted is as wide, or as high, as the table. An index
    behind the last column is only noticed when overflow is checked. *)
Theorem C06_exact : forall cfg doc p i d k ins, wf_row doc -> rectangular ins ->
  (exists doc', tree_apply_edit cfg doc (EGrid (mkGridEdit Insert (mkElementIndices p i) d k ins)) = Ok doc') <->
  exists g, node_get doc p i = Some (Container Table g) /\
    match d with GRow => gwidth ins = gwidth g | GColumn => height ins = height g /\ (k <= gwidth g \/ overflow_checks cfg = false) end.
Proof. intros cfg doc p i d k ins Hwf. exact (insert_exact cfg Hwf p i d k (ins := ins)). Qed.
Print Assumptions C06_exact.
(** Rows that are inserted behind the last one are appended. *)
Theorem C06_lines_past : forall cfg doc p i g k ins, wf_row doc -> node_get doc p i = Some (Container Table g) ->
  height g <= k -> rectangular ins -> gwidth ins = gwidth g ->
  exists doc' g', tree_apply_edit cfg doc (EGrid (mkGridEdit Insert (mkElementIndices p i) GRow k ins)) = Ok doc' /\
    table_replaced p i g g' doc doc' /\ lines_inserted (height g) ins g g'.
Proof.
  intros cfg doc p i g k ins Hwf Hn Hk Hi Hw. rewrite (insert_lines_past cfg Hwf Hn Hk Hi Hw). apply C06_insert_lines; auto.
Qed.
Print Assumptions C06_lines_past.
(** Without that check, columns that are inserted behind the last one tear the lines apart: the table has the
    right size, but the first line of what is inserted comes after the first [k] cells, and its other lines at the end. *)
Theorem C06_columns_past : forall cfg doc p i g k ins, wf_row doc -> node_get doc p i = Some (Container Table g) ->
  gwidth g < k -> rectangular ins -> height ins = height g -> overflow_checks cfg = false ->
  exists doc', tree_apply_edit cfg doc (EGrid (mkGridEdit Insert (mkElementIndices p i) GColumn k ins)) = Ok doc' /\
    table_replaced p i g (mkGrid (firstn k (gvalues g) ++ firstn (gwidth ins) (gvalues ins) ++ skipn k (gvalues g) ++ skipn (gwidth ins) (gvalues ins)) (gwidth g + gwidth ins)) doc doc'.
Proof. intros cfg doc p i g k ins Hwf. apply (insert_columns_past Hwf). Qed.
Print Assumptions C06_columns_past.
(** The cell at the start of the second line is in the first line afterwards. *)
Example C06_columns_past_case : let g := mkGrid [[sym "a"]; [sym "b"]; [sym "c"]; [sym "d"]] 2 in let ins := mkGrid [[sym "m"]; [sym "n"]] 1 in
  wf_row [Container Table g] /\ rectangular ins /\ height ins = height g /\ cell g 0 1 = Some [sym "c"] /\
  exists g', tree_apply_edit release_profile [Container Table g] (EGrid (mkGridEdit Insert (mkElementIndices [] 0) GColumn 3 ins)) = Ok [Container Table g'] /\ cell g' 2 0 = Some [sym "c"].
Proof. cbv zeta. split; [apply wf_rowb_ok; vm_compute; reflexivity|]. split; [split; vm_compute; auto|]. split; [reflexivity|]. split; [reflexivity|]. eexists. split; vm_compute; reflexivity. Qed.

(** A column of two cells between the two columns of the table in [sample]. *)
Example C06_case : let g := mkGrid [[sym "x"]; []; [sym "y"; sub [sym "1"]]; [sym "z"]] 2 in
  let ins := mkGrid [[sym "m"]; [sym "n"]] 1 in
  node_get sample [(1, 1)] 0 = Some (Container Table g) /\ rectangular ins /\ height ins = height g /\ 1 <= gwidth g /\
  exists doc', tree_apply_edit debug_profile sample (EGrid (mkGridEdit Insert (mkElementIndices [(1, 1)] 0) GColumn 1 ins)) = Ok doc' /\
    node_get doc' [(1, 1)] 0 = Some (Container Table (mkGrid
      [[sym "x"]; [sym "m"]; []; [sym "y"; sub [sym "1"]]; [sym "n"]; [sym "z"]] 3)).
Proof.
  cbv zeta. split; [reflexivity|]. split; [split; vm_compute; auto|]. split; [reflexivity|]. split; [vm_compute; lia|].
  eexists. split; vm_compute; reflexivity.
Qed.

(** * C07: deleting rows or columns from a table *)
(** Finding: no deletion of at least one existing line or column succeeds; the code drops
    the iterator adapter that should skip the deleted cells. *)
Theorem C07_delete_always_panics : forall cfg doc p i g d k vs,
  wf_row doc -> node_get doc p i = Some (Container Table g) ->
  rectangular vs -> 0 < height vs ->
  match d with
  | GRow => gwidth vs = gwidth g /\ k + height vs <= height g
  | GColumn => height vs = height g /\ k + gwidth vs <= gwidth g
  end ->
  tree_apply_edit cfg doc (EGrid (mkGridEdit Delete (mkElementIndices p i) d k vs)) = Panic PAssert.
Proof. exact delete_panics. Qed.
Print Assumptions C07_delete_always_panics.

(** The only deletion that is carried out is that of no rows at all, and it changes nothing. *)
Theorem C07_exact : forall cfg doc p i d k vs, wf_row doc -> rectangular vs ->
  (exists doc', tree_apply_edit cfg doc (EGrid (mkGridEdit Delete (mkElementIndices p i) d k vs)) = Ok doc') ->
  d = GRow /\ height vs = 0 /\ tree_apply_edit cfg doc (EGrid (mkGridEdit Delete (mkElementIndices p i) d k vs)) = Ok doc.
Proof. intros cfg doc p i d k vs Hwf Hvs [doc' H]. destruct (delete_only_nothing Hwf Hvs H) as (Hd&Hh&->). auto. Qed.
Print Assumptions C07_exact.
Example C07_exact_case : exists doc', tree_apply_edit release_profile sample (EGrid (mkGridEdit Delete (mkElementIndices [(1, 1)] 0) GRow 1 (mkGrid [] 2))) = Ok doc'.
Proof. eexists. vm_compute. reflexivity. Qed.

(** In particular the inverse of an insertion does not restore the document. *)
Theorem C07_refuted : exists cfg doc e doc', wf_row doc /\ tree_apply_edit cfg doc (EGrid e) = Ok doc' /\
  wf_row doc' /\ tree_apply_edit cfg doc' (edit_inverse (EGrid e)) = Panic PAssert.
Proof.
  exists release_profile, sample, (mkGridEdit Insert (mkElementIndices [(1, 1)] 0) GRow 1 (mkGrid [[sym "m"]; [sym "n"]] 2)).
  eexists. split; [exact sample_wf|]. split; [vm_compute; reflexivity|].
  split; [apply wf_rowb_ok; vm_compute; reflexivity|vm_compute; reflexivity].
Qed.
Print Assumptions C07_refuted.

(** * C08: tracked positions and ranges follow their content through edits *)
(** Positions in the edited row. *)
Theorem C08_insert_same_row_partial : forall cfg doc p o vs doc' row t,
  tree_apply_edit cfg doc (ERow (mkRowEdit Insert (mkMinPos p o) vs)) = Ok doc' ->
  row_get doc p = Some row -> t <= length row ->
  exists t' row', pos_apply_edit cfg (mkMinPos p t) (ERow (mkRowEdit Insert (mkMinPos p o) vs)) = Ok (mkMinPos p t') /\
    row_get doc' p = Some row' /\ (t <= o -> same_left row t row' t') /\ (o < t -> same_right row t row' t').
Proof. exact track_insert. Qed.
Print Assumptions C08_insert_same_row_partial.

Theorem C08_delete_same_row_partial : forall cfg doc p o vs doc' row t,
  tree_apply_edit cfg doc (ERow (mkRowEdit Delete (mkMinPos p o) vs)) = Ok doc' ->
  row_get doc p = Some row -> t <= length row ->
  exists t' row', pos_apply_edit cfg (mkMinPos p t) (ERow (mkRowEdit Delete (mkMinPos p o) vs)) = Ok (mkMinPos p t') /\
    row_get doc' p = Some row' /\ (t <= o -> same_left row t row' t') /\
    (o + length vs <= t -> same_right row t row' t') /\ (o <= t -> t <= o + length vs -> t' = o /\ t' <= length row').
Proof. exact track_delete. Qed.
Print Assumptions C08_delete_same_row_partial.

(** Positions in rows that do not lie inside the edited row. *)
Theorem C08_other_rows_partial : forall cfg doc e doc' m,
  tree_apply_edit cfg doc (ERow e) = Ok doc' -> valid_pos doc m ->
  ~ prefix (mp_row (re_pos e)) (mp_row m) ->
  pos_apply_edit cfg m (ERow e) = Ok m /\ valid_pos doc' m /\
  exists row row', row_get doc (mp_row m) = Some row /\ row_get doc' (mp_row m) = Some row' /\
    length row' = length row /\
    (~ prefix (mp_row m) (mp_row (re_pos e)) -> row' = row) /\
    (forall x s, mp_row (re_pos e) = mp_row m ++ x :: s -> forall i, i <> fst x -> nth_error row' i = nth_error row i).
Proof. exact track_other. Qed.
Print Assumptions C08_other_rows_partial.

(** Ranges in the edited row: the direction stays, the left end follows like a position,
    the right end includes nodes inserted at it. *)
Theorem C08_range_same_row_partial : forall cfg doc ty p o vs doc' row s e,
  tree_apply_edit cfg doc (ERow (mkRowEdit ty (mkMinPos p o) vs)) = Ok doc' ->
  row_get doc p = Some row -> s <= length row -> e <= length row ->
  exists s' e' row',
    range_apply_edit cfg (mkMinRange p s e) (ERow (mkRowEdit ty (mkMinPos p o) vs)) = Ok (mkMinRange p s' e') /\
    row_get doc' p = Some row' /\ (s <= e -> s' <= e') /\ (e < s -> e' <= s') /\
    let l := Nat.min s e in let r := Nat.max s e in let l' := Nat.min s' e' in let r' := Nat.max s' e' in
    match ty with
    | Insert => (l <= o -> same_left row l row' l') /\ (o < l -> same_right row l row' l') /\
                (r < o -> same_left row r row' r') /\ (o <= r -> same_right row r row' r')
    | Delete => forall t t', (t = l /\ t' = l') \/ (t = r /\ t' = r') ->
                (t <= o -> same_left row t row' t') /\ (o + length vs <= t -> same_right row t row' t') /\
                (o <= t -> t <= o + length vs -> t' = o /\ t' <= length row')
    end.
Proof. exact track_range. Qed.
Print Assumptions C08_range_same_row_partial.

Theorem C08_range_other_rows_partial : forall cfg r e, ~ prefix (mp_row (re_pos e)) (mr_row r) ->
  range_apply_edit cfg r (ERow e) = Ok r.
Proof. exact track_elsewhere. Qed.
Print Assumptions C08_range_other_rows_partial.

Example C08_case : let e := ERow (mkRowEdit Delete (mkMinPos [(1, 0)] 1) [sym "c"]) in
  is_ok (tree_apply_edit debug_profile sample e) = true /\
  pos_apply_edit debug_profile (mkMinPos [(1, 0)] 3) e = Ok (mkMinPos [(1, 0)] 2) /\
  pos_apply_edit debug_profile (mkMinPos [(1, 1); (0, 2)] 1) e = Ok (mkMinPos [(1, 1); (0, 2)] 1) /\
  range_apply_edit debug_profile (mkMinRange [(1, 0)] 3 1) e = Ok (mkMinRange [(1, 0)] 2 1).
Proof. cbv zeta. repeat split. Qed.

(** Positions and ranges inside a node of the edited row, where this row is in a container: where they
    should go ([nested_after]: the same row, or the place of the deletion), that this is right, and exactly when
    the code gets there. What is missing from C08 are the other cases, in which it does not. *)
Theorem C08_nested_exact_partial : forall cfg doc e doc' q i j k l s a b, tree_apply_edit cfg doc (ERow e) = Ok doc' -> mp_row (re_pos e) = q ++ [(i, j)] ->
  valid_range doc (mkMinRange (mp_row (re_pos e) ++ (k, l) :: s) a b) -> let r' := nested_after e k l s a b in
  (valid_range doc' r' /\
   match node_after e k with
   | Some _ => row_get doc' (mr_row r') = row_get doc (mp_row (re_pos e) ++ (k, l) :: s) /\ mr_start r' = a /\ mr_end r' = b
   | None => r' = mkMinRange (mp_row (re_pos e)) (mp_offset (re_pos e)) (mp_offset (re_pos e))
   end) /\
  (range_apply_edit cfg (mkMinRange (mp_row (re_pos e) ++ (k, l) :: s) a b) (ERow e) = Ok r' <-> carried e i k) /\
  (a = b -> pos_apply_edit cfg (mkMinPos (mp_row (re_pos e) ++ (k, l) :: s) a) (ERow e) = Ok (mkMinPos (mr_row r') (mr_start r')) <-> carried e i k).
Proof. exact nested_ranges. Qed.
Print Assumptions C08_nested_exact_partial.
(** The superscript in the numerator, node 2 of the first cell of node 1, with the deletion of nodes 1
    and 2, which it does follow, and of node 0, which it does not. *)
Example C08_nested_case : let row := [(1, 0)] in let r := mkMinRange (row ++ [(2, 0)]) 0 1 in
  let e o n := mkRowEdit Delete (mkMinPos row o) (repeat (sym "c") n) in
  valid_range sample r /\ is_ok (tree_apply_edit debug_profile sample (ERow (e 1 2))) = true /\ is_ok (tree_apply_edit debug_profile sample (ERow (e 0 1))) = true /\
  carried (e 1 2) 1 2 /\ range_apply_edit debug_profile r (ERow (e 1 2)) = Ok (mkMinRange row 1 1) /\
  ~ carried (e 0 1) 1 2 /\ range_apply_edit debug_profile r (ERow (e 0 1)) = Ok (mkMinRange [(0, 0); (2, 0)] 0 1).
Proof.
  cbv zeta. split; [eexists; split; [reflexivity|vm_compute; lia]|]. split; [reflexivity|]. split; [reflexivity|].
  split; [right; right; split; [reflexivity|cbn; lia]|]. split; [reflexivity|]. split; [|reflexivity].
  unfold carried. cbn. lia.
Qed.

(** Finding: positions inside a node of the edited row. For an edit of the root row every
    such position makes the code panic, in every build. *)
Theorem C08_root_row_panics : forall cfg e m, mp_row (re_pos e) = [] -> mp_row m <> [] ->
  exists k, pos_apply_edit cfg m (ERow e) = Panic k.
Proof. exact track_root_panics. Qed.
Print Assumptions C08_root_row_panics.

(** For edits of a deeper row, the wrong step of the path is adjusted: after inserting in
    front of the superscript, the position inside it denotes another row or no row at all. *)
Theorem C08_refuted : exists cfg doc e doc' m m', wf_row doc /\ valid_pos doc m /\
  tree_apply_edit cfg doc (ERow e) = Ok doc' /\ pos_apply_edit cfg m (ERow e) = Ok m' /\ ~ valid_pos doc' m'.
Proof.
  exists release_profile, sample, (mkRowEdit Insert (mkMinPos [(1, 0)] 0) [sym "n"; sym "m"]). eexists.
  exists (mkMinPos [(1, 0); (2, 0)] 1), (mkMinPos [(3, 0); (2, 0)] 1). split; [exact sample_wf|].
  split; [eexists; split; [reflexivity|vm_compute; lia]|]. split; [vm_compute; reflexivity|].
  split; [vm_compute; reflexivity|]. intros (row&H&_). vm_compute in H. discriminate.
Qed.
Print Assumptions C08_refuted.
