(** Properties of positions, ranges, paths, grids and row edits
    (C01, C02, C03, C04, C05, C36, C37, C46). *)
From Coq Require Import String.
From Verif Require Import Base Str Grid Node Focus Edit Spec SpecEdit BaseFacts TreeFacts OrderFacts EditFacts
  TreeProofs Samples.
Open Scope list_scope.

(** * C01: position comparison is a total order that agrees with reading order *)
Theorem C01_total_order :
  (forall a, minpos_cmp a a = Eq) /\
  (forall a b, minpos_cmp a b = Eq <-> a = b) /\
  (forall a b, minpos_cmp b a = CompOpp (minpos_cmp a b)) /\
  (forall a b c, minpos_cmp a b = Lt -> minpos_cmp b c = Lt -> minpos_cmp a c = Lt).
Proof. exact total_order. Qed.
Print Assumptions C01_total_order.

(** [positions doc] lists exactly the caret positions of the document, each once. *)
Theorem C01_positions_complete : forall doc p, In p (positions doc) <-> valid_pos doc p.
Proof. exact in_positions_valid. Qed.
Print Assumptions C01_positions_complete.
Theorem C01_positions_nodup : forall doc, NoDup (positions doc).
Proof. exact positions_NoDup. Qed.
Print Assumptions C01_positions_nodup.

Theorem C01_reading_order : forall doc a b, valid_pos doc a -> valid_pos doc b ->
  (minpos_cmp a b = Lt <-> before_in (positions doc) a b).
Proof. exact reading_order. Qed.
Print Assumptions C01_reading_order.

(** The comparison of focused positions ([InputRowPosition]) is the same one. *)
Theorem C01_focused : forall doc a b p q,
  pos_from_minimal (from_root doc) a = Ok p -> pos_from_minimal (from_root doc) b = Ok q ->
  pos_cmp p q = minpos_cmp a b /\ (pos_eqb p q = true <-> a = b).
Proof. exact focused_cmp. Qed.
Print Assumptions C01_focused.

Example C01_case : valid_pos sample (mkMinPos [(1, 1); (0, 2)] 1) /\
  valid_pos sample (mkMinPos [(2, 1)] 0) /\
  minpos_cmp (mkMinPos [(1, 1); (0, 2)] 1) (mkMinPos [(2, 1)] 0) = Lt /\ length (positions sample) = 25.
Proof.
  split; [|split; [|split]]; try (eexists; split; [vm_compute; reflexivity|vm_compute; lia]);
  vm_compute; reflexivity.
Qed.

(** * C02: the range spanning two positions is the smallest row range containing both *)
Theorem C02_smallest_range : forall doc a b, wf_row doc -> valid_pos doc a -> valid_pos doc b ->
  exists p q r r',
    pos_from_minimal (from_root doc) a = Ok p /\ pos_from_minimal (from_root doc) b = Ok q /\
    range_from_positions doc p q = Ok r /\ range_from_positions doc q p = Ok r' /\
    let m := rg_to_minimal r in
    (* a range of the document that contains both *)
    valid_range doc m /\ pos_in_range a m /\ pos_in_range b m /\
    (* contained in every other one *)
    (forall s, valid_range doc s -> pos_in_range a s -> pos_in_range b s ->
       forall c, pos_in_range c m -> pos_in_range c s) /\
    (* direction *)
    (pos_le a b -> mr_start m <= mr_end m) /\ (pos_le b a -> mr_end m <= mr_start m) /\
    rg_to_minimal r' = mkMinRange (mr_row m) (mr_end m) (mr_start m).
Proof. exact smallest_range. Qed.
Print Assumptions C02_smallest_range.

(** Two positions in different cells of the same container give the range around it. *)
Example C02_case :
  (p <- pos_from_minimal (from_root sample) (mkMinPos [(1, 1); (0, 2)] 1) ;;
   q <- pos_from_minimal (from_root sample) (mkMinPos [(1, 0); (2, 0)] 0) ;;
   r <- range_from_positions sample p q ;; Ok (rg_to_minimal r)) = Ok (mkMinRange [] 2 1).
Proof. vm_compute. reflexivity. Qed.

(** * C03: a row insertion inserts exactly the given nodes and changes nothing else *)
Theorem C03_insert_exact : forall cfg doc p o vs row,
  wf_row doc -> row_get doc p = Some row -> o <= length row ->
  exists doc', tree_apply_edit cfg doc (ERow (mkRowEdit Insert (mkMinPos p o) vs)) = Ok doc' /\
    replaced p row (firstn o row ++ vs ++ skipn o row) doc doc'.
Proof. exact insert_exact. Qed.
Print Assumptions C03_insert_exact.

(** The rows of the new document, by path. *)
Theorem C03_other_rows : forall cfg doc p o vs doc',
  tree_apply_edit cfg doc (ERow (mkRowEdit Insert (mkMinPos p o) vs)) = Ok doc' ->
  (forall q, ~ prefix p q -> ~ prefix q p -> row_get doc' q = row_get doc q) /\
  (forall i j q, i < o -> row_get doc' (p ++ (i, j) :: q) = row_get doc (p ++ (i, j) :: q)) /\
  (forall i j q, o <= i -> row_get doc' (p ++ (i + length vs, j) :: q) = row_get doc (p ++ (i, j) :: q)) /\
  (forall q x s, p = q ++ x :: s -> exists row row', row_get doc q = Some row /\ row_get doc' q = Some row' /\
     length row' = length row /\ forall i, i <> fst x -> nth_error row' i = nth_error row i).
Proof. exact insert_other_rows. Qed.
Print Assumptions C03_other_rows.

Theorem C03_panics_iff_invalid : forall cfg doc p o vs, wf_row doc ->
  ((exists k, tree_apply_edit cfg doc (ERow (mkRowEdit Insert (mkMinPos p o) vs)) = Panic k) <->
   ~ valid_pos doc (mkMinPos p o)).
Proof. exact insert_panics_iff. Qed.
Print Assumptions C03_panics_iff_invalid.

Example C03_case : exists doc',
  tree_apply_edit debug_profile sample (ERow (mkRowEdit Insert (mkMinPos [(1, 0); (2, 0)] 1) [sym "n"; sup []])) = Ok doc' /\
  row_get doc' [(1, 0); (2, 0)] = Some [sym "2"; sym "n"; sup []].
Proof. eexists. split; vm_compute; reflexivity. Qed.

(** * C04: a row deletion deletes exactly the addressed nodes and changes nothing else *)
Theorem C04_delete_exact : forall cfg doc p o vs row,
  wf_row doc -> row_get doc p = Some row -> o + length vs <= length row ->
  exists doc', tree_apply_edit cfg doc (ERow (mkRowEdit Delete (mkMinPos p o) vs)) = Ok doc' /\
    replaced p row (firstn o row ++ skipn (o + length vs) row) doc doc'.
Proof. exact delete_exact. Qed.
Print Assumptions C04_delete_exact.

Theorem C04_other_rows : forall cfg doc p o vs doc',
  tree_apply_edit cfg doc (ERow (mkRowEdit Delete (mkMinPos p o) vs)) = Ok doc' ->
  (forall q, ~ prefix p q -> ~ prefix q p -> row_get doc' q = row_get doc q) /\
  (forall i j q, i < o -> row_get doc' (p ++ (i, j) :: q) = row_get doc (p ++ (i, j) :: q)) /\
  (forall i j q, o <= i -> row_get doc' (p ++ (i, j) :: q) = row_get doc (p ++ (i + length vs, j) :: q)) /\
  (forall q x s, p = q ++ x :: s -> exists row row', row_get doc q = Some row /\ row_get doc' q = Some row' /\
     length row' = length row /\ forall i, i <> fst x -> nth_error row' i = nth_error row i).
Proof. exact delete_other_rows. Qed.
Print Assumptions C04_other_rows.

Theorem C04_panics_iff_invalid : forall cfg doc p o vs, wf_row doc ->
  ((exists k, tree_apply_edit cfg doc (ERow (mkRowEdit Delete (mkMinPos p o) vs)) = Panic k) <->
   ~ (exists row, row_get doc p = Some row /\ o + length vs <= length row)).
Proof. exact delete_panics_iff. Qed.
Print Assumptions C04_panics_iff_invalid.

Example C04_case : exists doc',
  tree_apply_edit debug_profile sample (ERow (mkRowEdit Delete (mkMinPos [(1, 0)] 1) [sym "c"; sup []])) = Ok doc' /\
  row_get doc' [(1, 0)] = Some [sym "b"].
Proof. eexists. split; vm_compute; reflexivity. Qed.

(** * C05: edit lists are invertible *)
Theorem C05_edits_invertible : forall cfg doc es doc', made_edits cfg doc es doc' ->
  tree_apply_edits cfg doc es = Ok doc' /\
  tree_apply_edits cfg doc' (map edit_inverse (rev es)) = Ok doc.
Proof. exact edits_invertible. Qed.
Print Assumptions C05_edits_invertible.

(** On well-formed documents such lists exist for every valid range and position. *)
Theorem C05_edits_exist : forall cfg doc m vs, wf_row doc -> valid_range doc m ->
  exists r es mr doc', rg_from_minimal (from_root doc) m = Ok r /\ replace_range r vs = Ok (es, mr) /\
    tree_apply_edits cfg doc es = Ok doc'.
Proof. exact replace_exists. Qed.
Print Assumptions C05_edits_exist.

Example C05_case : exists es doc', made_edits release_profile sample es doc' /\ length es = 3 /\ doc' <> sample.
Proof.
  eexists. eexists. split; [|split].
  - eapply made_replace with (m := mkMinRange [(1, 0)] 3 1) (vs := [sym "q"]); [vm_compute; reflexivity..|].
    eapply made_remove with (m := mkMinRange [] 0 2); [vm_compute; reflexivity..|]. constructor.
  - reflexivity.
  - discriminate.
Qed.

(** * C36: walking down and up the document is consistent *)
Theorem C36_walk_down : forall doc p, wf_row doc ->
  match row_get doc p with
  | Some row => exists f, walk_down_indices (from_root doc) p = Ok f /\ fr_indices f = p /\ fr_row f = row
  | None => exists k, walk_down_indices (from_root doc) p = Panic k
  end.
Proof. exact walk_down. Qed.
Print Assumptions C36_walk_down.

(** Down to cell (i, j) and up again is the focus we started from; up and down again, too. *)
Theorem C36_down_up : forall doc p f i j f',
  walk_down_indices (from_root doc) p = Ok f -> focus_row_at f (i, j) = Ok (Some f') ->
  fr_indices f' = p ++ [(i, j)] /\
  exists n, focus_parent f' = Some n /\ fn_parent n = f /\ fn_index n = i /\
    nth_error (fr_row f) i = Some (fn_node n) /\ fn_child_at n (Some j) = Ok (Some f').
Proof. exact down_up. Qed.
Print Assumptions C36_down_up.

Theorem C36_minimal_round_trip : forall doc, 
  (forall m p, pos_from_minimal (from_root doc) m = Ok p ->
     pos_to_minimal p = m /\ pos_from_minimal (from_root doc) (pos_to_minimal p) = Ok p) /\
  (forall m r, rg_from_minimal (from_root doc) m = Ok r ->
     rg_to_minimal r = m /\ rg_from_minimal (from_root doc) (rg_to_minimal r) = Ok r) /\
  (wf_row doc -> forall m, (exists p, pos_from_minimal (from_root doc) m = Ok p) <-> valid_pos doc m) /\
  (wf_row doc -> forall m, (exists r, rg_from_minimal (from_root doc) m = Ok r) <-> valid_range doc m).
Proof. exact minimal_round_trip. Qed.
Print Assumptions C36_minimal_round_trip.

Example C36_case : exists f f', walk_down_indices (from_root sample) [(1, 1)] = Ok f /\
  focus_row_at f (0, 2) = Ok (Some f') /\ fr_row f' = [sym "y"; sub [sym "1"]].
Proof. eexists. eexists. repeat split; vm_compute; reflexivity. Qed.

(** * C37: linear and two-dimensional grid indices correspond one to one *)
Theorem C37_index_round_trip : forall T (g : GridVec T) i, 0 < gwidth g ->
  exists xy, from_index i g = Ok xy /\ to_index xy = i /\ ix xy < gwidth g.
Proof. exact index_round_trip. Qed.
Print Assumptions C37_index_round_trip.

(** [get] finds the cell in column x of line y, and nothing outside of the grid. *)
Theorem C37_get : forall T (g : GridVec T) x y, 0 < gwidth g -> length (gvalues g) mod gwidth g = 0 ->
  gget g (mkIndex2D x y (gwidth g)) =
    Ok (if (x <? gwidth g) && (y <? length (gvalues g) / gwidth g)
        then nth_error (gvalues g) (y * gwidth g + x) else None) /\
  (x < gwidth g -> y < length (gvalues g) / gwidth g ->
     exists c, nth_error (gvalues g) (y * gwidth g + x) = Some c).
Proof. exact grid_get. Qed.
Print Assumptions C37_get.

Theorem C37_set : forall T (g : GridVec T) x y c, 0 < gwidth g -> length (gvalues g) mod gwidth g = 0 ->
  x < gwidth g -> y < length (gvalues g) / gwidth g ->
  exists g' old, gset g (mkIndex2D x y (gwidth g)) c = Ok (g', Some old) /\
    gget g (mkIndex2D x y (gwidth g)) = Ok (Some old) /\
    gwidth g' = gwidth g /\ length (gvalues g') = length (gvalues g) /\
    gget g' (mkIndex2D x y (gwidth g)) = Ok (Some c) /\
    forall x' y', (x', y') <> (x, y) ->
      gget g' (mkIndex2D x' y' (gwidth g)) = gget g (mkIndex2D x' y' (gwidth g)).
Proof. exact grid_set. Qed.
Print Assumptions C37_set.

(** Outside of the grid nothing is set. *)
Theorem C37_set_outside : forall T (g : GridVec T) x y c, 0 < gwidth g ->
  gwidth g <= x \/ length (gvalues g) / gwidth g <= y ->
  gset g (mkIndex2D x y (gwidth g)) c = Ok (g, None).
Proof. exact grid_set_outside. Qed.
Print Assumptions C37_set_outside.

Example C37_case : let g := mkGrid [10; 11; 12; 13; 14; 15] 3 in
  gget g (mkIndex2D 2 1 3) = Ok (Some 15) /\ gget g (mkIndex2D 0 2 3) = Ok None /\
  gset g (mkIndex2D 1 1 3) 99 = Ok (mkGrid [10; 11; 12; 13; 99; 15] 3, Some 14).
Proof. repeat split. Qed.

(** * C46: table layout survives editing of cells *)
Theorem C46_wf_preserved : forall cfg es doc doc', wf_row doc ->
  Forall (fun e => match e with
                   | ERow (mkRowEdit Insert _ vs) => wf_row vs
                   | ERow (mkRowEdit Delete _ _) => True
                   | EGrid _ => False
                   end) es ->
  tree_apply_edits cfg doc es = Ok doc' -> wf_row doc'.
Proof. exact wf_preserved. Qed.
Print Assumptions C46_wf_preserved.

(** Every container that is not part of a deleted node keeps its variant, its width and
    its number of cells. [place] tells where a node of the old document is afterwards. *)
Theorem C46_layout_kept : forall cfg doc e doc' q i v g,
  tree_apply_edit cfg doc (ERow e) = Ok doc' -> node_get doc q i = Some (Container v g) ->
  match place e q i with
  | Some (q', i') => exists g', node_get doc' q' i' = Some (Container v g') /\
                      gwidth g' = gwidth g /\ length (gvalues g') = length (gvalues g)
  | None => True
  end.
Proof. exact layout_kept. Qed.
Print Assumptions C46_layout_kept.

Example C46_case : exists doc',
  tree_apply_edit debug_profile sample (ERow (mkRowEdit Insert (mkMinPos [(1, 1); (0, 3)] 0) [sup []])) = Ok doc' /\
  doc' <> sample /\ wf_row [sup []].
Proof.
  eexists. split; [vm_compute; reflexivity|]. split; [discriminate|]. apply wf_rowb_ok. reflexivity.
Qed.
