(** Properties of caret movement and selections (C09, C10, C11, C12, C22, C23, C38). *)
From Coq Require Import String.
From Verif Require Import Base Str Grid Node Focus Edit Caret Spec SpecMove BaseFacts TreeFacts OrderFacts EditFacts
  MoveFacts MoveProofs Samples.
Open Scope list_scope.

(** * C09: Right moves to the next caret position, Left to the previous one *)
Theorem C09_right : forall cfg doc m, wf_row doc -> valid_pos doc m ->
  exists c c', caret_from_minimal doc (collapsed m) = Ok c /\
    nav_move_caret cfg doc c DRight MChar = Ok c' /\
    ((exists m', next_in (positions doc) m m' /\ caret_to_minimal c' = collapsed m') \/
     ((exists l, positions doc = l ++ [m]) /\ c' = c)).
Proof. exact right_or_end. Qed.
Print Assumptions C09_right.

(** With overflow checks on (debug builds) this needs an exception, see
    [C09_left_debug_refuted]. *)
Theorem C09_left_partial : forall cfg doc m, wf_row doc -> valid_pos doc m ->
  (overflow_checks cfg = true -> ~ at_cell_zero m) ->
  exists c c', caret_from_minimal doc (collapsed m) = Ok c /\
    nav_move_caret cfg doc c DLeft MChar = Ok c' /\
    ((exists m', next_in (positions doc) m' m /\ caret_to_minimal c' = collapsed m') \/
     ((exists l, positions doc = m :: l) /\ c' = c)).
Proof. exact left_or_start. Qed.
Print Assumptions C09_left_partial.

(** Left undoes Right and Right undoes Left (release builds). *)
Theorem C09_inverse_partial : forall cfg doc m m', wf_row doc -> overflow_checks cfg = false ->
  next_in (positions doc) m m' ->
  (exists c c' c'', caret_from_minimal doc (collapsed m) = Ok c /\ caret_to_minimal c' = collapsed m' /\
     nav_move_caret cfg doc c DRight MChar = Ok c' /\ nav_move_caret cfg doc c' DLeft MChar = Ok c'' /\ c'' = c) /\
  (exists c c' c'', caret_from_minimal doc (collapsed m') = Ok c /\ caret_to_minimal c' = collapsed m /\
     nav_move_caret cfg doc c DLeft MChar = Ok c' /\ nav_move_caret cfg doc c' DRight MChar = Ok c'' /\ c'' = c).
Proof. exact right_left. Qed.
Print Assumptions C09_inverse_partial.

(** The exception is exact: with overflow checks Left panics at the start of the first cell
    of every container. (The repository's build scripts build the web package with
    [--dev], that is with overflow checks.) *)
Theorem C09_left_debug_panics : forall cfg doc m, wf_row doc -> valid_pos doc m ->
  overflow_checks cfg = true -> at_cell_zero m ->
  exists c, caret_from_minimal doc (collapsed m) = Ok c /\ nav_move_caret cfg doc c DLeft MChar = Panic POverflow.
Proof. exact left_cell_zero. Qed.
Print Assumptions C09_left_debug_panics.

(** Finding: the full statement is false in a debug build. *)
Theorem C09_left_debug_refuted : exists doc m c, wf_row doc /\ valid_pos doc m /\
  caret_from_minimal doc (collapsed m) = Ok c /\
  nav_move_caret debug_profile doc c DLeft MChar = Panic POverflow.
Proof.
  exists sample, (mkMinPos [(1, 0)] 0). eexists. split; [exact sample_wf|].
  split; [eexists; split; [vm_compute; reflexivity|vm_compute; lia]|].
  split; vm_compute; reflexivity.
Qed.
Print Assumptions C09_left_debug_refuted.

(** From behind the "2" in c^2 to behind the superscript. *)
Example C09_case : valid_pos sample (mkMinPos [(1, 0); (2, 0)] 1) /\
  (c <- caret_from_minimal sample (collapsed (mkMinPos [(1, 0); (2, 0)] 1)) ;;
   c' <- nav_move_caret debug_profile sample c DRight MChar ;; Ok (caret_to_minimal c'))
  = Ok (collapsed (mkMinPos [(1, 0)] 3)) /\ ~ at_cell_zero (mkMinPos [(1, 0); (2, 0)] 1).
Proof.
  split; [eexists; split; [vm_compute; reflexivity|vm_compute; lia]|].
  split; [vm_compute; reflexivity|]. intros [H _]. discriminate.
Qed.

(** * C10: pressing Right repeatedly visits every caret position exactly once *)
Theorem C10_right_visits_all : forall cfg doc k, wf_row doc -> exists c0 c m,
  caret_from_minimal doc default_caret = Ok c0 /\ presses cfg doc DRight k c0 = Ok c /\
  caret_to_minimal c = collapsed m /\
  nth_error (positions doc) (Nat.min k (length (positions doc) - 1)) = Some m.
Proof. exact right_visits_all. Qed.
Print Assumptions C10_right_visits_all.

Theorem C10_left_visits_all_partial : forall cfg doc k, wf_row doc -> overflow_checks cfg = false -> exists c0 c m,
  caret_from_minimal doc (collapsed (mkMinPos [] (length doc))) = Ok c0 /\ presses cfg doc DLeft k c0 = Ok c /\
  caret_to_minimal c = collapsed m /\
  nth_error (positions doc) (length (positions doc) - 1 - k) = Some m.
Proof. exact left_visits_all. Qed.
Print Assumptions C10_left_visits_all_partial.

Example C10_case :
  (c0 <- caret_from_minimal sample default_caret ;; c <- presses release_profile sample DRight 24 c0 ;;
   c' <- presses release_profile sample DLeft 24 c ;; Ok (caret_to_minimal c, caret_to_minimal c'))
  = Ok (collapsed (mkMinPos [] 3), default_caret).
Proof. vm_compute. reflexivity. Qed.

(** * C11: arrow keys never panic and always land on a valid position *)
Theorem C11_arrows_partial : forall cfg doc m d, wf_row doc ->
  valid_pos doc (mc_start m) -> valid_pos doc (mc_end m) ->
  (overflow_checks cfg = true -> d = DLeft ->
     forall r p q, pos_from_minimal (from_root doc) (mc_start m) = Ok p ->
       pos_from_minimal (from_root doc) (mc_end m) = Ok q ->
       range_from_positions doc p q = Ok r -> ~ at_cell_zero (range_left (rg_to_minimal r))) ->
  exists c c', caret_from_minimal doc m = Ok c /\ nav_move_caret cfg doc c d MChar = Ok c' /\
    valid_pos doc (mc_start (caret_to_minimal c')) /\ valid_pos doc (mc_end (caret_to_minimal c')).
Proof. exact arrows_ok. Qed.
Print Assumptions C11_arrows_partial.

Theorem C11_debug_refuted : exists doc m d c, wf_row doc /\ valid_pos doc m /\
  caret_from_minimal doc (collapsed m) = Ok c /\
  exists k, nav_move_caret debug_profile doc c d MChar = Panic k.
Proof.
  exists sample, (mkMinPos [(2, 0)] 0), DLeft. eexists. split; [exact sample_wf|].
  split; [eexists; split; [vm_compute; reflexivity|vm_compute; lia]|].
  split; [vm_compute; reflexivity|]. eexists. vm_compute. reflexivity.
Qed.
Print Assumptions C11_debug_refuted.

(** The selection from the superscript to the second line of the table, moved Up and Left. *)
Example C11_case : forall d, In d [DLeft; DRight; DUp; DDown] ->
  valid_pos sample (mkMinPos [(1, 0); (2, 0)] 1) /\ valid_pos sample (mkMinPos [(1, 1); (0, 2)] 1) /\
  is_ok (c <- caret_from_minimal sample (mkMinCaret (mkMinPos [(1, 0); (2, 0)] 1) (mkMinPos [(1, 1); (0, 2)] 1)) ;;
         nav_move_caret debug_profile sample c d MChar) = true.
Proof.
  intros d Hd. split; [eexists; split; [vm_compute; reflexivity|vm_compute; lia]|].
  split; [eexists; split; [vm_compute; reflexivity|vm_compute; lia]|].
  repeat (destruct Hd as [<-|Hd]; [vm_compute; reflexivity|]). destruct Hd.
Qed.

(** * C12: Up and Down *)
Theorem C12_vertical : forall cfg doc m d, wf_row doc -> valid_pos doc m ->
  exists c c' t, caret_from_minimal doc (collapsed m) = Ok c /\
    nav_move_caret cfg doc c (match d with VUp => DUp | VDown => DDown end) MChar = Ok c' /\
    match d with VUp => up_from doc (mp_row m) t | VDown => down_from doc (mp_row m) t end /\
    match t with Some m' => caret_to_minimal c' = collapsed m' | None => c' = c end.
Proof. exact vertical_ok. Qed.
Print Assumptions C12_vertical.

(** The specification leaves no choice. *)
Theorem C12_up_determined : forall doc p t t', up_from doc p t -> up_from doc p t' -> t = t'.
Proof. exact up_fun. Qed.
Print Assumptions C12_up_determined.
Theorem C12_down_determined : forall doc p t t', down_from doc p t -> down_from doc p t' -> t = t'.
Proof. exact down_fun. Qed.
Print Assumptions C12_down_determined.

(** Up from the nested subscript in the lower left cell: to the end of the cell above. *)
Example C12_case :
  up_from sample [(1, 1); (0, 2); (1, 0)] (Some (mkMinPos [(1, 1); (0, 0)] 1)) /\
  (c <- caret_from_minimal sample (collapsed (mkMinPos [(1, 1); (0, 2); (1, 0)] 1)) ;;
   c' <- nav_move_caret debug_profile sample c DUp MChar ;; Ok (caret_to_minimal c'))
  = Ok (collapsed (mkMinPos [(1, 1); (0, 0)] 1)).
Proof.
  split; [|vm_compute; reflexivity].
  apply (up_out sample [(1, 1); (0, 2)] 1 0 Sub (mkGrid [[sym "1"]] 1));
    [vm_compute; reflexivity|discriminate|simpl; lia|].
  apply (up_cell sample [(1, 1)] 0 2 0 Table (mkGrid [[sym "x"]; []; [sym "y"; sub [sym "1"]]; [sym "z"]] 2) [sym "x"]);
    [vm_compute; reflexivity|discriminate|reflexivity|reflexivity].
Qed.

(** * C22: classification of selections *)
Theorem C22_selection : forall doc a b, wf_row doc -> valid_pos doc a -> valid_pos doc b ->
  exists s e sel, pos_from_minimal (from_root doc) a = Ok s /\ pos_from_minimal (from_root doc) b = Ok e /\
    selection_from_positions doc s e = Ok sel /\
    (forall p i g j j', in_table_cells doc a b p i g j j' ->
       sel_to_minimal sel = MSelGrid (mkMinGridRange p i (mkRect (Nat.min j j') (Nat.max j j' + 1) (gwidth g)))) /\
    ((forall p i g j j', ~ in_table_cells doc a b p i g j j') ->
       exists r, sel = SelRow r /\ range_from_positions doc s e = Ok r).
Proof. exact selection_class. Qed.
Print Assumptions C22_selection.

Example C22_case : let g := mkGrid [[sym "x"]; []; [sym "y"; sub [sym "1"]]; [sym "z"]] 2 in
  let a := mkMinPos [(1, 1); (0, 2); (1, 0)] 1 in let b := mkMinPos [(1, 1); (0, 1)] 0 in
  in_table_cells sample a b [(1, 1)] 0 g 2 1 /\
  (s <- pos_from_minimal (from_root sample) a ;; e <- pos_from_minimal (from_root sample) b ;;
   sel <- selection_from_positions sample s e ;; Ok (sel_to_minimal sel))
  = Ok (MSelGrid (mkMinGridRange [(1, 1)] 0 (mkRect 1 3 2))).
Proof.
  cbv zeta. split; [|vm_compute; reflexivity].
  split; [reflexivity|]. split; [discriminate|]. split; eexists; reflexivity.
Qed.

(** * C23: a table selection is the bounding rectangle of its two cells *)
(** What holds: the corners are those of the first and last selected cell in reading
    order, whatever the drag direction; they are the corners of the bounding rectangle if
    the columns of the two cells are ordered like the cells. Missing: the other diagonal,
    see [C23_refuted]. *)
Theorem C23_corners_partial : forall doc a b p i g j j', wf_row doc -> valid_pos doc a -> valid_pos doc b ->
  in_table_cells doc a b p i g j j' ->
  exists s e r, pos_from_minimal (from_root doc) a = Ok s /\ pos_from_minimal (from_root doc) b = Ok e /\
    selection_from_positions doc s e = Ok (SelGrid r) /\
    (exists r', selection_from_positions doc e s = Ok (SelGrid r') /\ gr_to_minimal r' = gr_to_minimal r) /\
    let w := gwidth g in
    gr_top_left r = Ok (Nat.min j j' mod w, Nat.min j j' / w) /\
    gr_bottom_right r = Ok (Some (Nat.max j j' mod w, Nat.max j j' / w)) /\
    (Nat.min j j' mod w <= Nat.max j j' mod w ->
     gr_top_left r = Ok (Nat.min (j mod w) (j' mod w), Nat.min (j / w) (j' / w)) /\
     gr_bottom_right r = Ok (Some (Nat.max (j mod w) (j' mod w), Nat.max (j / w) (j' / w)))).
Proof. exact grid_selection_corners. Qed.
Print Assumptions C23_corners_partial.

(** Finding: selecting from the upper right to the lower left cell gives a "top left"
    corner that is to the right of the "bottom right" one. *)
Theorem C23_refuted : exists doc a b p i g j j' s e r tl br, wf_row doc /\
  in_table_cells doc a b p i g j j' /\
  pos_from_minimal (from_root doc) a = Ok s /\ pos_from_minimal (from_root doc) b = Ok e /\
  selection_from_positions doc s e = Ok (SelGrid r) /\
  gr_top_left r = Ok tl /\ gr_bottom_right r = Ok (Some br) /\ fst br < fst tl /\
  tl <> (Nat.min (j mod gwidth g) (j' mod gwidth g), Nat.min (j / gwidth g) (j' / gwidth g)).
Proof.
  exists sample, (mkMinPos [(1, 1); (0, 1)] 0), (mkMinPos [(1, 1); (0, 2)] 0), [(1, 1)], 0,
    (mkGrid [[sym "x"]; []; [sym "y"; sub [sym "1"]]; [sym "z"]] 2), 1, 2.
  do 5 eexists. split; [exact sample_wf|].
  split; [split; [reflexivity|split; [discriminate|split; eexists; reflexivity]]|].
  split; [vm_compute; reflexivity|]. split; [vm_compute; reflexivity|]. split; [vm_compute; reflexivity|].
  split; [vm_compute; reflexivity|]. split; [vm_compute; reflexivity|]. split; [simpl; lia|discriminate].
Qed.
Print Assumptions C23_refuted.

(** * C38: a grid view shows exactly the cells of its rectangle *)
(** What holds: rectangles that consist of whole lines. *)
Theorem C38_whole_lines_partial : forall T (g : GridVec T) k m,
  0 < gwidth g -> length (gvalues g) mod gwidth g = 0 ->
  k <= m -> m < length (gvalues g) / gwidth g ->
  exists r, rect_from_indices_inclusive (mkIndex2D 0 k (gwidth g)) (mkIndex2D (gwidth g - 1) m (gwidth g)) g = Ok r /\
    rect_size r = Ok (gwidth g, m + 1 - k) /\
    forall x y, view_get g r (mkIndex2D x y (gwidth g)) =
      Ok (if (x <? gwidth g) && (y <? m + 1 - k) then nth_error (gvalues g) ((k + y) * gwidth g + x) else None).
Proof. exact whole_lines_view. Qed.
Print Assumptions C38_whole_lines_partial.

Example C38_case : exists r,
  rect_from_indices_inclusive (mkIndex2D 0 1 2) (mkIndex2D 1 2 2) (mkGrid [10; 11; 12; 13; 14; 15] 2) = Ok r /\
  view_get (mkGrid [10; 11; 12; 13; 14; 15] 2) r (mkIndex2D 1 1 2) = Ok (Some 15).
Proof. eexists. split; vm_compute; reflexivity. Qed.

(** Finding: the view of the single upper left cell of a 2x2 grid has height 0 and width 2,
    and does not contain the cell. *)
Theorem C38_refuted : exists (g : GridVec nat) xy r c, gget g xy = Ok (Some c) /\
  rect_from_indices_inclusive xy xy g = Ok r /\ rect_size r = Ok (2, 0) /\
  forall x y w, view_get g r (mkIndex2D x y w) = Ok None.
Proof.
  exists (mkGrid [10; 11; 12; 13] 2), (mkIndex2D 0 0 2). do 2 eexists.
  split; [vm_compute; reflexivity|]. split; [vm_compute; reflexivity|]. split; [vm_compute; reflexivity|].
  intros x y w. unfold view_get. change (rect_size (mkRect 0 1 2)) with (Ok (2, 0)). cbn [bind]. f_equal.
  unfold with_size; cbn [iwidth ix iy fst snd]. change (0 <=? y) with true. rewrite orb_true_r. reflexivity.
Qed.
Print Assumptions C38_refuted.

(** * C47: an arrow key with a selection continues at its edge *)
Theorem C47_selection_arrows_partial : forall cfg doc m c r, wf_row doc -> caret_from_minimal doc m = Ok c ->
  c_selection c = SelRow r -> rg_start r <> rg_end r ->
  let R := rg_to_minimal r in
  (exists c' q, nav_move_caret cfg doc c DRight MChar = Ok c' /\ caret_to_minimal c' = collapsed q /\
     (next_in (positions doc) (range_right R) q \/ ((exists l, positions doc = l ++ [range_right R]) /\ q = range_right R))) /\
  ((overflow_checks cfg = true -> ~ at_cell_zero (range_left R)) ->
   exists c' q, nav_move_caret cfg doc c DLeft MChar = Ok c' /\ caret_to_minimal c' = collapsed q /\
     (next_in (positions doc) q (range_left R) \/ ((exists l, positions doc = range_left R :: l) /\ q = range_left R))) /\
  (exists c' t, nav_move_caret cfg doc c DUp MChar = Ok c' /\ up_from doc (mr_row R) t /\
     caret_to_minimal c' = collapsed (match t with Some q => q | None => range_left R end)) /\
  (exists c' t, nav_move_caret cfg doc c DDown MChar = Ok c' /\ down_from doc (mr_row R) t /\
     caret_to_minimal c' = collapsed (match t with Some q => q | None => range_right R end)).
Proof. exact selection_arrows. Qed.
Print Assumptions C47_selection_arrows_partial.

(** The whole document selected: the arrows collapse the selection at its ends. *)
Example C47_case : exists c r, caret_from_minimal sample (mkMinCaret (here 3) (here 0)) = Ok c /\ c_selection c = SelRow r /\
  rg_start r <> rg_end r /\
  map (fun d => match nav_move_caret debug_profile sample c d MChar with Ok c' => Some (caret_to_minimal c') | _ => None end)
      [DLeft; DRight; DUp; DDown] = map Some [collapsed (here 0); collapsed (here 3); collapsed (here 0); collapsed (here 3)].
Proof.
  do 2 eexists. split; [vm_compute; reflexivity|]. split; [vm_compute; reflexivity|].
  split; [vm_compute; lia|]. vm_compute. reflexivity.
Qed.
