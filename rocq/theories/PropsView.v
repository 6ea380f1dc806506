(** Rectangles and distances (C71), and the caret position that a click gives (C72). *)
From Coq Require Import String QArith Qround Qminmax Qabs Lqa.
From Verif Require Import Base Str Grid Node Focus Edit Caret Autocomplete Editor Rules Spec NameMap Syntax Pratt Grammar SyntaxFind Render Layout Viewport SpecView SpecClick
  SpecSyntax SpecPratt SpecEditor SpecSafety SpecRender BaseFacts TreeFacts ParseFacts GrammarFacts RenderFacts LayoutFacts ClickFacts ClosestFacts ViewFacts Samples PropsAuto PropsEditor PropsSafety PropsRender.
Open Scope list_scope.
Open Scope Q_scope.

(** * C71: rectangles and distances *)
(** Joining rectangles gives the smallest rectangle that contains both. *)
Theorem C71_join : forall a b, proper_rect a -> proper_rect b -> proper_rect (join_rectangles a b) /\
  (forall p, in_rect p a \/ in_rect p b -> in_rect p (join_rectangles a b)) /\
  (forall c, (forall p, in_rect p a \/ in_rect p b -> in_rect p c) -> forall p, in_rect p (join_rectangles a b) -> in_rect p c).
Proof. intros a b Ha Hb. split; [now apply join_proper|]. split; [apply join_contains|]. intros c. now apply join_least. Qed.
Print Assumptions C71_join.
(** Selections on lines that are less than 5 apart are joined to one on the line of the first that contains both, others are not. It
    has no width only if both have none and are at the same place. *)
Theorem C71_selections : forall a b, proper_rect (rs_rect a) -> proper_rect (rs_rect b) ->
  match join_selections a b with
  | Some c => - (5) < rs_baseline a - rs_baseline b < 5 /\ rs_baseline c = rs_baseline a /\ (forall p, in_rect p (rs_rect a) \/ in_rect p (rs_rect b) -> in_rect p (rs_rect c)) /\
      (is_collapsed c = true <-> rwidth (rs_rect a) == 0 /\ rwidth (rs_rect b) == 0 /\ rx (rs_rect a) == rx (rs_rect b))
  | None => 5 <= rs_baseline a - rs_baseline b \/ rs_baseline a - rs_baseline b <= - (5)
  end.
Proof.
  intros a b Ha Hb. unfold join_selections. destruct (Qlt_le_dec _ 5) as [H|H].
  - split; [revert H; apply Qabs_case; intros H1 H2; split; lra|]. split; [reflexivity|]. split; [apply join_contains|]. unfold is_collapsed. rewrite Qeq_bool_iff. cbn [rs_rect].
    destruct Ha as [Ha _]. destruct Hb as [Hb _]. destruct (rs_rect a) as [ax ay aw ah]. destruct (rs_rect b) as [bx by_ bw bh]. cbn in *.
    destruct (Q.max_spec (ax + aw) (bx + bw)) as [[M1 M2]|[M1 M2]]; destruct (Q.min_spec ax bx) as [[N1 N2]|[N1 N2]]; rewrite M2, N2; split; intros; repeat split; lra.
  - revert H. apply Qabs_case; intros H1 H2; [left|right]; lra.
Qed.
Print Assumptions C71_selections.
Example C71_selections_case : exists c, join_selections (mkRendered (mkRect 0 0 2 1) 1) (mkRendered (mkRect 3 0 1 1) 2) = Some c /\ rwidth (rs_rect c) == 4.
Proof. eexists. split; [vm_compute; reflexivity|]. vm_compute. reflexivity. Qed.
(** The distance to a rectangle is that to its nearest point, and it is 0 exactly for the points in it. *)
Theorem C71_rectangle : forall p r, proper_rect r ->
  least (fun q => in_rect q r) (squared_distance p) (distance_to_rectangle p r) /\ (distance_to_rectangle p r == 0 <-> in_rect p r).
Proof. intros p r H. split; [now apply rect_least|now apply rect_zero]. Qed.
Print Assumptions C71_rectangle.
(** The distance to a segment is that to its nearest point. Missing: segments that are shorter than 0.0032. *)
Theorem C71_segment_partial : forall p a b, 1 # 100000 <= squared_distance a b -> least (on_segment a b) (squared_distance p) (distance_to_segment p a b).
Proof. intros p a b H. now apply segment_least. Qed.
Print Assumptions C71_segment_partial.
(** The distance to a shorter one is that to its first end. *)
Theorem C71_segment_short : forall p a b, ~ 1 # 100000 <= squared_distance a b -> distance_to_segment p a b = squared_distance p a.
Proof. intros p a b H. unfold distance_to_segment. destruct (Qlt_le_dec (distance_to_point a b) epsilon) as [L|L]; [reflexivity|]. exfalso. exact (H L). Qed.
Print Assumptions C71_segment_short.
Example C71_segment_short_case : ~ 1 # 100000 <= squared_distance (mkPoint 0 0) (mkPoint (1 # 1000) 0).
Proof. vm_compute. intros H. now apply H. Qed.
(** A short segment counts as its first end only. *)
Theorem C71_segment_refuted : exists p a b, ~ least (on_segment a b) (squared_distance p) (distance_to_segment p a b).
Proof.
  exists (mkPoint (1 # 1000) 0), (mkPoint 0 0), (mkPoint (1 # 1000) 0). intros [_ H]. specialize (H (mkPoint (1 # 1000) 0)). apply Qle_not_lt in H; [apply H; vm_compute; reflexivity|].
  exists 1. repeat split; vm_compute; try reflexivity; discriminate.
Qed.
Print Assumptions C71_segment_refuted.
(** The rectangle for selected cells is the smallest one that contains the first and the last cell. *)
Theorem C71_cells : forall a b, proper_rect a -> proper_rect b -> 
  (forall p, in_rect p a \/ in_rect p b -> in_rect p (grid_selection a b)) /\
  (forall c, (forall p, in_rect p a \/ in_rect p b -> in_rect p c) -> forall p, in_rect p (grid_selection a b) -> in_rect p c).
Proof.
  intros a b Ha Hb. destruct (grid_selection_join a b Ha Hb) as (E1&E2&E3&E4). split.
  - intros p H. eapply in_rect_eq; [symmetry; exact E1|symmetry; exact E2|symmetry; exact E3|symmetry; exact E4|]. now apply join_contains.
  - intros c H p Hp. apply (join_least a b c Ha Hb H). eapply in_rect_eq; eauto.
Qed.
Print Assumptions C71_cells.
(** The rectangle for a selection goes from one caret to the other, and from the top of the highest selected element to the bottom of
    the lowest one, if what comes later in the row is drawn further to the right. *)
Theorem C71_selection : forall (forwards : bool) (start end_ : Point) (l : list Rect), l <> nil -> (if forwards then px start <= px end_ else px end_ <= px start) -> (forall b, In b l -> proper_rect b) ->
  exists r, selection_rect forwards start end_ l = Some r /\ proper_rect r /\
    forall x y, in_rect (mkPoint x y) r <-> Qmin (px start) (px end_) <= x <= Qmax (px start) (px end_) /\ (exists b, In b l /\ ry b <= y) /\ (exists b, In b l /\ y <= ry b + rheight b).
Proof. exact selection_spans. Qed.
Print Assumptions C71_selection.
(** Two rectangles next to each other, a point right below them, a segment between them *)
Example C71_case : let a := mkRect 0 0 10 20 in let b := mkRect 10 5 4 5 in let p := mkPoint 17 24 in
  proper_rect a /\ proper_rect b /\ join_rectangles a b = mkRect 0 0 (14 - 0) (20 - 0) /\ distance_to_rectangle p (join_rectangles a b) == 25 /\
  distance_to_segment p (mkPoint 0 20) (mkPoint 30 20) == 16 /\
  selection_rect false (mkPoint 14 9) (mkPoint 0 9) [a; b] = Some (mkRect 0 0 14 20).
Proof. repeat split; vm_compute; try reflexivity; discriminate. Qed.

Open Scope nat_scope.
(** * C72: a click gives the closest caret position *)
(** Of the positions of the element that was hit, and of all rows in it, the click gives the closest one. Missing: positions outside of
    the element that was hit. *)
Theorem C72_closest_partial : forall xs xc doc x to_bounds to_place, wf_row doc -> draw xs xc doc = Ok x -> boxes to_bounds to_place ->
  exists p offset place, get_layout_position to_bounds to_place x = Ok (p, offset) /\ offers (get_layout_element to_bounds x) p offset place /\
    forall p' offset' place', offers (get_layout_element to_bounds x) p' offset' place' -> to_place place <= to_place place'.
Proof.
  intros xs xc doc x tb tp Hwf H Hb. apply draw_inv in H as (n&En&Hx).
  exact (click_closest (@default_no_empty_tokens xs xc) (@default_all_containers xs xc) Hb Hwf En Hx).
Qed.
Print Assumptions C72_closest_partial.
(** The element that was hit is in the drawing, and the click is in its bounds, unless it is outside of the drawing. None of the children
    of the element was hit. *)
Theorem C72_hit : forall to_bounds x c path indices, get_layout_element to_bounds x = (c, path, indices) ->
  within (x, [], []) (c, path, indices) /\ (to_bounds [] = 0 -> to_bounds path = 0 /\ forall k, k < List.length (get_children c) -> 0 < to_bounds (path ++ [k])).
Proof. exact hit_spec. Qed.
Print Assumptions C72_hit.
(** The positions of the drawing are those of the document. *)
Theorem C72_positions_partial : forall xs xc doc x, wf_row doc -> draw xs xc doc = Ok x ->
  (forall p row, p <> [] -> row_get doc p = Some row -> ~ whole_script xs xc row) ->
  forall p offset, (exists place, offers (x, [], []) p offset place) <-> exists row, row_get doc p = Some row /\ offset <= List.length row.
Proof.
  intros xs xc doc x Hwf H Hs. apply draw_inv in H as (n&En&Hx).
  apply (fun Hcalm => positions (@default_no_empty_tokens xs xc) (@default_all_containers xs xc) Hwf Hcalm En Hx).
  intros p row n' Hp Hrow En' (tag&Et). apply (Hs p row Hp Hrow). exists n'. split; [exact En'|]. now apply default_scripts in Et.
Qed.
Print Assumptions C72_positions_partial.
(** A click outside of the drawing gives the closest position of the whole document. *)
Theorem C72_outside : forall xs xc doc x to_bounds to_place, wf_row doc -> draw xs xc doc = Ok x -> boxes to_bounds to_place -> 0 < to_bounds [] ->
  exists p offset place, get_layout_position to_bounds to_place x = Ok (p, offset) /\ offers (x, [], []) p offset place /\
    forall p' offset' place', offers (x, [], []) p' offset' place' -> to_place place <= to_place place'.
Proof.
  intros xs xc doc x tb tp Hwf H Hb Ho. destruct (C72_closest_partial xs xc doc x tb tp Hwf H Hb) as (p&o&pl&E&H1&H2). rewrite (outside_hit x Ho) in H1, H2. eauto 6.
Qed.
Print Assumptions C72_outside.
(** What a browser measures meets the condition: elements are in the bounds of the elements they are in, and carets too. *)
Theorem C72_boxes : forall geo p, nested geo -> boxes (bounds_distance geo p) (place_distance geo p).
Proof.
  intros geo p (Hp&Hn&Hi) path path' spot. unfold bounds_distance, place_distance, whole. apply Z2Nat.inj_le; [..|apply Qfloor_resp_le].
  - rewrite <- (Qfloor_Z 0). apply Qfloor_resp_le. rewrite distance_rect. pose proof (square_nonneg (gap (px p) (rx (bounds_of geo path)) (rwidth (bounds_of geo path)))). pose proof (square_nonneg (gap (py p) (ry (bounds_of geo path)) (rheight (bounds_of geo path)))).
    unfold square. change (inject_Z 0) with (0 + 0)%Q. now apply Qplus_le_compat.
  - rewrite <- (Qfloor_Z 0). apply Qfloor_resp_le. unfold distance_to_point, square. change (inject_Z 0) with (0 + 0)%Q. apply Qplus_le_compat; apply square_nonneg.
  - apply point_in_rect; [apply Hp|]. apply (Hn path path'). apply Hi.
Qed.
Print Assumptions C72_boxes.
(** A fraction in parentheses that are as high as the fraction; the caret is drawn on the baseline. *)
Definition tall : InputRow := [sym "("; fraction [sym "b"] [sym "c"]; sym ")"].
Definition tall_bounds (path : list nat) : Rect :=
  match path with
  | 0 :: _ => mkRect 0 0 10 60
  | 1 :: 0 :: _ => mkRect 10 0 20 25
  | 1 :: 1 :: _ => mkRect 10 35 20 25
  | 1 :: _ => mkRect 10 0 20 60
  | 2 :: _ => mkRect 30 0 10 60
  | _ => mkRect 0 0 40 60
  end.
Definition tall_geometry : Geometry := mkGeometry tall_bounds (fun '(path, spot) =>
  let b := tall_bounds path in
  mkPoint (match spot with AtRight | AtEndReader | AtLastText => rx b + rwidth b | _ => rx b end)%Q (match path with 1 :: 0 :: _ => 20%Q | 1 :: 1 :: _ => 55%Q | _ => 36%Q end)).
Lemma tall_nested : nested tall_geometry.
Proof.
  assert (N : forall path path' p, in_rect p (tall_bounds (path ++ path')) -> in_rect p (tall_bounds path)).
  { intros path path' p. unfold in_rect.
    destruct path as [|[|[|[|k]]] [|[|[|j]] path]]; cbn [app tall_bounds]; auto; destruct path' as [|[|[|[|k']]] [|[|[|j']] path']]; cbn [app tall_bounds rx ry rwidth rheight]; auto; intros [[] []]; split; split; Lqa.lra. }
  split; [|split].
  - intros path. split; destruct path as [|[|[|[|k]]] [|[|[|j]] path]]; vm_compute; discriminate.
  - exact N.
  - intros [path spot]. cbn [tall_geometry point_of bounds_of fst]. unfold in_rect. cbn [px py].
    destruct path as [|[|[|[|k]]] [|[|[|j]] path]]; destruct spot; repeat split; vm_compute; discriminate.
Qed.
(** A click near the top of the opening parenthesis: its own right side is closest of its positions, but the start of the numerator is closer. *)
Theorem C72_refuted : exists doc geo click x p offset place p' offset' place', wf_row doc /\ draw ascii_letter ascii_continue doc = Ok x /\ nested geo /\
  get_layout_position (bounds_distance geo click) (place_distance geo click) x = Ok (p, offset) /\ offers (x, [], []) p offset place /\
  offers (x, [], []) p' offset' place' /\ (squared_distance click (point_of geo place') < squared_distance click (point_of geo place))%Q.
Proof.
  exists tall, tall_geometry, (mkPoint 9 15). eexists. exists [], 1, ([0], AtRight), [(1, 0)], 0, ([1; 0], AtLeft).
  split; [apply wf_rowb_ok; reflexivity|]. split; [vm_compute; reflexivity|]. split; [exact tall_nested|]. split; [vm_compute; reflexivity|]. split; [|split].
  - do 2 eexists. split; [constructor|]. split; [now left|]. split; [vm_compute; split; repeat constructor|vm_compute; reflexivity].
  - do 2 eexists. split; [eapply within_child with (k := 1); [reflexivity|eapply within_child with (k := 0); [reflexivity|apply within_here]]|].
    split; [right; discriminate|]. split; [vm_compute; split; repeat constructor|vm_compute; reflexivity].
  - vm_compute. reflexivity.
Qed.
Print Assumptions C72_refuted.
(** A click below the drawing gives the end of the denominator. *)
Example C72_case : exists x, draw ascii_letter ascii_continue tall = Ok x /\ 
  get_layout_position (bounds_distance tall_geometry (mkPoint 29 70)) (place_distance tall_geometry (mkPoint 29 70)) x = Ok ([(1, 1)], 1) /\ 0 < bounds_distance tall_geometry (mkPoint 29 70) [].
Proof. eexists. split; [vm_compute; reflexivity|]. split; [vm_compute; reflexivity|]. vm_compute. repeat constructor. Qed.
