(** Model of src/component/caret/single-caret-element.ts and of what [renderCarets] (src/component/math-editor.ts:365-428)
    tells it: where the bar of the caret and the rectangles of the selection are put. What the browser measures is given
    by a [Screen]; numbers are rational numbers. *)
From Coq Require Import QArith Qminmax Qabs.
From Verif Require Import Base Str Grid Node Focus Caret NameMap Syntax SyntaxFind Render Layout Viewport.
Set Implicit Arguments.
Open Scope Q_scope.

(** What the browser measures in the drawing of a row: the point of a caret place, the bounds of an element (given by the
    children on the way from the row) and the size of a caret. rendering/render-result.ts:83-92 *)
Record Screen := mkScreen {
  sc_point : RowIndices -> Place -> Point; sc_bounds : RowIndices -> list nat -> Rect; sc_size : RowIndices -> Q }.

(** The styles of the elements of a caret: of the bar [left] (not set at first), [top], whether [display] is none, [height] and
    [marginTop], and of each selection the offset and the size. single-caret-element.ts:4-8 *)
Record CaretDom := mkCaretDom { cd_left : option Q; cd_top : Q; cd_hidden : bool; cd_height : Q; cd_margin_top : Q; cd_selections : list Rect }.
(** single-caret-element.ts:10-27; top, height and margin are those of caret-styles.css:18-29 *)
Definition caret_dom_new : CaretDom := mkCaretDom None 0 false 10 0 [].
(** single-caret-element.ts:33-37; [parent] is the corner of the containing element *)
Definition set_position (parent position : Point) (d : CaretDom) : CaretDom :=
  mkCaretDom (Some (px position - px parent)) (py position - py parent) (cd_hidden d) (cd_height d) (cd_margin_top d) (cd_selections d).
(** single-caret-element.ts:39-48 *)
Definition set_height (v : Q) (d : CaretDom) : CaretDom :=
  mkCaretDom (cd_left d) (cd_top d) (Qle_bool v 0) v (- v) (cd_selections d).
(** single-caret-element.ts:50-63 *)
Definition add_selection (parent : Point) (rect : Rect) (d : CaretDom) : CaretDom :=
  mkCaretDom (cd_left d) (cd_top d) (cd_hidden d) (cd_height d) (cd_margin_top d)
    (cd_selections d ++ [mkRect (rx rect - px parent) (ry rect - py parent) (rwidth rect) (rheight rect)]).
(** single-caret-element.ts:65-67 *)
Definition clear_selections (d : CaretDom) : CaretDom :=
  mkCaretDom (cd_left d) (cd_top d) (cd_hidden d) (cd_height d) (cd_margin_top d) [].

(** What the browser makes of the styles, if the containing element is at [parent]: an absolute element is put at its offset and
    moved by its margin. The bar has no width and is drawn by its shadow, src/component/caret/caret-styles.css:22-28. *)
Definition shown_bar (parent : Point) (d : CaretDom) : option Rect :=
  match cd_left d with
  | Some x => if cd_hidden d then None else Some (mkRect (px parent + x) (py parent + cd_top d + cd_margin_top d) 0 (cd_height d))
  | None => None
  end.
(** As above. single-caret-element.ts:19-24: the container of the selections is at the corner of the containing element *)
Definition shown_selections (parent : Point) (d : CaretDom) : list Rect :=
  map (fun r => mkRect (px parent + rx r) (py parent + ry r) (rwidth r) (rheight r)) (cd_selections d).

Section Overlay.
Variable screen : Screen.
(** The corner of the containing element of the caret; putting styles on its children does not move it. Model only. *)
Variable parent : Point.
(** mathml/render-result.ts:19-80. An infinite height, which the browser ignores as a style, is [None] and throws here; it does
    not occur. *)
Definition rendered_selection (root : Element) (indices : RowIndices) (start end_ : nat) : Res RenderedSelection :=
  ' (a, b, l) <- get_viewport_selection root indices start end_ ;;
  x <- get_element root indices ;;
  base <- get_caret_position x [] 0%nat ;;
  let start_point := sc_point screen indices a in
  let end_point := sc_point screen indices b in
  let forwards := (start <=? end_)%nat in
  rect <- (if (start =? end_)%nat
           then Ok (mkRect (if forwards then px start_point else px end_point) (py start_point) (Qabs (px end_point - px start_point)) (py start_point - py start_point))
           else match selection_rect forwards start_point end_point (map (sc_bounds screen indices) l) with Some r => Ok r | None => throw end) ;;
  Ok (mkRendered rect (py (sc_point screen indices base))).
(** mathml/render-result.ts:81-84 *)
Definition get_viewport_row_bounds (root : Element) (indices : RowIndices) : Res Rect :=
  _ <- get_element root indices ;;
  Ok (sc_bounds screen indices []).
(** mathml/render-result.ts:85-87 *)
Definition get_viewport_caret_size (root : Element) (indices : RowIndices) : Res Q :=
  _ <- get_element root indices ;;
  Ok (sc_size screen indices).
(** math-editor.ts:369-427: one caret *)
Definition overlay (root : Element) (sel : MinimalCaretSelection) : Res CaretDom :=
  let element := caret_dom_new in
  match sel with
  | MSelRow range =>
      rendered <- rendered_selection root (mr_row range) (mr_start range) (mr_end range) ;;
      let forwards := (mr_start range <=? mr_end range)%nat in
      size <- get_viewport_caret_size root (mr_row range) ;;
      let element := set_position parent (mkPoint (rx (rs_rect rendered) + (if forwards then rwidth (rs_rect rendered) else 0)) (rs_baseline rendered + size * (1 # 10))) element in
      let element := set_height size element in
      let element := clear_selections element in
      Ok (if negb (mr_start range =? mr_end range)%nat then add_selection parent (rs_rect rendered) element else element)
  | MSelGrid range =>
      first <- get_viewport_row_bounds root (mg_row range ++ [(mg_index range, rstart (mg_range range))]) ;;
      last <- get_viewport_row_bounds root (mg_row range ++ [(mg_index range, Nat.max (rend (mg_range range) - 1) (rstart (mg_range range)))]) ;;
      let element := clear_selections element in
      let element := add_selection parent (grid_selection first last) element in
      Ok (set_height 0 element)
  end.
End Overlay.
