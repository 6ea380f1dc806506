(** Where the caret and the selection are put on the screen (C90). *)
From Coq Require Import String QArith Qminmax Qabs Lqa.
From Verif Require Import Base Str Grid Node Focus Edit Caret Autocomplete Editor Rules Spec NameMap Syntax Pratt Grammar SyntaxFind Render Layout Viewport Overlay SpecView
  SpecSyntax SpecPratt SpecRender SpecEditor SpecSafety SpecCover BaseFacts TreeFacts MoveFacts ParseFacts GrammarFacts RenderFacts LayoutFacts ViewFacts Samples PropsAuto PropsEditor PropsSafety PropsRender PropsCover PropsView.
Open Scope list_scope.
Open Scope Q_scope.

(** What comes later in the row at [p], drawn as [x], is not further to the left. *)
Definition left_to_right (screen : Screen) (p : RowIndices) (x : Element) : Prop :=
  forall i j a b, (i <= j)%nat -> get_caret_position x [] i = Ok a -> get_caret_position x [] j = Ok b -> px (sc_point screen p a) <= px (sc_point screen p b).
(** The rectangle reaches from the height [top] to the height [bottom]. *)
Definition covers (r : Rect) (top bottom : Q) : Prop := ry r <= top /\ bottom <= ry r + rheight r.

(** * C90: the caret and the selection are where the editor has them *)
Lemma rendered_row screen xs xc doc x p row a b : wf_row doc -> draw xs xc doc = Ok x -> row_get doc p = Some row -> (a <= List.length row)%nat -> (b <= List.length row)%nat ->
  (forall path, proper_rect (sc_bounds screen p path)) -> (forall x', get_element x p = Ok x' -> left_to_right screen p x') ->
  exists x' place0 pa pb r, get_element x p = Ok x' /\ get_caret_position x' [] 0 = Ok place0 /\ get_caret_position x' [] a = Ok pa /\ get_caret_position x' [] b = Ok pb /\
    rendered_selection screen x p a b = Ok (mkRendered r (py (sc_point screen p place0))) /\
    rx r + (if (a <=? b)%nat then rwidth r else 0) == px (sc_point screen p pb) /\
    (a <> b -> proper_rect r /\ rx r == Qmin (px (sc_point screen p pa)) (px (sc_point screen p pb)) /\ rx r + rwidth r == Qmax (px (sc_point screen p pa)) (px (sc_point screen p pb)) /\
      exists l, get_viewport_selection x p a b = Ok (pa, pb, l) /\ (forall path, In path l -> covers r (ry (sc_bounds screen p path)) (ry (sc_bounds screen p path) + rheight (sc_bounds screen p path))) /\
        (exists path, In path l /\ ry r == ry (sc_bounds screen p path)) /\ (exists path, In path l /\ ry r + rheight r == ry (sc_bounds screen p path) + rheight (sc_bounds screen p path))).
Proof.
  intros Hwf H Hrow Ha Hb Hp Hl.
  destruct (C57_selection xs xc doc x p row a b Hwf H Hrow Ha Hb) as (pa&pb&l&E&N). pose proof E as E'.
  unfold get_viewport_selection in E'. apply bind_ok in E' as (x'&Ex&E'). apply bind_ok in E' as (p0&E0&E'). apply bind_ok in E' as (p1&E1&E'). apply bind_ok in E' as (p2&E2&E').
  assert (p1 = pa /\ p2 = pb) as [-> ->] by (inv E'; auto). clear E'. specialize (Hl _ Ex).
  unfold rendered_selection. rewrite E. cbn [bind]. rewrite Ex. cbn [bind]. rewrite E0. cbn [bind].
  destruct (a =? b)%nat eqn:Hab.
  - apply Nat.eqb_eq in Hab. subst b. rewrite E1 in E2. inv E2. exists x', p0, pb, pb. eexists. cbn [bind]. do 4 (split; [first [reflexivity|assumption]|]). split; [reflexivity|].
    split; [|congruence]. rewrite Nat.leb_refl. cbn [rx rwidth]. rewrite Qabs_pos by lra. lra.
  - apply Nat.eqb_neq in Hab. set (bs := map (sc_bounds screen p) l).
    assert (D : if (a <=? b)%nat then px (sc_point screen p pa) <= px (sc_point screen p pb) else px (sc_point screen p pb) <= px (sc_point screen p pa)).
    { destruct (a <=? b)%nat eqn:L; [apply Nat.leb_le in L; exact (Hl _ _ _ _ L E1 E2)|apply Nat.leb_gt, Nat.lt_le_incl in L; exact (Hl _ _ _ _ L E2 E1)]. }
    assert (bs <> []) as Hbs by (subst bs; specialize (N Hab); destruct l; [congruence|discriminate]).
    destruct (content_some bs Hbs) as (top&bottom&C). destruct (content_bounds _ _ _ C) as (C1&(bt&Ht&Et)&(bm&Hm&Em)).
    unfold selection_rect. fold bs. rewrite C. cbn [bind]. exists x', p0, pa, pb. eexists. do 4 (split; [first [reflexivity|assumption]|]). split; [reflexivity|]. cbn [rx ry rwidth rheight].
    assert (Hx : exists lo hi, lo <= hi /\ (if (a <=? b)%nat then px (sc_point screen p pa) else px (sc_point screen p pb)) == lo /\ Qabs (px (sc_point screen p pb) - px (sc_point screen p pa)) == hi - lo /\
      Qmin (px (sc_point screen p pa)) (px (sc_point screen p pb)) == lo /\ Qmax (px (sc_point screen p pa)) (px (sc_point screen p pb)) == hi /\
      (if (a <=? b)%nat then hi else lo) == px (sc_point screen p pb)).
    { destruct (a <=? b)%nat.
      - do 2 eexists. split; [exact D|]. rewrite Qabs_pos by lra. rewrite Q.min_l, Q.max_r by assumption. repeat split; lra.
      - do 2 eexists. split; [exact D|]. rewrite Qabs_neg by lra. rewrite Q.min_r, Q.max_l by assumption. repeat split; lra. }
    destruct Hx as (lo&hi&Hlh&X1&X2&X3&X4&X5).
    split; [destruct (a <=? b)%nat; lra|]. intros _.
    split; [split; cbn [rwidth rheight]; [lra|destruct (C1 bt Ht); apply in_map_iff in Ht as (q&<-&_); destruct (Hp q); lra]|].
    split; [lra|]. split; [lra|]. exists l. split; [reflexivity|]. split; [|split].
    + intros path I. destruct (C1 (sc_bounds screen p path)) as [L1 L2]; [now apply in_map|]. split; cbn [ry rheight]; lra.
    + apply in_map_iff in Ht as (q&<-&I). exists q. split; [exact I|lra].
    + apply in_map_iff in Hm as (q&<-&I). exists q. split; [exact I|lra].
Qed.
(** For every selection in a row and wherever the containing element is: the bar is at the end of the selection that moves, ends a tenth of its
    height below the base line of the row and is shown unless it has no height. There is no rectangle if nothing is selected.
    Otherwise there is exactly one. It reaches from one end of the selection to the other, is high enough for elements that
    draw all that is selected, and no higher than such elements need. *)
Theorem C90_row : forall screen parent xs xc doc x p row a b, wf_row doc -> draw xs xc doc = Ok x -> row_get doc p = Some row -> (a <= List.length row)%nat -> (b <= List.length row)%nat ->
  (forall path, proper_rect (sc_bounds screen p path)) -> (forall x', get_element x p = Ok x' -> left_to_right screen p x') ->
  exists d x' place0 pa pb, overlay screen parent x (MSelRow (mkMinRange p a b)) = Ok d /\
    get_element x p = Ok x' /\ get_caret_position x' [] 0 = Ok place0 /\ get_caret_position x' [] a = Ok pa /\ get_caret_position x' [] b = Ok pb /\
    (0 < sc_size screen p -> exists bar, shown_bar parent d = Some bar /\ rx bar == px (sc_point screen p pb) /\ rwidth bar == 0 /\ rheight bar == sc_size screen p /\
      ry bar + rheight bar == py (sc_point screen p place0) + sc_size screen p / 10) /\
    (sc_size screen p <= 0 -> shown_bar parent d = None) /\
    (a = b -> shown_selections parent d = []) /\
    (a <> b -> exists r, shown_selections parent d = [r] /\ proper_rect r /\
      rx r == Qmin (px (sc_point screen p pa)) (px (sc_point screen p pb)) /\ rx r + rwidth r == Qmax (px (sc_point screen p pa)) (px (sc_point screen p pb)) /\
      let bounds := sc_bounds screen p in
      (forall k, (Nat.min a b <= k < Nat.max a b)%nat -> exists path y, element_at x' path = Some y /\ draws y k /\ covers r (ry (bounds path)) (ry (bounds path) + rheight (bounds path))) /\
      let touched path := exists y, element_at x' path = Some y /\ (fst (element_range y) < Nat.max a b /\ Nat.min a b < snd (element_range y))%nat /\
        (get_children y <> [] -> Nat.min a b <= fst (element_range y) /\ snd (element_range y) <= Nat.max a b)%nat in
      (exists path, touched path /\ ry r == ry (bounds path)) /\ (exists path, touched path /\ ry r + rheight r == ry (bounds path) + rheight (bounds path))).
Proof.
  intros screen parent xs xc doc x p row a b Hwf H Hrow Ha Hb Hp Hl.
  destruct (rendered_row _ _ _ _ _ _ _ _ _ Hwf H Hrow Ha Hb Hp Hl) as (x'&p0&pa&pb&r&Ex&E0&Ea&Eb&E&X&S). eexists _, x', p0, pa, pb.
  split; [unfold overlay; cbn [mr_row mr_start mr_end]; rewrite E; cbn [bind]; unfold get_viewport_caret_size; rewrite Ex; cbn [bind]; reflexivity|].
  do 4 (split; [assumption|]). cbn [rs_rect rs_baseline]. split; [|split; [|split]].
  - intros Hs. assert (Qle_bool (sc_size screen p) 0 = false) as Q. { destruct (Qle_bool _ 0) eqn:Q; [apply Qle_bool_iff in Q; lra|reflexivity]. }
    assert (B : forall d, cd_hidden d = false -> cd_left d = Some (rx r + (if (a <=? b)%nat then rwidth r else 0) - px parent) -> cd_top d = py (sc_point screen p p0) + sc_size screen p * (1 # 10) - py parent ->
      cd_margin_top d = - sc_size screen p -> cd_height d = sc_size screen p -> exists bar, shown_bar parent d = Some bar /\ rx bar == px (sc_point screen p pb) /\ rwidth bar == 0 /\ rheight bar == sc_size screen p /\
      ry bar + rheight bar == py (sc_point screen p p0) + sc_size screen p / 10).
    { intros d D1 D2 D3 D4 D5. unfold shown_bar. rewrite D1, D2, D3, D4, D5. eexists. split; [reflexivity|]. cbn [rx ry rwidth rheight]. split; [lra|]. split; [lra|]. split; [lra|]. field. }
    destruct (negb _); apply B; try reflexivity; exact Q.
  - intros Hs. apply Qle_bool_iff in Hs. unfold shown_bar. destruct (negb _); cbn [add_selection clear_selections set_height set_position cd_left cd_hidden]; now rewrite Hs.
  - intros ->. rewrite Nat.eqb_refl. reflexivity.
  - intros Hab. destruct (S Hab) as (P1&X1&X2&l&El&L1&L2&L3). pose proof Hab as Hn. apply Nat.eqb_neq in Hn. rewrite Hn. cbn [negb]. unfold shown_selections. cbn [add_selection clear_selections set_height set_position cd_selections app map rx ry rwidth rheight].
    eexists. split; [reflexivity|]. destruct P1 as [P1 P2]. split; [split; assumption|]. cbn [rx ry rwidth rheight]. split; [lra|]. split; [lra|].
    destruct (C57_covers xs xc doc x p row a b Hwf H Hrow Ha Hb Hab) as (x2&pa2&pb2&l2&ys&Ex2&El2&F&_&T1&T2&T3). rewrite Ex in Ex2. inv Ex2. rewrite El in El2. inv El2.
    assert (G : forall path, In path l2 -> exists y, In y ys /\ element_at x2 path = Some y).
    { clear - F. induction F as [|q y l ys E F IH]; [intros ? []|]. intros path [->|I]; [exists y; split; [now left|exact E]|]. destruct (IH _ I) as (y'&?&?). exists y'. split; [now right|assumption]. }
    assert (G' : forall y, In y ys -> exists path, In path l2 /\ element_at x2 path = Some y).
    { clear - F. induction F as [|q y l ys E F IH]; [intros ? []|]. intros y' [->|I]; [exists q; split; [now left|exact E]|]. destruct (IH _ I) as (q'&?&?). exists q'. split; [now right|assumption]. }
    split; [|split].
    + intros k Hk. destruct (T3 k Hk) as (y&Iy&Dy). destruct (G' y Iy) as (path&Ip&Ey). exists path, y. split; [exact Ey|]. split; [exact Dy|]. destruct (L1 path Ip). split; cbn [ry rheight]; lra.
    + destruct L2 as (path&Ip&Er). exists path. split; [|lra]. destruct (G path Ip) as (y&Iy&Ey). exists y. auto.
    + destruct L3 as (path&Ip&Er). exists path. split; [|lra]. destruct (G path Ip) as (y&Iy&Ey). exists y. auto.
Qed.
Print Assumptions C90_row.
(** For cells of a table, the bar is hidden, and there is one rectangle, the smallest one that contains the first and the last cell. *)
Theorem C90_cells : forall screen parent xs xc doc x (p : RowIndices) i first last w row row', wf_row doc -> draw xs xc doc = Ok x -> (first <= last)%nat ->
  row_get doc (p ++ [(i, first)]) = Some row -> row_get doc (p ++ [(i, last)]) = Some row' -> (forall p path, proper_rect (sc_bounds screen p path)) ->
  exists d r, overlay screen parent x (MSelGrid (mkMinGridRange p i (Grid.mkRect first (S last) w))) = Ok d /\ shown_bar parent d = None /\ shown_selections parent d = [r] /\
    let cell k := sc_bounds screen (p ++ [(i, k)]) [] in
    (forall q, in_rect q (cell first) \/ in_rect q (cell last) -> in_rect q r) /\
    (forall c, (forall q, in_rect q (cell first) \/ in_rect q (cell last) -> in_rect q c) -> forall q, in_rect q r -> in_rect q c).
Proof.
  intros screen parent xs xc doc x p i first last w row row' Hwf H Hle R1 R2 Hp.
  destruct (C52_rows xs xc doc x _ row Hwf H R1) as (x1&E1&_). destruct (C52_rows xs xc doc x _ row' Hwf H R2) as (x2&E2&_).
  destruct (C71_cells (sc_bounds screen (p ++ [(i, first)]) []) (sc_bounds screen (p ++ [(i, last)]) []) (Hp _ _) (Hp _ _)) as [A B].
  eexists _, _. split; [unfold overlay, get_viewport_row_bounds; cbn [mg_row mg_index mg_range rstart rend]; rewrite E1; cbn [bind]; rewrite Nat.sub_succ, Nat.sub_0_r, Nat.max_l by exact Hle; rewrite E2; cbn [bind]; reflexivity|].
  split; [reflexivity|]. split; [reflexivity|]. cbv zeta. set (g := grid_selection _ _) in *.
  assert (Eq : forall q, in_rect q (mkRect (px parent + (rx g - px parent)) (py parent + (ry g - py parent)) (rwidth g) (rheight g)) <-> in_rect q g).
  { intros q. unfold in_rect. cbn [rx ry rwidth rheight]. split; intros [[? ?] [? ?]]; repeat split; lra. }
  split; [intros q Hq; apply Eq, A, Hq|]. intros c Hc q Hq. apply (B c Hc q), Eq, Hq.
Qed.
Print Assumptions C90_cells.
(** The caret of an editor can always be put on the screen once its document is drawn. *)
Theorem C90_total : forall screen parent xs xc (ed : MathEditor SyntaxNode) x, wf_row (ed_input ed) -> valid_caret (ed_input ed) (ed_caret ed) -> draw xs xc (ed_input ed) = Ok x ->
  exists sel d, get_caret ed = Ok sel /\ overlay screen parent x sel = Ok d.
Proof.
  intros screen parent xs xc ed x Hwf [V1 V2] D. destruct (caret_from_minimal_ok Hwf V1 V2) as (c&Hc&_&_&_&Hsel).
  unfold get_caret. rewrite Hc. cbn [bind]. destruct (c_selection c) as [r|r]; cbn [sel_to_minimal].
  - destruct Hsel as (_&G&_). apply good_range_valid in G. destruct G as (row&Hr&Ha&Hb). destruct (C57_selection xs xc _ x _ row _ _ Hwf D Hr Ha Hb) as (a&b&l&E&N).
    destruct (C53_total xs xc _ x _ row 0%nat Hwf D Hr (Nat.le_0_l _)) as (x'&p0&Ex&E0). exists (MSelRow (rg_to_minimal r)). unfold overlay, rendered_selection, get_viewport_caret_size. rewrite E. cbn [bind]. rewrite Ex. cbn [bind]. rewrite E0. cbn [bind].
    destruct (mr_start _ =? mr_end _)%nat eqn:Hab; cbn [bind]; [eexists; split; reflexivity|]. apply Nat.eqb_neq in Hab. specialize (N Hab).
    destruct (content_some (map (sc_bounds screen (mr_row (rg_to_minimal r))) l)) as (top&bottom&C); [destruct l; [congruence|discriminate]|]. unfold selection_rect. rewrite C. cbn [bind]. eexists. split; reflexivity.
  - destruct Hsel as (p&i&g&j&j'&(Hn&_&Hp1&Hp2)&Hm). rewrite Hm.
    assert (R : forall k a, prefix (p ++ [(i, k)]) (mp_row a) -> valid_pos (ed_input ed) a -> exists row, row_get (ed_input ed) (p ++ [(i, k)]) = Some row).
    { intros k a (q&Hq) (row&Hr&_). rewrite Hq, row_get_app in Hr. destruct (row_get _ (p ++ _)) as [row'|]; [eauto|discriminate]. }
    destruct (R _ _ Hp1 V1) as (row1&R1). destruct (R _ _ Hp2 V2) as (row2&R2). destruct (C52_rows xs xc _ x _ row1 Hwf D R1) as (x1&E1&_). destruct (C52_rows xs xc _ x _ row2 Hwf D R2) as (x2&E2&_).
    assert (M : exists y1 y2, get_element x (p ++ [(i, Nat.min j j')]) = Ok y1 /\ get_element x (p ++ [(i, Nat.max (Nat.max j j' + 1 - 1) (Nat.min j j'))]) = Ok y2).
    { rewrite Nat.add_sub. rewrite (Nat.max_l (Nat.max j j')) by lia. destruct (Nat.le_ge_cases j j') as [L|L].
      - rewrite (Nat.min_l j j'), (Nat.max_r j j') by lia. eauto.
      - rewrite (Nat.min_r j j'), (Nat.max_l j j') by lia. eauto. }
    destruct M as (y1&y2&M1&M2). eexists _, _. split; [reflexivity|]. unfold overlay, get_viewport_row_bounds. cbn [mg_row mg_index mg_range rstart rend]. rewrite M1. cbn [bind]. rewrite M2. reflexivity.
Qed.
Print Assumptions C90_total.

(** A screen on which every child of a row is 10 wide and those with an odd index are higher *)
Definition sample_screen (right_to_left : bool) : Screen :=
  let k path := inject_Z (Z.of_nat (hd 0%nat path)) in
  mkScreen
    (fun _ place => let x := 10 * k (fst place) + match snd place with AtLeft => 0 | AtText j => inject_Z (Z.of_nat j) | _ => 10 end in mkPoint (if right_to_left then 100 - x else x) 50)
    (fun _ path => mkRect (10 * k path) (if Nat.even (hd 0%nat path) then 40 else 35) 10 (if Nat.even (hd 0%nat path) then 12 else 20))
    (fun _ => 20).
Definition sample_line : InputRow := [sym "1"; sym "2"; sym "+"; sym "x"].
(** In [12+x], from within the number to the end, with the containing element at (7, 3): the bar is at the right end of the x *)
Example C90_case : exists x x' d, draw ascii_letter ascii_continue sample_line = Ok x /\ get_element x [] = Ok x' /\ left_to_right (sample_screen false) [] x' /\
  (forall path, proper_rect (sc_bounds (sample_screen false) [] path)) /\
  overlay (sample_screen false) (mkPoint 7 3) x (MSelRow (mkMinRange [] 1 4)) = Ok d /\
  option_map rx (shown_bar (mkPoint 7 3) d) = Some (30 # 1) /\ map rx (shown_selections (mkPoint 7 3) d) = [1] /\ map ry (shown_selections (mkPoint 7 3) d) = [35 # 1].
Proof.
  eexists _, _, _. split; [vm_compute; reflexivity|]. split; [vm_compute; reflexivity|]. split; [|split; [|split; [vm_compute; reflexivity|vm_compute; auto]]].
  - intros i j a b L. do 5 (destruct i as [|i]; [do 5 (destruct j as [|j]; [first [lia | intros H1 H2; vm_compute in H1, H2; inversion H1; inversion H2; vm_compute; discriminate]|]); intros _ H; discriminate H|]). intros H; discriminate H.
  - intros path. unfold proper_rect. cbn. destruct (Nat.even _); split; lra.
Qed.
(** Without the assumption that what comes later is further to the right, which does not hold for letters of scripts that are
    written from right to left, the bar is put at the wrong end. *)
Theorem C90_direction_refuted : exists screen parent doc x x' a b pa pb d bar, wf_row doc /\ draw ascii_letter ascii_continue doc = Ok x /\ get_element x [] = Ok x' /\
  get_caret_position x' [] a = Ok pa /\ get_caret_position x' [] b = Ok pb /\ overlay screen parent x (MSelRow (mkMinRange [] a b)) = Ok d /\ shown_bar parent d = Some bar /\
  ~ rx bar == px (sc_point screen [] pb).
Proof.
  exists (sample_screen true), (mkPoint 7 3), sample_line. do 2 eexists. exists 1%nat, 4%nat. do 4 eexists. split; [apply wf_rowb_ok; vm_compute; reflexivity|].
  repeat (split; [vm_compute; reflexivity|]). vm_compute. discriminate.
Qed.
Print Assumptions C90_direction_refuted.
(** A table with two cells *)
Example C90_cells_case : exists x d, wf_row [Container Table (mkGrid [[sym "1"]; [sym "2"; sym "3"]] 2)] /\ draw ascii_letter ascii_continue [Container Table (mkGrid [[sym "1"]; [sym "2"; sym "3"]] 2)] = Ok x /\
  overlay (sample_screen false) (mkPoint 7 3) x (MSelGrid (mkMinGridRange [] 0 (Grid.mkRect 0 2 2))) = Ok d /\ shown_bar (mkPoint 7 3) d = None /\ List.length (shown_selections (mkPoint 7 3) d) = 1%nat.
Proof. do 2 eexists. split; [apply wf_rowb_ok; vm_compute; reflexivity|]. repeat (split; [vm_compute; reflexivity|]). reflexivity. Qed.
