(** Distances and rectangles. *)
From Coq Require Import List QArith Qminmax Qabs Lqa.
From Verif Require Import Viewport SpecView.
Open Scope Q_scope.

Ltac qmm := repeat match goal with
  | |- context [Qmin ?a ?b] => let H := fresh in let E := fresh in destruct (Q.min_spec a b) as [[H E]|[H E]]; setoid_rewrite E; clear E
  | |- context [Qmax ?a ?b] => let H := fresh in let E := fresh in destruct (Q.max_spec a b) as [[H E]|[H E]]; setoid_rewrite E; clear E
  end.
Lemma join_contains a b p : in_rect p a \/ in_rect p b -> in_rect p (join_rectangles a b).
Proof.
  unfold in_rect, join_rectangles. cbn [rx ry rwidth rheight].
  pose proof (Q.le_min_l (rx a) (rx b)). pose proof (Q.le_min_r (rx a) (rx b)). pose proof (Q.le_min_l (ry a) (ry b)). pose proof (Q.le_min_r (ry a) (ry b)).
  pose proof (Q.le_max_l (rx a + rwidth a) (rx b + rwidth b)). pose proof (Q.le_max_r (rx a + rwidth a) (rx b + rwidth b)).
  pose proof (Q.le_max_l (ry a + rheight a) (ry b + rheight b)). pose proof (Q.le_max_r (ry a + rheight a) (ry b + rheight b)).
  intros [[[] []]|[[] []]]; (split; split; lra).
Qed.
Lemma join_least a b c : proper_rect a -> proper_rect b -> (forall p, in_rect p a \/ in_rect p b -> in_rect p c) -> forall p, in_rect p (join_rectangles a b) -> in_rect p c.
Proof.
  intros [A1 A2] [B1 B2] H. 
  assert (Ha := H (mkPoint (rx a) (ry a))). assert (Ha' := H (mkPoint (rx a + rwidth a) (ry a + rheight a))).
  assert (Hb := H (mkPoint (rx b) (ry b))). assert (Hb' := H (mkPoint (rx b + rwidth b) (ry b + rheight b))).
  unfold in_rect in *. cbn [px py] in *. destruct Ha as [[] []]; [left; split; split; lra|]. destruct Ha' as [[] []]; [left; split; split; lra|]. destruct Hb as [[] []]; [right; split; split; lra|]. destruct Hb' as [[] []]; [right; split; split; lra|].
  intros p. unfold join_rectangles. cbn [rx ry rwidth rheight].
  pose proof (Q.min_glb (rx a) (rx b) (rx c)). pose proof (Q.min_glb (ry a) (ry b) (ry c)).
  pose proof (Q.max_lub (rx a + rwidth a) (rx b + rwidth b) (rx c + rwidth c)). pose proof (Q.max_lub (ry a + rheight a) (ry b + rheight b) (ry c + rheight c)).
  intros [[] []]. split; split; lra.
Qed.
Lemma join_proper a b : proper_rect a -> proper_rect b -> proper_rect (join_rectangles a b).
Proof.
  intros [A1 A2] [B1 B2]. unfold proper_rect, join_rectangles. cbn [rwidth rheight].
  pose proof (Q.le_min_l (rx a) (rx b)). pose proof (Q.le_min_l (ry a) (ry b)).
  pose proof (Q.le_max_l (rx a + rwidth a) (rx b + rwidth b)). pose proof (Q.le_max_l (ry a + rheight a) (ry b + rheight b)). split; lra.
Qed.

(** One coordinate: the distance from [p] to the interval [a, a + w] *)
Definition gap (p a w : Q) : Q := Qmax 0 (Qmax (a - p) (p - (a + w))).
Lemma gap_cases p a w : 0 <= w -> (a <= p <= a + w /\ gap p a w == 0) \/ (p < a /\ gap p a w == a - p) \/ (a + w < p /\ gap p a w == p - (a + w)).
Proof.
  intros Hw. unfold gap. destruct (Q.max_spec (a - p) (p - (a + w))) as [[L E]|[L E]]; destruct (Q.max_spec 0 (Qmax (a - p) (p - (a + w)))) as [[L' E']|[L' E']]; rewrite E in L'; rewrite E'; rewrite ?E; lra.
Qed.
Lemma gap_nearest p a w : 0 <= w -> exists q, a <= q <= a + w /\ square (p - q) == square (gap p a w).
Proof.
  intros Hw. unfold square. destruct (gap_cases p a w Hw) as [[H E]|[[H E]|[H E]]].
  - exists p. rewrite E. split; [lra|ring].
  - exists a. rewrite E. split; [lra|ring].
  - exists (a + w). rewrite E. split; [lra|ring].
Qed.
Lemma square_nonneg v : 0 <= v * v.
Proof. destruct (Qlt_le_dec v 0) as [H|H]; [setoid_replace (v * v) with ((- v) * (- v)) by ring|]; apply Qmult_le_0_compat; lra. Qed.
Lemma gap_least p a w q : 0 <= w -> a <= q <= a + w -> square (gap p a w) <= square (p - q).
Proof.
  intros Hw Hq. unfold square. destruct (gap_cases p a w Hw) as [[H E]|[[H E]|[H E]]]; rewrite E.
  - pose proof (square_nonneg (p - q)). lra.
  - pose proof (square_nonneg (q - a)). assert (0 <= (q - a) * (a - p)) by (apply Qmult_le_0_compat; lra). nra.
  - pose proof (square_nonneg (a + w - q)). assert (0 <= (a + w - q) * (p - (a + w))) by (apply Qmult_le_0_compat; lra). nra.
Qed.
Lemma distance_rect p r : distance_to_rectangle p r = square (gap (px p) (rx r) (rwidth r)) + square (gap (py p) (ry r) (rheight r)).
Proof. reflexivity. Qed.
Lemma rect_least p r : proper_rect r -> least (fun q => in_rect q r) (squared_distance p) (distance_to_rectangle p r).
Proof.
  intros [Hw Hh]. split.
  - destruct (gap_nearest (px p) (rx r) (rwidth r) Hw) as (x&Hx&Ex). destruct (gap_nearest (py p) (ry r) (rheight r) Hh) as (y&Hy&Ey).
    exists (mkPoint x y). split; [split; [exact Hx|exact Hy]|]. rewrite distance_rect, <- Ex, <- Ey. unfold squared_distance, square. cbn. reflexivity.
  - intros q [Hx Hy]. rewrite distance_rect. pose proof (gap_least (px p) _ _ _ Hw Hx). pose proof (gap_least (py p) _ _ _ Hh Hy). unfold squared_distance, square in *. lra.
Qed.
Lemma rect_zero p r : proper_rect r -> (distance_to_rectangle p r == 0 <-> in_rect p r).
Proof.
  intros [Hw Hh]. rewrite distance_rect. unfold in_rect, square.
  destruct (gap_cases (px p) (rx r) (rwidth r) Hw) as [[H E]|[[H E]|[H E]]]; destruct (gap_cases (py p) (ry r) (rheight r) Hh) as [[H' E']|[[H' E']|[H' E']]]; rewrite E, E'; split; intros; try lra; exfalso; nra.
Qed.
Lemma point_distance a b : distance_to_point a b == squared_distance a b.
Proof. reflexivity. Qed.
(** The parameter of the nearest point *)
Lemma segment_least p a b : epsilon <= squared_distance a b -> least (on_segment a b) (squared_distance p) (distance_to_segment p a b).
Proof.
  intros He. unfold distance_to_segment. destruct (Qlt_le_dec _ _) as [L|_]; [exfalso; rewrite point_distance in L; lra|].
  set (ux := px b - px a). set (uy := py b - py a). set (vx := px p - px a). set (vy := py p - py a).
  assert (Hd : distance_to_point a b == ux * ux + uy * uy) by (unfold distance_to_point, square, ux, uy; ring). set (l := distance_to_point a b) in *.
  assert (Hl : 0 < l) by (assert (epsilon <= l) by exact He; unfold epsilon in *; lra).
  set (t0 := (vx * ux + vy * uy) / l). assert (Ht0 : t0 * l == vx * ux + vy * uy) by (unfold t0; field; lra).
  set (t := Qmax 0 (Qmin 1 t0)).
  assert (Ht : (0 <= t0 <= 1 /\ t == t0) \/ (t0 < 0 /\ t == 0) \/ (1 < t0 /\ t == 1)).
  { unfold t. destruct (Q.min_spec 1 t0) as [[L E]|[L E]]; destruct (Q.max_spec 0 (Qmin 1 t0)) as [[L' E']|[L' E']]; rewrite E in L'; rewrite E'; rewrite ?E; lra. }
  assert (D : forall s, squared_distance p (mkPoint (px a + s * ux) (py a + s * uy)) == vx * vx + vy * vy - (2 # 1) * s * (t0 * l) + s * s * l).
  { intros s. rewrite Ht0, Hd. unfold squared_distance, vx, vy. cbn [px py]. ring. }
  assert (K : distance_to_point p (mkPoint (px a + t * ux) (py a + t * uy)) == vx * vx + vy * vy - (2 # 1) * t * (t0 * l) + t * t * l) by (rewrite point_distance; apply D).
  split.
  - exists (mkPoint (px a + t * ux) (py a + t * uy)). split; [|reflexivity]. exists t. split; [destruct Ht as [[H E]|[[H E]|[H E]]]; rewrite E; lra|]. split; reflexivity.
  - intros q (s&Hs&Ex&Ey). rewrite K. assert (Eq : squared_distance p q == vx * vx + vy * vy - (2 # 1) * s * (t0 * l) + s * s * l).
    { rewrite <- D. unfold squared_distance. cbn [px py]. rewrite Ex, Ey. reflexivity. }
    rewrite Eq. assert (G : 0 <= l * (s * s - t * t - (2 # 1) * t0 * (s - t))).
    { apply Qmult_le_0_compat; [lra|]. clear - Ht Hs. clearbody t t0. destruct Ht as [[H E]|[[H E]|[H E]]]; rewrite E.
      - setoid_replace (s * s - t0 * t0 - (2 # 1) * t0 * (s - t0)) with ((s - t0) * (s - t0)) by ring. apply square_nonneg.
      - setoid_replace (s * s - 0 * 0 - (2 # 1) * t0 * (s - 0)) with (s * (s + (2 # 1) * (- t0))) by ring. apply Qmult_le_0_compat; lra.
      - setoid_replace (s * s - 1 * 1 - (2 # 1) * t0 * (s - 1)) with ((1 - s) * ((2 # 1) * t0 - 1 - s)) by ring. apply Qmult_le_0_compat; lra. }
    lra.
Qed.

(** ** Selections *)
Lemma grid_selection_join a b : proper_rect a -> proper_rect b ->
  rx (grid_selection a b) == rx (join_rectangles a b) /\ ry (grid_selection a b) == ry (join_rectangles a b) /\
  rwidth (grid_selection a b) == rwidth (join_rectangles a b) /\ rheight (grid_selection a b) == rheight (join_rectangles a b).
Proof.
  intros [A1 A2] [B1 B2]. unfold grid_selection, join_rectangles. cbn [rx ry rwidth rheight].
  set (l := Qmin (rx a) (rx b)). set (t := Qmin (ry a) (ry b)). set (r := Qmax (rx a + rwidth a) (rx b + rwidth b)). set (m := Qmax (ry a + rheight a) (ry b + rheight b)).
  assert (l <= r) by (pose proof (Q.le_min_l (rx a) (rx b)); pose proof (Q.le_max_l (rx a + rwidth a) (rx b + rwidth b)); unfold l, r; lra).
  assert (t <= m) by (pose proof (Q.le_min_l (ry a) (ry b)); pose proof (Q.le_max_l (ry a + rheight a) (ry b + rheight b)); unfold t, m; lra).
  rewrite (Q.min_l l r), (Q.min_l t m) by assumption. rewrite (Q.max_r (l + 0) (r + 0)), (Q.max_r (t + 0) (m + 0)) by lra. repeat split; lra.
Qed.
Lemma in_rect_eq p a b : rx a == rx b -> ry a == ry b -> rwidth a == rwidth b -> rheight a == rheight b -> in_rect p a -> in_rect p b.
Proof. unfold in_rect. intros -> -> -> -> H. exact H. Qed.
Lemma content_bounds l top bottom : content_height l = Some (top, bottom) ->
  (forall b, In b l -> top <= ry b /\ ry b + rheight b <= bottom) /\ (exists b, In b l /\ ry b == top) /\ (exists b, In b l /\ ry b + rheight b == bottom).
Proof.
  revert top bottom. induction l as [|b l IH]; intros top bottom H; [discriminate|]. cbn [content_height] in H. destruct (content_height l) as [[t m]|] eqn:E.
  - inversion H; subst. destruct (IH _ _ eq_refl) as (H1&(bt&Ht&Et)&(bm&Hm&Em)).
    pose proof (Q.le_min_l (ry b) t). pose proof (Q.le_min_r (ry b) t). pose proof (Q.le_max_l (ry b + rheight b) m). pose proof (Q.le_max_r (ry b + rheight b) m). split; [|split].
    + intros c [<-|Hc]; [split; assumption|]. destruct (H1 c Hc). lra.
    + destruct (Q.min_dec (ry b) t) as [D|D]; [exists b|exists bt]; (split; [cbn; auto|]); rewrite D; [reflexivity|exact Et].
    + destruct (Q.max_dec (ry b + rheight b) m) as [D|D]; [exists b|exists bm]; (split; [cbn; auto|]); rewrite D; [reflexivity|exact Em].
  - inversion H; subst. destruct l as [|c l]; [|cbn in E; destruct (content_height l) as [[? ?]|]; discriminate].
    split; [intros c [<-|[]]; lra|]. split; exists b; (split; [now left|reflexivity]).
Qed.
Lemma content_some l : l <> nil -> exists top bottom, content_height l = Some (top, bottom).
Proof. destruct l as [|b l]; [easy|]. intros _. cbn. destruct (content_height l) as [[? ?]|]; eauto. Qed.
Lemma selection_spans (forwards : bool) (start end_ : Point) (l : list Rect) : l <> nil -> (if forwards then px start <= px end_ else px end_ <= px start) -> (forall b, In b l -> proper_rect b) ->
  exists r, selection_rect forwards start end_ l = Some r /\ proper_rect r /\
    forall x y, in_rect (mkPoint x y) r <-> Qmin (px start) (px end_) <= x <= Qmax (px start) (px end_) /\ (exists b, In b l /\ ry b <= y) /\ (exists b, In b l /\ y <= ry b + rheight b).
Proof.
  intros Hl Hd Hp. destruct (content_some l Hl) as (top&bottom&E). unfold selection_rect. rewrite E. eexists. split; [reflexivity|].
  destruct (content_bounds _ _ _ E) as (H1&(bt&Ht&Et)&(bm&Hm&Em)). 
  assert (Hx : exists lo hi, lo <= hi /\ (if forwards then px start else px end_) == lo /\ Qabs (px end_ - px start) == hi - lo /\ Qmin (px start) (px end_) == lo /\ Qmax (px start) (px end_) == hi).
  { destruct forwards.
    - exists (px start), (px end_). rewrite Qabs_pos by lra. rewrite Q.min_l, Q.max_r by assumption. repeat split; try lra.
    - exists (px end_), (px start). rewrite Qabs_neg by lra. rewrite Q.min_r, Q.max_l by assumption. repeat split; try lra. }
  destruct Hx as (lo&hi&Hlh&E1&E2&E3&E4). unfold proper_rect, in_rect. cbn [rx ry rwidth rheight px py].
  set (x0 := if forwards then px start else px end_) in *. set (w := Qabs (px end_ - px start)) in *. set (mi := Qmin (px start) (px end_)) in *. set (ma := Qmax (px start) (px end_)) in *. clearbody x0 w mi ma.
  split; [split; [lra|]; destruct (H1 bt Ht), (Hp bt Ht); lra|]. intros x y. split.
  - intros [Hxx Hyy]. split; [lra|]. split; [exists bt|exists bm]; (split; [assumption|]); lra.
  - intros (Hxx&(b&Hb&Hy1)&(b'&Hb'&Hy2)). destruct (H1 b Hb), (H1 b' Hb'). split; split; lra.
Qed.

(** ** Nested rectangles *)
Lemma nested_distance p a b : proper_rect a -> proper_rect b -> (forall q, in_rect q b -> in_rect q a) -> distance_to_rectangle p a <= distance_to_rectangle p b.
Proof. intros Ha Hb H. destruct (rect_least p a Ha) as [_ La]. destruct (rect_least p b Hb) as [(q&Hq&Eq) _]. rewrite <- Eq. apply La, H, Hq. Qed.
Lemma point_in_rect p r q : proper_rect r -> in_rect q r -> distance_to_rectangle p r <= distance_to_point p q.
Proof. intros Hr Hq. rewrite point_distance. destruct (rect_least p r Hr) as [_ L]. now apply L. Qed.
