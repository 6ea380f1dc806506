(** Which row a click gives, for all documents (C54, C72). *)
From Coq Require Import String.
From Verif Require Import Base Str Grid Node Focus Autocomplete Spec NameMap Syntax Pratt Grammar SyntaxFind Render Layout SpecSyntax SpecPratt SpecRender SpecClick SpecStray
  BaseFacts TreeFacts ParseFacts GrammarFacts RenderFacts LayoutFacts ClickFacts ClosestFacts StrayFacts Samples PropsAuto PropsEditor PropsSafety PropsRender PropsView.
Open Scope list_scope.
Open Scope nat_scope.

(** * C54: a click gives a position in the document *)
(** What every click gives, for all documents and layouts: [place] is the closest place of a caret in the element that was hit, and
    it is drawn in the row [p] of the document. The answer is [reported p], or the index of the row [p] once more behind it if [p] is as
    a whole a script and the place is at its end. *)
Theorem C54_exact : forall xs xc doc x to_bounds to_place, wf_row doc -> draw xs xc doc = Ok x -> boxes to_bounds to_place ->
  exists p' offset place row, get_layout_position to_bounds to_place x = Ok (p', offset) /\
    offers (get_layout_element to_bounds x) p' offset place /\
    (forall p'' offset'' place'', offers (get_layout_element to_bounds x) p'' offset'' place'' -> to_place place <= to_place place'') /\
    let p := drawn_row x (fst place) in row_get doc p = Some row /\ offset <= List.length row /\
    (p' = reported xs xc doc p \/ exists q i, p = q ++ [i] /\ script_row xs xc row = true /\ p' = reported xs xc doc p ++ [i] /\ List.length row <= S offset).
Proof.
  intros xs xc doc x tb tp Hwf H Hb. destruct (C72_closest_partial xs xc doc x tb tp Hwf H Hb) as (p'&offset&place&E&Ho&Hm). apply draw_inv in H as (n&En&Hx).
  destruct (get_layout_element tb x) as [[c path] indices] eqn:Ec. destruct (C72_hit _ _ _ _ _ Ec) as [W _]. pose proof Ho as (y&path'&W'&_&Hc).
  destruct (reports Hwf En Hx (within_trans W W') Hc) as (row&Hr). exists p', offset, place, row. auto.
Qed.
Print Assumptions C54_exact.
(** So the row is never closer to the root than the row that was clicked, and another one unless it is this row. *)
Theorem C54_reported : forall xs xc doc p, List.length p <= List.length (reported xs xc doc p) /\ (List.length (reported xs xc doc p) = List.length p -> reported xs xc doc p = p).
Proof. intros xs xc doc p. unfold reported. split; [exact (@reported_from_length xs xc p doc None)|exact (@reported_from_eq xs xc p doc None)]. Qed.
Print Assumptions C54_reported.
Lemma place_dec (a b : Place) : {a = b} + {a <> b}.
Proof. repeat decide equality. Qed.
(** Whenever [reported p] is another row, there is a layout in which a click next to the place of a position in [p] gives this other row. *)
Theorem C54_wrong : forall xs xc doc x p row offset, wf_row doc -> draw xs xc doc = Ok x -> row_get doc p = Some row -> offset <= List.length row -> reported xs xc doc p <> p ->
  exists to_bounds to_place place p' offset', boxes to_bounds to_place /\ drawn_row x (fst place) = p /\ (exists p0, offers (x, [], []) p0 offset place) /\
    (forall place', place' <> place -> to_place place < to_place place') /\ get_layout_position to_bounds to_place x = Ok (p', offset') /\ p' <> p.
Proof.
  intros xs xc doc x p row offset Hwf H Er Hj Hp. pose proof H as Hd. apply draw_inv in H as (n&En&Hx). destruct (position_drawn Hwf En Hx Er Hj) as (place&Ed&Ho).
  set (tp := fun pl => if place_dec pl place then 1 else 2). assert (Hb : boxes (fun _ => 1) tp) by (intros a b c; unfold tp; destruct (place_dec _ _); lia).
  destruct (C54_exact xs xc doc x _ _ Hwf Hd Hb) as (p'&offset'&place'&row'&E&Hof&Hm&Hr). exists (fun _ => 1), tp, place, p', offset'. split; [exact Hb|]. split; [exact Ed|]. split; [eauto|]. split; [|split; [exact E|]].
  - intros pl Hpl. unfold tp. destruct (place_dec place place); [|congruence]. destruct (place_dec pl place); [contradiction|lia].
  - rewrite (outside_hit x (to_bounds := fun _ => 1)) in Hof, Hm by lia. specialize (Hm _ _ _ Ho). assert (place' = place) as ->.
    { unfold tp in Hm. destruct (place_dec place place); [|congruence]. destruct (place_dec place' place); [assumption|lia]. }
    cbv zeta in Hr. rewrite Ed in Hr. destruct Hr as (_&_&Hr). destruct (C54_reported xs xc doc p) as [Hl He].
    assert (List.length p < List.length (reported xs xc doc p)) by (destruct (Nat.eq_dec (List.length (reported xs xc doc p)) (List.length p)) as [e|e]; [apply He in e; contradiction|lia]).
    intros ->. destruct Hr as [Hr|(q&i&_&_&Hr&_)]; apply (f_equal (@List.length _)) in Hr; rewrite ?app_length in Hr; lia.
Qed.
Print Assumptions C54_wrong.

(** * C72: a click gives the closest caret position *)
(** The positions of the drawing, for all documents: those of the document, as they are reported, and once more those at the end of a row
    that is a script as a whole. *)
Theorem C72_positions : forall xs xc doc x, wf_row doc -> draw xs xc doc = Ok x ->
  forall p' offset, (exists place, offers (x, [], []) p' offset place) <->
    exists p row, row_get doc p = Some row /\ offset <= List.length row /\
      (p' = reported xs xc doc p \/ exists q i, p = q ++ [i] /\ script_row xs xc row = true /\ p' = reported xs xc doc p ++ [i] /\ List.length row <= S offset).
Proof. intros xs xc doc x Hwf H. apply draw_inv in H as (n&En&Hx). exact (positions_reported Hwf En Hx). Qed.
Print Assumptions C72_positions.
(** Every position of the document is drawn in its row. *)
Theorem C72_drawn : forall xs xc doc x p row offset, wf_row doc -> draw xs xc doc = Ok x -> row_get doc p = Some row -> offset <= List.length row ->
  exists place, drawn_row x (fst place) = p /\ offers (x, [], []) (reported xs xc doc p) offset place.
Proof. intros xs xc doc x p row offset Hwf H. apply draw_inv in H as (n&En&Hx). exact (@position_drawn xs xc doc Hwf n x En Hx p row offset). Qed.
Print Assumptions C72_drawn.

(** y^2 over 3: a click on the exponent gives a row that does not exist. *)
Definition power_over : InputRow := [fraction [sym "y"; sup [sym "2"]] [sym "3"]].
Example C54_over : wf_row power_over /\ ok_b (draw ascii_letter ascii_continue power_over) = true /\
  reported ascii_letter ascii_continue power_over [(0, 0); (1, 0)] = [(0, 0); (0, 0); (1, 0)] /\ row_get power_over [(0, 0); (0, 0); (1, 0)] = None /\
  reported ascii_letter ascii_continue power_over [(0, 1)] = [(0, 1)].
Proof. split; [apply wf_rowb_ok; reflexivity|]. repeat split; vm_compute; reflexivity. Qed.
(** x to the power of ((a + b_1) / d)^2: the row that is given for the 2 is a row of the document, but another one: the 1. *)
Definition misleading : InputRow := [sym "x"; sup [sym "("; fraction [sym "a"; sym "+"; sym "b"; sub [sym "1"]] [sym "d"]; sym ")"; sup [sym "2"]]].
Example C54_elsewhere : wf_row misleading /\ ok_b (draw ascii_letter ascii_continue misleading) = true /\
  reported ascii_letter ascii_continue misleading [(1, 0); (3, 0)] = [(1, 0); (1, 0); (3, 0)] /\
  row_get misleading [(1, 0); (3, 0)] = Some [sym "2"] /\ row_get misleading [(1, 0); (1, 0); (3, 0)] = Some [sym "1"].
Proof. split; [apply wf_rowb_ok; reflexivity|]. repeat split; vm_compute; reflexivity. Qed.
