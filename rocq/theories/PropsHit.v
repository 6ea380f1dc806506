(** Every position can be clicked (C72). *)
From Coq Require Import String.
From Verif Require Import Base Str Grid Node Focus Autocomplete Spec NameMap Syntax Pratt Grammar SyntaxFind Render Layout SpecSyntax SpecPratt SpecRender SpecClick SpecStray SpecPlace
  BaseFacts TreeFacts ParseFacts GrammarFacts RenderFacts LayoutFacts ClickFacts ClosestFacts StrayFacts PlaceFacts HitFacts Samples PropsAuto PropsEditor PropsSafety PropsRender PropsView PropsStray.
Open Scope list_scope.
Open Scope nat_scope.

(** A click outside of the drawing that is closest to the place of a position gives this position, if no row of a container is a script
    as a whole; or, if it is inside of a "lim", "limsup" or "liminf", some position inside of the same word. For all documents, layouts
    and positions. *)
Theorem C72_back : forall xs xc doc x p row offset place to_bounds to_place, wf_row doc -> draw xs xc doc = Ok x ->
  (forall p row, p <> [] -> row_get doc p = Some row -> script_row xs xc row = false) ->
  row_get doc p = Some row -> offset <= List.length row -> offers (x, [], []) p offset place ->
  boxes to_bounds to_place -> 0 < to_bounds [] -> (forall place', place' <> place -> to_place place < to_place place') ->
  exists offset', get_layout_position to_bounds to_place x = Ok (p, offset') /\
    (offset' = offset \/ exists n, parse (default_grammar xs xc) row = Ok n /\ inside_limit n (Nat.min offset offset') (Nat.max offset offset')).
Proof.
  intros xs xc doc x p row o place tb tp Hwf H Hp Hr Ho Hof Hb Hout Hclose. destruct (C54_exact xs xc doc x tb tp Hwf H Hb) as (p'&o'&place'&row'&E&Hof'&Hm&Hrow'&Ho'&Hrep).
  rewrite (outside_hit x Hout) in Hof', Hm. specialize (Hm _ _ _ Hof). assert (place' = place) as ->.
  { destruct (place_dec place' place) as [|Hne]; [assumption|]. specialize (Hclose _ Hne). lia. }
  apply draw_inv in H as (n&En&Hx).
  assert (Ep : p' = p).
  { assert (K : forall q oq, offers (x, [], []) q oq place -> q = drawn_row x (fst place)).
    { intros q oq (y&path&W&_&Hc). destruct (reports Hwf En Hx W Hc) as (row1&R1&_&[R2|(q1&i&R2&R3&_)]); [rewrite (reported_same Hp) in R2; exact R2|].
      exfalso. assert (script_row xs xc row1 = false); [|congruence]. eapply Hp; [|exact R1]. rewrite R2. destruct q1; discriminate. }
    rewrite (K _ _ Hof), (K _ _ Hof'). reflexivity. }
  subst p'. exists o'. split; [exact E|]. destruct (Nat.lt_trichotomy o o') as [L|[->|L]]; [right|now left|right].
  - destruct (same_offers Hwf Hp En Hx Hof Hof' L) as (r&n'&R1&R2&R3). rewrite Hr in R1. injection R1 as <-. exists n'. rewrite Nat.min_l, Nat.max_r by lia. auto.
  - destruct (same_offers Hwf Hp En Hx Hof' Hof L) as (r&n'&R1&R2&R3). rewrite Hr in R1. injection R1 as <-. exists n'. rewrite Nat.min_r, Nat.max_l by lia. auto.
Qed.
Print Assumptions C72_back.
(** So for every position that is not inside of such a word there is a layout with a click that gives it. *)
Theorem C72_every : forall xs xc doc x p row offset, wf_row doc -> draw xs xc doc = Ok x ->
  (forall p row, p <> [] -> row_get doc p = Some row -> script_row xs xc row = false) ->
  row_get doc p = Some row -> offset <= List.length row -> (forall n i j, parse (default_grammar xs xc) row = Ok n -> inside_limit n i j -> i <= offset <= j -> False) ->
  exists to_bounds to_place, boxes to_bounds to_place /\ get_layout_position to_bounds to_place x = Ok (p, offset).
Proof.
  intros xs xc doc x p row o Hwf H Hp Hr Ho Hl. destruct (C72_drawn xs xc doc x p row o Hwf H Hr Ho) as (place&_&Hof).
  rewrite (reported_same Hp) in Hof. set (tp := fun pl => if place_dec pl place then 1 else 2).
  assert (Hb : boxes (fun _ => 1) tp) by (intros a b c; unfold tp; destruct (place_dec _ _); lia).
  destruct (C72_back xs xc doc x p row o place (fun _ => 1) tp Hwf H Hp Hr Ho Hof Hb) as (o'&E&Hc); [lia| |].
  - intros pl Hpl. unfold tp. destruct (place_dec place place); [|congruence]. destruct (place_dec pl place); [contradiction|lia].
  - exists (fun _ => 1), tp. split; [exact Hb|]. destruct Hc as [->|(n&En&Hi)]; [exact E|]. exfalso. apply (Hl n _ _ En Hi). lia.
Qed.
Print Assumptions C72_every.
(** A root with an index, with text around it: every position can be clicked. *)
Definition rooted : InputRow := [sym "2"; root [sym "n"] [sym "x"; sym "+"; sym "y"]; sym "="].
Example C72_every_case : wf_row rooted /\ ok_b (draw ascii_letter ascii_continue rooted) = true /\ (forall p row, p <> [] -> row_get rooted p = Some row -> script_row ascii_letter ascii_continue row = false) /\
  row_get rooted [(1, 1)] = Some [sym "x"; sym "+"; sym "y"] /\
  exists x to_bounds to_place, draw ascii_letter ascii_continue rooted = Ok x /\ boxes to_bounds to_place /\ get_layout_position to_bounds to_place x = Ok ([(1, 1)], 2).
Proof.
  assert (W : wf_row rooted) by (apply wf_rowb_ok; reflexivity).
  assert (S : forall p row, p <> [] -> row_get rooted p = Some row -> script_row ascii_letter ascii_continue row = false).
  { intros [|[[|[|[|k]]] j] p] row Hp H; try (now exfalso; apply Hp); cbn in H; try discriminate H; [|destruct k; discriminate H].
    destruct j as [|[|j]]; [| |destruct j; discriminate H]; (destruct p as [|[[|[|[|k]]] j] p]; cbn in H; try discriminate H; [|destruct k; discriminate H..]; injection H as <-; vm_compute; reflexivity). }
  split; [exact W|]. split; [vm_compute; reflexivity|]. split; [exact S|]. split; [reflexivity|].
  destruct (draw ascii_letter ascii_continue rooted) as [x|] eqn:E; [|vm_compute in E; discriminate E]. exists x.
  destruct (C72_every _ _ rooted x [(1, 1)] _ 2 W E S eq_refl) as (tb&tp&H); [cbn; lia| |exists tb, tp; auto].
  intros n i j En (w&s&Hw&Hl&Hi) _. vm_compute in En. injection En as <-. inversion Hl as [|? ? ? ? m ? ? ? Hin Hm]; subst. repeat destruct Hin as [<-|Hin]; try destruct Hin; inversion Hm; subst; cbn in Hw; repeat destruct Hw as [Hw|Hw]; try discriminate Hw; exact Hw.
Qed.
