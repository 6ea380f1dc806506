(** What is drawn shows which document it is (C70). *)
From Coq Require Import String.
From Verif Require Import Base Str Grid Node Focus Spec NameMap Syntax Pratt Grammar Render Layout SpecDom SpecSafety SpecSight BaseFacts RenderFacts SightFacts Samples PropsRender.
Open Scope list_scope.
Open Scope nat_scope.

(** Somebody who reads the drawing sees the symbols of the document in their order and the fractions, roots,
    scripts and tables that it has, each with its rows in the order of the document. *)
Theorem C70_structure : forall xs xc doc x, xs 160%N = false -> xs 11034%N = false -> draw xs xc doc = Ok x ->
  flat_map seen (get_elements x) = flat_map outline doc.
Proof. intros xs xc doc x H1 H2 H. apply draw_inv in H as (n&En&Hx). exact (default_sight H1 H2 En Hx). Qed.
Print Assumptions C70_structure.
(** So a usual document is seen as it is, and no two of them look the same. *)
Theorem C70_same : forall xs xc doc x, xs 160%N = false -> xs 11034%N = false -> (forall y, In y (row_parts doc) -> usual y) -> draw xs xc doc = Ok x ->
  flat_map seen (get_elements x) = doc.
Proof. intros xs xc doc x H1 H2 Hu H. rewrite (C70_structure xs xc doc x H1 H2 H). now apply usual_outline. Qed.
Print Assumptions C70_same.
Theorem C70_different : forall xs xc doc doc' x x', xs 160%N = false -> xs 11034%N = false ->
  (forall y, In y (row_parts doc) -> usual y) -> (forall y, In y (row_parts doc') -> usual y) ->
  draw xs xc doc = Ok x -> draw xs xc doc' = Ok x' -> get_elements x = get_elements x' -> doc = doc'.
Proof.
  intros xs xc doc doc' x x' H1 H2 Hu Hu' H H' E. rewrite <- (C70_same xs xc doc x H1 H2 Hu H), <- (C70_same xs xc doc' x' H1 H2 Hu' H'). now rewrite E.
Qed.
Print Assumptions C70_different.
(** (a + 1)^2 / b, a root and a table *)
Definition picture : InputRow := quotient ++ [root [] [sym "x"; sub [sym "i"]]; Container Table (mkGrid [[sym "1"]; [sym "2"]; [sym "3"]; []] 2)].
Example C70_case : (forall y, In y (row_parts picture) -> usual y) /\ exists x, draw ascii_letter ascii_continue picture = Ok x /\ flat_map seen (get_elements x) = picture.
Proof.
  split; [|eexists; split; vm_compute; reflexivity].
  intros y H. vm_compute in H. repeat (destruct H as [<-|H]; [cbn; auto|]). destruct H.
Qed.
