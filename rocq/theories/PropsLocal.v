(** A row is read and drawn on its own (C104). *)
From Coq Require Import String.
From Verif Require Import Base Str Grid Node Spec Autocomplete NameMap Syntax SyntaxFind Pratt Grammar Render SpecSyntax SpecPratt SpecLocal BaseFacts TreeFacts EditFacts
  ParseFacts ParseTotal FindFacts GrammarFacts RenderFacts Samples PropsParse PropsRender LocalFacts LocalDraw.
Open Scope list_scope.
Open Scope nat_scope.

(** * C104: an edit changes the reading of no other row *)
(** How a row is read does not depend on what is inside of its containers. This holds for all modules. *)
Theorem C104_outline : forall g doc doc' n n', Forall2 alike doc doc' -> parse g doc = Ok n -> parse g doc' = Ok n' -> same_outline n n'.
Proof. intros g doc doc' n n' H E E'. exact (parse_outline H E E'). Qed.
Print Assumptions C104_outline.
(** If a row of the document is replaced by another one, then in the syntax tree the tree of that row is replaced by the tree
    of the other one. The rest of the tree, inside and outside of the row, stays. *)
Theorem C104_edit : forall g p row row' doc doc', no_empty_tokens g -> all_containers g -> wf_row doc -> wf_row row' -> replaced p row row' doc doc' ->
  exists a b n n', parse g row = Ok a /\ parse g row' = Ok b /\ parse g doc = Ok n /\ parse g doc' = Ok n' /\ tree_replaced p a b n n'.
Proof.
  intros g p row row' doc doc' Ht Hc Hwf Hwf' R. destruct (C34_all_grammars g doc Ht Hc Hwf) as (n&En). destruct (C34_all_grammars g doc' Ht Hc (replaced_wf R Hwf Hwf')) as (n'&En').
  destruct (parse_replaced Ht Hc R Hwf Hwf' En En') as (a&b&Ea&Eb&T). exists a, b, n, n'. auto.
Qed.
Print Assumptions C104_edit.
(** The same is true of what is drawn with the default modules. *)
Theorem C104_drawn : forall xs xc p row row' doc doc' x y, wf_row doc -> wf_row row' -> replaced p row row' doc doc' ->
  draw xs xc doc = Ok x -> draw xs xc doc' = Ok y ->
  exists a b xa yb, parse (default_grammar xs xc) row = Ok a /\ parse (default_grammar xs xc) row' = Ok b /\
    render default_renderers a (row_index_of p) no_options = Ok xa /\ render default_renderers b (row_index_of p) no_options = Ok yb /\
    drawing_replaced p xa yb x y.
Proof.
  intros xs xc p row row' doc doc' x y Hwf Hwf' R Hx Hy. apply draw_inv in Hx as (n&En&Hx). apply draw_inv in Hy as (n'&En'&Hy).
  destruct (parse_replaced (@default_no_empty_tokens xs xc) (@default_all_containers xs xc) R Hwf Hwf' En En') as (a&b&Ea&Eb&T).
  destruct (drawing T Hx Hy) as (xa&yb&A&B&D). rewrite index_of in A, B. assert (Eo : options_below p no_options = no_options) by now destruct p. rewrite Eo in A, B.
  exists a, b, xa, yb. auto.
Qed.
Print Assumptions C104_drawn.
(** If a document can be drawn and a row in it is replaced, then the new document can be drawn if and only if the new row can be
    drawn as a document of its own. *)
Theorem C104_drawable : forall xs xc p row row' doc doc' x, wf_row doc -> wf_row row' -> replaced p row row' doc doc' -> draw xs xc doc = Ok x ->
  ((exists y, draw xs xc doc' = Ok y) <-> exists z, draw xs xc row' = Ok z).
Proof.
  intros xs xc p row row' doc doc' x Hwf Hwf' R Hx. split.
  - intros (y&Hy). destruct (C104_drawn _ _ _ _ _ _ _ _ _ Hwf Hwf' R Hx Hy) as (a&b&xa&yb&_&Eb&_&B&_). destruct (@drawn_anywhere default_renderers b _ _ _ None no_options (iff_refl _) B) as (z&Hz). exists z. exact (draw_ok _ _ _ _ _ Eb Hz).
  - intros (z&Hz). apply draw_inv in Hz as (b'&Eb'&Hz). apply draw_inv in Hx as (n&En&Hx). destruct (C34_total xs xc doc' (replaced_wf R Hwf Hwf')) as (n'&En').
    destruct (parse_replaced (@default_no_empty_tokens xs xc) (@default_all_containers xs xc) R Hwf Hwf' En En') as (a&b&_&Eb&T). rewrite Eb in Eb'. injection Eb' as <-.
    assert (Eo : options_below p no_options = no_options) by now destruct p.
    destruct (@drawn_anywhere default_renderers b _ _ _ (index_below p None) (options_below p no_options) ltac:(rewrite Eo; apply iff_refl) Hz) as (yb&Hyb).
    destruct (redrawn T Hx Hyb) as (y&Hy). exists y. exact (draw_ok _ _ _ _ _ En' Hy).
Qed.
Print Assumptions C104_drawable.

(** In "a" followed by the fraction of "b" and "c^d", the exponent becomes "e+f"; both documents can be drawn. *)
Definition local_before : InputRow := [sym "a"; fraction [sym "b"] [sym "c"; sup [sym "d"]]].
Definition local_after : InputRow := [sym "a"; fraction [sym "b"] [sym "c"; sup [sym "e"; sym "+"; sym "f"]]].
Example C104_case : wf_row local_before /\ replaced [(1, 1); (1, 0)] [sym "d"] [sym "e"; sym "+"; sym "f"] local_before local_after /\
  (exists x, draw ascii_letter ascii_continue local_before = Ok x) /\ (exists y, draw ascii_letter ascii_continue local_after = Ok y) /\
  Forall2 alike local_before local_after /\ parse ascii_grammar local_before <> parse ascii_grammar local_after.
Proof.
  split; [apply wf_rowb_ok; reflexivity|]. split; [|split; [eexists; vm_compute; reflexivity|split; [eexists; vm_compute; reflexivity|split; [|vm_compute; discriminate]]]].
  - refine (@replaced_below [(1, 0)] _ _ [sym "a"] Fraction [[sym "b"]] [sym "c"; sup [sym "d"]] [sym "c"; sup [sym "e"; sym "+"; sym "f"]] [] 1 [] _).
    refine (@replaced_below [] _ _ [sym "c"] Sup [] [sym "d"] [sym "e"; sym "+"; sym "f"] [] 1 [] _). constructor.
  - repeat constructor.
Qed.
(** The new exponent "^2" alone cannot be drawn in front of a space, and so the document cannot be drawn either. *)
Example C104_drawable_case : (exists x, draw ascii_letter ascii_continue local_before = Ok x) /\
  replaced [(1, 1); (1, 0)] [sym "d"] [sup [sym "2"]; sym " "] local_before [sym "a"; fraction [sym "b"] [sym "c"; sup [sup [sym "2"]; sym " "]]] /\
  (forall z, draw ascii_letter ascii_continue [sup [sym "2"]; sym " "] <> Ok z) /\
  (forall z, draw ascii_letter ascii_continue [sym "a"; fraction [sym "b"] [sym "c"; sup [sup [sym "2"]; sym " "]]] <> Ok z).
Proof.
  split; [eexists; vm_compute; reflexivity|]. split; [|split; intros z; vm_compute; discriminate].
  refine (@replaced_below [(1, 0)] _ _ [sym "a"] Fraction [[sym "b"]] [sym "c"; sup [sym "d"]] [sym "c"; sup [sup [sym "2"]; sym " "]] [] 1 [] _).
  refine (@replaced_below [] _ _ [sym "c"] Sup [] [sym "d"] [sup [sym "2"]; sym " "] [] 1 [] _). constructor.
Qed.
