(** Exactly which documents can be drawn (C50). *)
From Coq Require Import String.
From Verif Require Import Base Str Grid Node Focus Edit Caret Autocomplete Editor Rules Spec NameMap Syntax Pratt Grammar SyntaxFind Render Layout
  SpecSyntax SpecPratt SpecEditor SpecSafety SpecRender SpecTokenEnd BaseFacts TreeFacts ParseFacts ParseTotal GrammarFacts FindFacts NameMapFacts
  ShapeFacts RenderFacts SpacesFacts TokenEnd Samples PropsAuto PropsEditor PropsSafety PropsRender.
Open Scope list_scope.
Open Scope nat_scope.

(** A document can be drawn if and only if its fractions and roots have two cells, no space comes
    after a script, and where spaces come before a script, a token of the tree of the row ends
    before the spaces. Spaces and opening brackets are not letters. *)
Theorem C50_all : forall xs xc doc, xs 32%N = false -> xc 32%N = false -> xs 40%N = false -> wf_row doc ->
  ((exists x, draw xs xc doc = Ok x) <->
   everywhere two_cells doc /\ everywhere no_space_after_scripts doc /\ everywhere (spaces_drawable xs xc) doc).
Proof.
  intros xs xc doc X1 X2 X3 Hwf. split.
  - intros (x&H). destruct (C50_necessary _ _ _ _ H) as [H1 H2]. split; [exact H1|]. split; [exact H2|]. apply draw_inv in H as (n&En&Hx). now apply (default_rendered_tokens X1 X2 X3 Hwf En Hx).
  - intros (H1&H2&H3). destruct (default_covers xs xc Hwf) as (n&En&_). destruct (default_renders_spaces (Nat.lt_succ_diag_r _) Hwf En H1 H2 H3 None no_options) as (x&Hx). exists x. eapply draw_ok; eauto.
Qed.
Print Assumptions C50_all.
(** In particular a bracket, a quote and a letter that continues a name: whether spaces after them
    are drawn before a script depends on what comes before them. *)
Definition after_bracket : InputRow := [sym "("; sym "a"; sym ")"; sym " "; sup [sym "2"]].
Definition after_stray_bracket : InputRow := [sym "a"; sym ")"; sym " "; sup [sym "2"]].
Definition after_string : InputRow := [sym """"; sym "a"; sym """"; sym " "; sup [sym "2"]].
Definition after_quote : InputRow := [sym "a"; sym """"; sym " "; sup [sym "2"]].
Example C50_all_case :
  everywhere (spaces_drawable ascii_letter ascii_continue) after_bracket /\ ~ everywhere (spaces_drawable ascii_letter ascii_continue) after_stray_bracket /\
  everywhere (spaces_drawable ascii_letter ascii_continue) after_string /\ ~ everywhere (spaces_drawable ascii_letter ascii_continue) after_quote.
Proof.
  assert (Y : forall doc, wf_rowb doc = true -> ok_b (draw ascii_letter ascii_continue doc) = true -> everywhere (spaces_drawable ascii_letter ascii_continue) doc).
  { intros doc Hw H. destruct (draw ascii_letter ascii_continue doc) as [x|] eqn:E; [|cbn [ok_b] in H; discriminate H]. apply wf_rowb_ok in Hw.
    refine (proj2 (proj2 (proj1 (C50_all ascii_letter ascii_continue doc eq_refl eq_refl eq_refl Hw) _))). exists x. exact E. }
  assert (N : forall doc, wf_rowb doc = true -> rows_b two_cells_b 9 doc = true -> everywhere no_space_after_scripts doc -> ok_b (draw ascii_letter ascii_continue doc) = false -> ~ everywhere (spaces_drawable ascii_letter ascii_continue) doc).
  { intros doc Hw H2 Ha H S. apply wf_rowb_ok in Hw. destruct (proj2 (C50_all ascii_letter ascii_continue doc eq_refl eq_refl eq_refl Hw) (conj (rows_b_ok _ _ two_cells_b_ok _ _ H2) (conj Ha S))) as (x&E). rewrite E in H. cbn [ok_b] in H. discriminate H. }
  assert (B : forall x y : str, everywhere no_space_after_scripts [Symbol x; Symbol y; sym " "; sup [sym "2"]]).
  { intros x y. apply everywhere_intro.
    - intros k (v&c&E&_) Es. unfold is_space in Es. destruct k as [|[|[|[|k]]]]; cbn in E, Es; try discriminate E; try discriminate Es.
    - intros k v cells w cell E Hc. destruct k as [|[|[|[|k]]]]; cbn in E; try discriminate E; [|destruct k; discriminate E]. inv E. destruct Hc as [<-|[]]. apply everywhere_intro.
      + intros k (v&c&E&_) _. destruct k as [|[|k]]; discriminate E.
      + intros k v cells' w' cell E Hc'. destruct k as [|[|k]]; discriminate E. }
  split; [|split; [|split]].
  - apply Y; vm_compute; reflexivity.
  - apply N; try (vm_compute; reflexivity). apply B.
  - apply Y; vm_compute; reflexivity.
  - apply N; try (vm_compute; reflexivity). apply B.
Qed.
