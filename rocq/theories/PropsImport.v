(** Properties of reading MathML. *)
From Coq Require Import String Permutation.
From Verif Require Import Base Str Grid Node Spec SpecEditor SpecSafety SpecRender SpecImport BaseFacts Samples TreeFacts OpFacts Render FromMathML ImportFacts.
Open Scope list_scope.
Open Scope nat_scope.

(** Words for writing examples *)
Definition tag (name : string) (nodes : list Xml) : Xml := XmlElement (lit name) nodes.
Definition token (name : string) (text : string) : Xml := XmlElement (lit name) [XmlText (lit text)].
(** Every character is a segment, and normalized. *)
Definition by_character : str -> list str := map (fun c => [c]).
Definition as_is (s : str) : str := s.

(** * C58: reading MathML gives a well-formed document *)
(** It throws for exactly one reason: a sub- or superscript without any part. *)
Theorem C58_throws_partial : forall normalize segment nodes, let math := XmlElement (lit "math") nodes in
  (exists k, from_element normalize segment math = Panic k) <-> exists y, looked_at math y /\ empty_script y.
Proof. intros normalize segment nodes math. unfold math. rewrite <- (from_element_throws normalize segment). now apply throws_iff. Qed.
Print Assumptions C58_throws_partial.
(** Nothing but a math element is read: for text and for every other element it throws. *)
Theorem C58_only_math : forall normalize segment x, (forall nodes, x <> XmlElement (lit "math") nodes) -> exists k, from_element normalize segment x = Panic k.
Proof.
  intros normalize segment [s|name nodes] H; [eexists; reflexivity|]. unfold from_element, assert_, tag_is. cbn [existsb]. destruct (str_eqb name (lit "math")) eqn:E.
  - apply str_eqb_eq in E. subst name. now destruct (H nodes).
  - eexists. reflexivity.
Qed.
Print Assumptions C58_only_math.
Example C58_only_math_case : (forall nodes, tag "mrow" [token "mi" "x"] <> XmlElement (lit "math") nodes) /\ exists row, from_element as_is by_character (tag "math" [token "mi" "x"]) = Ok (row, []).
Proof. split; [discriminate|]. eexists. vm_compute. reflexivity. Qed.
(** The document is well-formed unless there is a table without cells. *)
Theorem C58_well_formed_partial : forall normalize segment math row errors, from_element normalize segment math = Ok (row, errors) ->
  (wf_row row <-> forall y, kept math y -> ~ empty_table y).
Proof. intros normalize segment math row errors H. apply from_element_layout in H. exact (wf_layout H). Qed.
Print Assumptions C58_well_formed_partial.
(** No symbol is empty; fractions and roots have two cells. *)
Theorem C58_symbols : forall normalize segment math row errors,
  (forall s t, In t (segment s) -> t <> []) -> (forall s, s <> [] -> normalize s <> []) -> from_element normalize segment math = Ok (row, errors) ->
  (forall s, In s (row_symbols row) -> s <> []) /\ everywhere two_cells row.
Proof. intros normalize segment math row errors Hs Hn H. apply from_element_layout in H. exact (good_layout Hs Hn H). Qed.
Print Assumptions C58_symbols.
Theorem C58_refuted : exists a b, (exists k, from_element as_is by_character a = Panic k) /\ exists row, from_element as_is by_character b = Ok (row, []) /\ ~ wf_row row.
Proof.
  exists (tag "math" [token "mi" "x"; tag "msub" []]), (tag "math" [token "mi" "x"; tag "mtable" []]). split; [eexists; vm_compute; reflexivity|]. eexists. split; [vm_compute; reflexivity|].
  intros H. pose proof (H _ (or_intror (or_introl eq_refl))) as Hn. apply wf_container_inv in Hn as (Hw&_). cbn in Hw. lia.
Qed.
Print Assumptions C58_refuted.
(** x_1 / sqrt y: nothing is missing, so it does not throw and is well-formed. *)
Definition formula : Xml := tag "math" [tag "mfrac" [tag "msub" [token "mi" "x"; token "mn" "12"]; XmlText (lit " "); tag "msqrt" [token "mi" " y "]]].
Example C58_case : from_element as_is by_character formula = Ok ([fraction [Node.Symbol (lit "x"); sub [Node.Symbol (lit "1"); Node.Symbol (lit "2")]] [Container RootV (mkGrid [[Node.Symbol (lit "2")]; [Node.Symbol (lit "y")]] 2)]], []).
Proof. vm_compute. reflexivity. Qed.

(** * C59: reading MathML loses no text *)
(** Without errors, all text of token elements is in the document, and nothing else but the
    quotes around strings and the indices of square roots. *)
Theorem C59_text_partial : forall normalize segment math row, from_element normalize segment math = Ok (row, []) ->
  (forall tag nodes, inside math (XmlElement tag nodes) -> tag <> lit "mstyle" /\ (tag = lit "semantics" -> flat_map token_texts (tl (elements nodes)) = [])) ->
  exists extras, Permutation (flat_map (fun t => map normalize (segment t)) (token_texts math) ++ extras) (row_symbols row) /\
  Forall (fun s => s = normalize (lit """") \/ s = normalize (lit "2")) extras.
Proof. intros normalize segment math row H Hi. apply from_element_layout in H. exact (told_permuted H Hi). Qed.
Print Assumptions C59_text_partial.
(** It is in the same order except in roots with an index. *)
Theorem C59_order_partial : forall normalize segment math row, from_element normalize segment math = Ok (row, []) ->
  (forall tag nodes, inside math (XmlElement tag nodes) -> tag <> lit "mstyle" /\ (tag = lit "semantics" -> flat_map token_texts (tl (elements nodes)) = []) /\ tag <> lit "mroot") ->
  exists extras, interleaved (flat_map (fun t => map normalize (segment t)) (token_texts math)) extras (row_symbols row) /\
  Forall (fun s => s = normalize (lit """") \/ s = normalize (lit "2")) extras.
Proof. intros normalize segment math row H Hi. apply from_element_layout in H. exact (told_in_order H Hi). Qed.
Print Assumptions C59_order_partial.
(** All formulas without errors: exactly which symbols are in the document, in which order. *)
Theorem C59_exact : forall normalize segment math row, from_element normalize segment math = Ok (row, []) ->
  row_symbols row = map normalize (shown segment math).
Proof. intros normalize segment math row H. apply from_element_layout in H. exact (exactly_layout H). Qed.
Print Assumptions C59_exact.
(** The third root of x, the text of one of two versions, and a style *)
Definition some : Xml := tag "math" [tag "mroot" [token "mi" "x"; token "mn" "3"]; tag "semantics" [tag "msqrt" [token "ms" "a"]; token "mi" "lost"]; tag "mstyle" [token "mi" "lost"]; token "mo" "+"].
Example C59_exact_case : (exists row, from_element as_is by_character some = Ok (row, [])) /\ concat (shown by_character some) = lit "3x2""a""+".
Proof. split; [eexists; vm_compute; reflexivity|vm_compute; reflexivity]. Qed.
(** An element for style hides its content, without an error. *)
Theorem C59_refuted : exists math, token_texts math = [lit "x"] /\ from_element as_is by_character math = Ok ([], []).
Proof. exists (tag "math" [tag "mstyle" [token "mi" "x"]]). vm_compute. auto. Qed.
Print Assumptions C59_refuted.
(** All other elements: *)
Definition everything : Xml := tag "math"
  [tag "semantics" [tag "mrow" [token "mi" "a"; token "mo" "+"; token "mtext" "if"; token "ms" "s"]; token "annotation" "tex"];
   tag "mtable" [tag "mtr" [tag "mtd" [token "mn" "1"]; tag "mtd" []]; tag "mtr" [tag "mtd" [tag "msubsup" [token "mi" "b"; token "mi" "c"; token "mi" "d"]]]];
   tag "munder" [token "mi" "e"; token "mi" "f"]; tag "mover" [token "mi" "g"; token "mi" "h"]; tag "munderover" [token "mi" "i"; token "mi" "j"; token "mi" "k"];
   tag "msup" [tag "msqrt" [token "mi" "l"]; token "mi" "m"]].
(** The elements inside, for checking conditions *)
Fixpoint inside_b (P : str -> list Xml -> bool) (x : Xml) : bool :=
  match x with XmlText _ => true | XmlElement tag nodes => P tag nodes && forallb (inside_b P) nodes end.
Lemma inside_b_ok P x tag nodes : inside x (XmlElement tag nodes) -> inside_b P x = true -> P tag nodes = true.
Proof.
  intros H. remember (XmlElement tag nodes) as y eqn:Ey. induction H as [x|t l c y Hc H IH]; subst.
  - cbn. intros E. now apply andb_prop in E as [E _].
  - cbn [inside_b]. intros E. apply andb_prop in E as [_ E]. rewrite forallb_forall in E. auto.
Qed.
Example C59_case : (exists row, from_element as_is by_character everything = Ok (row, [])) /\
  (forall tag nodes, inside everything (XmlElement tag nodes) -> tag <> lit "mstyle" /\ (tag = lit "semantics" -> flat_map token_texts (tl (elements nodes)) = []) /\ tag <> lit "mroot").
Proof.
  split; [eexists; vm_compute; reflexivity|]. intros t nodes H.
  apply inside_b_ok with (P := fun t nodes => negb (str_eqb t (lit "mstyle")) && (negb (str_eqb t (lit "semantics")) || (List.length (flat_map token_texts (tl (elements nodes))) =? 0)) && negb (str_eqb t (lit "mroot"))) in H; [|vm_compute; reflexivity].
  apply andb_prop in H as [H H3]. apply andb_prop in H as [H1 H2]. split; [intros ->; discriminate|]. split; [intros ->; apply Nat.eqb_eq in H2; now apply length_zero_iff_nil|intros ->; discriminate].
Qed.
