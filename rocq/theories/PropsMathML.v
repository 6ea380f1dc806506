(** Reading MathML gives the document that it means. *)
From Coq Require Import String.
From Verif Require Import Base Str Grid Node Spec SpecEditor SpecSafety SpecRender SpecImport SpecMathML BaseFacts Samples TreeFacts OpFacts Render FromMathML ImportFacts MeansFacts WrittenFacts PropsImport.
Open Scope list_scope.
Open Scope nat_scope.

(** * C74: MathML is read as what it means *)
(** A formula is read as the document that it means, without errors. *)
Theorem C74_read : forall normalize segment nodes row, means normalize segment (XmlElement (lit "math") nodes) row ->
  from_element normalize segment (XmlElement (lit "math") nodes) = Ok (row, []).
Proof. intros normalize segment nodes row. exact (@means_read normalize segment nodes row). Qed.
Print Assumptions C74_read.
(** No formula means two documents. *)
Theorem C74_one_meaning : forall normalize segment x row row', means normalize segment x row -> means normalize segment x row' -> row = row'.
Proof.
  intros normalize segment x row row' H H'. destruct (proj1 (means_reads normalize segment) _ _ H) as [_ (l&E&<-)]. destruct (proj1 (means_reads normalize segment) _ _ H') as [_ (l'&E'&<-)]. congruence.
Qed.
Print Assumptions C74_one_meaning.
(** Every document can be written as MathML: there is a formula that is read as it. Missing: containers with other
    numbers of cells or columns than those that the editor makes, and symbols that are not one segment, or begin or end with a space;
    see [C74_exact] and [C74_characters] for what can be written. *)
Theorem C74_all_documents_partial : forall normalize segment doc, proper (expressible normalize segment) doc ->
  exists nodes, means normalize segment (XmlElement (lit "math") nodes) doc /\ from_element normalize segment (XmlElement (lit "math") nodes) = Ok (doc, []).
Proof. intros normalize segment doc H. destruct (doc_written H) as (nodes&Hn). exists nodes. split; [exact Hn|now apply means_read]. Qed.
Print Assumptions C74_all_documents_partial.
(** Exactly the rows of texts and of containers of the shapes that MathML has can be read, and mean something, where the quote and the 2 are one symbol each. *)
Theorem C74_exact : forall normalize segment doc, segment (lit """") = [lit """"] -> segment (lit "2") = [lit "2"] -> wf_row doc ->
  ((exists nodes, from_element normalize segment (XmlElement (lit "math") nodes) = Ok (doc, [])) <-> written normalize segment doc) /\
  ((exists nodes, means normalize segment (XmlElement (lit "math") nodes) doc) <-> written normalize segment doc).
Proof. intros normalize segment doc Hq Ht Hwf. split; [now apply readable|now apply meant]. Qed.
Print Assumptions C74_exact.
(** If every character is a symbol: exactly the documents of characters and containers of these shapes where white space is only between other symbols *)
Theorem C74_characters : forall doc, wf_row doc ->
  ((exists nodes, from_element as_is by_character (XmlElement (lit "math") nodes) = Ok (doc, [])) <->
   everywhere (fun row => (forall n, In n row -> plain_node n) /\ white_inside row) doc).
Proof. intros doc Hwf. rewrite (@readable as_is by_character eq_refl eq_refl doc Hwf). exact (written_characters doc). Qed.
Print Assumptions C74_characters.
(** So there is no formula for a space before a fraction, but there is one for a space between letters. *)
Theorem C74_space_refuted : exists doc, wf_row doc /\ ~ exists nodes, from_element as_is by_character (XmlElement (lit "math") nodes) = Ok (doc, []).
Proof.
  exists [sym "a"; sym " "; fraction [sym "b"] [sym "c"]]. assert (W : wf_row [sym "a"; sym " "; fraction [sym "b"] [sym "c"]]) by (apply wf_rowb_ok; reflexivity). split; [exact W|].
  intros H. apply (C74_characters _ W) in H. destruct (H [] _ eq_refl) as [_ Hi]. destruct (Hi [sym "a"] 32%N [fraction [sym "b"] [sym "c"]] eq_refl eq_refl) as [_ (m&d&b&E&_&Hm)].
  destruct m as [|n m]; [discriminate|]. cbn [app] in E. injection E as <- E. destruct (Hm _ (or_introl eq_refl)) as (c&E'&_). discriminate.
Qed.
Print Assumptions C74_space_refuted.
Example C74_space_read : from_element as_is by_character (XmlElement (lit "math") [token "mi" "a b"; tag "mfrac" [token "mi" "b"; token "mi" "c"]]) = Ok ([sym "a"; sym " "; sym "b"; fraction [sym "b"] [sym "c"]], []).
Proof. vm_compute. reflexivity. Qed.
Example C74_space_inside : everywhere (fun row => (forall n, In n row -> plain_node n) /\ white_inside row) [sym "a"; sym " "; sym "b"; fraction [sym "b"] [sym "c"]].
Proof. apply C74_characters; [apply wf_rowb_ok; reflexivity|]. eexists. exact C74_space_read. Qed.

(** The cube root of x_1^2 + "if", beside a table with lines of different lengths *)
Definition cube_root : list Xml :=
  [tag "mroot" [tag "mrow" [tag "msubsup" [token "mi" " x "; token "mn" "1"; XmlText (lit " "); token "mn" "2"]; token "mo" "+"; token "mtext" "if"]; token "mn" "3"];
   tag "mtable" [tag "mtr" [tag "mtd" [token "mi" "a"]]; tag "mtr" [tag "mtd" []; tag "mtd" [token "mi" "b"]]]].
Definition cube_root_row : InputRow :=
  [root [sym "3"] [sym "x"; sub [sym "1"]; sup [sym "2"]; sym "+"; Symbol [34%N]; sym "i"; sym "f"; Symbol [34%N]];
   Container Table (mkGrid [[sym "a"]; []; []; [sym "b"]] 2)].
Lemma plain_text (name text : string) row : In name ["mi"; "mn"; "mo"]%string -> tight_text (lit text) -> row = symbols_of as_is by_character (lit text) -> means as_is by_character (token name text) row.
Proof.
  intros Hn Ht ->. unfold token. replace (lit text) with ([] ++ lit text ++ []) at 1 by (cbn [app]; apply app_nil_r). apply means_token; [exists name; auto|easy|easy|exact Ht].
Qed.
Definition tight_b (s : str) : bool := match s with [] => true | c :: _ => negb (is_white c) end && match rev s with [] => true | c :: _ => negb (is_white c) end.
Lemma tight_b_ok s : tight_b s = true -> tight_text s.
Proof.
  unfold tight_b. intros H. apply andb_prop in H as [H1 H2]. split; intros c l E.
  - subst s. now destruct (is_white c).
  - subst s. rewrite rev_app_distr in H2. cbn [rev app] in H2. now destruct (is_white c).
Qed.
Ltac plain := apply plain_text; [cbn; tauto|apply tight_b_ok; reflexivity|reflexivity].
Example C74_case : means as_is by_character (XmlElement (lit "math") cube_root) cube_root_row.
Proof.
  change cube_root_row with (concat [[nth 0 cube_root_row (sym "")]; [nth 1 cube_root_row (sym "")]]).
  apply means_row; [exists "math"%string; cbn; auto|]. unfold cube_root. constructor; [|constructor; [|constructor]].
  - apply means_root. constructor; [|constructor; [plain|constructor]].
    match goal with |- means _ _ _ ?r => change r with (concat [[sym "x"; sub [sym "1"]; sup [sym "2"]]; [sym "+"]; [Symbol [34%N]; sym "i"; sym "f"; Symbol [34%N]]]) end.
    apply means_row; [exists "mrow"%string; cbn; auto|]. constructor; [|constructor; [plain|constructor; [|constructor]]].
    + apply (@means_sub_sup as_is by_character (lit "msubsup") _ [sym "x"] [sym "1"] [sym "2"]); [exists "msubsup"%string; cbn; auto|].
      constructor; [|constructor; [plain|constructor; constructor; [plain|constructor]]].
      apply (@means_token as_is by_character (lit "mi") (lit " ") (lit "x") (lit " ")); [exists "mi"%string; cbn; auto| | |apply tight_b_ok; reflexivity]; intros c [<-|[]]; reflexivity.
    + apply (@means_string as_is by_character (lit "mtext") [] (lit "if") []); [exists "mtext"%string; cbn; auto|easy|easy|apply tight_b_ok; reflexivity].
  - apply (@means_table as_is by_character _ 2 [[[sym "a"]]; [[]; [sym "b"]]]).
    + assert (R : forall nodes rows, mean_each as_is by_character nodes rows -> means as_is by_character (tag "mtd" nodes) (concat rows)) by (intros; apply means_row; [exists "mtd"%string; cbn; auto|assumption]).
      constructor; [|intros c [<-|[]] _; eexists; reflexivity|constructor; [|intros c [<-|[<-|[]]] _; eexists; reflexivity|constructor]].
      * constructor; [|constructor]. apply (R _ [[sym "a"]]). constructor; [plain|constructor].
      * constructor; [|constructor; [|constructor]]; [apply (R _ []); constructor|]. apply (R _ [[sym "b"]]). constructor; [plain|constructor].
    + intros line [<-|[<-|[]]]; cbn; lia.
    + exists [[]; [sym "b"]]. cbn. auto.
Qed.
Example C74_case_read : from_element as_is by_character (XmlElement (lit "math") cube_root) = Ok (cube_root_row, []).
Proof. exact (C74_read _ _ _ _ C74_case). Qed.
Example C74_sample : proper (expressible as_is by_character) sample.
Proof.
  split; [exact sample_wf|]. intros x Hx. vm_compute in Hx. repeat (destruct Hx as [<-|Hx]; [cbn; try tauto; try (split; [apply tight_b_ok; reflexivity|split; reflexivity])|]). destruct Hx.
Qed.
