(** What is drawn is MathML; read as the formula of a page, is it the document again? (C91) *)
From Coq Require Import String.
From Verif Require Import Base Str Grid Node Focus Spec NameMap Syntax Pratt Grammar Render Layout FromMathML SpecDom SpecSafety SpecReread BaseFacts TreeFacts RenderFacts SightFacts RereadFacts Samples PropsRender PropsParse PropsImport.
Open Scope list_scope.
Open Scope nat_scope.

(** What is read is the document with a symbol "Error" on both sides of every fraction, root and table and at both ends
    of every script, and two complaints for each of them: the empty elements that measure the base line are not known. *)
Theorem C91_read_partial : forall xs xc normalize segment plain doc x, legible normalize segment plain ->
  (forall y, In y (row_parts doc) -> bare plain y) -> draw xs xc doc = Ok x -> forallb clean (get_elements x) = true ->
  from_element normalize segment (as_math (get_elements x)) = Ok (flat_map noisy doc, complaints doc).
Proof. intros xs xc normalize segment plain doc x HS B H Hc. apply draw_inv in H as (n&En&Hx). exact (drawn_reread HS En Hx B Hc). Qed.
Print Assumptions C91_read_partial.

Lemma noisy_symbols doc : (forall v g, ~ In (Container v g) doc) -> flat_map noisy doc = doc /\ complaints doc = [].
Proof.
  unfold complaints. induction doc as [|n doc IH]; intros H; [auto|]. destruct IH as [I1 I2]; [intros v g Hin; apply (H v g); now right|].
  destruct n as [v [cells w]|s]; [exfalso; exact (H _ _ (or_introl eq_refl))|]. cbn [flat_map noisy map containers app]. rewrite I1. split; [reflexivity|exact I2].
Qed.
(** So exactly the documents of symbols alone are read as they were. *)
Theorem C91_exactly : forall xs xc normalize segment plain doc x, legible normalize segment plain ->
  (forall y, In y (row_parts doc) -> bare plain y) -> draw xs xc doc = Ok x -> forallb clean (get_elements x) = true ->
  (from_element normalize segment (as_math (get_elements x)) = Ok (doc, []) <-> forall v g, ~ In (Container v g) doc).
Proof.
  intros xs xc normalize segment plain doc x HS B H Hc. rewrite (C91_read_partial xs xc normalize segment plain doc x HS B H Hc). split.
  - intros E v [cells w] Hin. injection E as _ E. unfold complaints in E. apply (in_split) in Hin as (l1&l2&->). rewrite map_app, list_sum_app in E. cbn [map containers] in E.
    match type of E with repeat _ ?n = [] => assert (0 < n) as L end.
    { change (list_sum (?a :: ?l)) with (a + list_sum l). lia. }
    match type of E with repeat _ ?n = [] => destruct n; [lia|discriminate E] end.
  - intros N. destruct (noisy_symbols doc N) as [-> ->]. reflexivity.
Qed.
Print Assumptions C91_exactly.

(** Characters that are as they are *)
Definition dark (c : N) : Prop := js_space c = false.
Lemma dark_legible : legible as_is by_character dark.
Proof. split; [intros c Hc; split; [reflexivity|exact Hc]|]. split; reflexivity. Qed.
Ltac bare_parts := intros y Hy; vm_compute in Hy; repeat (destruct Hy as [<-|Hy]; [first [exact I | eexists; split; [reflexivity|]; split; [reflexivity|split; discriminate]]|]); try destruct Hy.
(** sin(x) + 2a *)
Definition flat : InputRow := typed "sin(x)+2*a".
Example C91_case_symbols : (forall y, In y (row_parts flat) -> bare dark y) /\
  exists x, draw ascii_letter ascii_continue flat = Ok x /\ forallb clean (get_elements x) = true /\ from_element as_is by_character (as_math (get_elements x)) = Ok (flat, []).
Proof. split; [bare_parts|]. eexists. split; [vm_compute; reflexivity|]. split; vm_compute; reflexivity. Qed.
(** x_i + 1/sqrt(x) and a matrix *)
Definition steep : InputRow :=
  typed "x" ++ [sub (typed "i")] ++ typed "+" ++ [fraction (typed "1") [root [] (typed "x")]; Container Table (mkGrid [typed "1"; typed "2"; typed "3"; []] 2)].
Example C91_case : (forall y, In y (row_parts steep) -> bare dark y) /\
  exists x, draw ascii_letter ascii_continue steep = Ok x /\ forallb clean (get_elements x) = true /\ List.length (complaints steep) = 8 /\
    from_element as_is by_character (as_math (get_elements x)) = Ok (flat_map noisy steep, complaints steep).
Proof. split; [bare_parts|]. eexists. split; [vm_compute; reflexivity|]. split; [vm_compute; reflexivity|]. split; vm_compute; reflexivity. Qed.

(** A fraction is read with two more symbols. *)
Theorem C91_refuted : exists doc x row, (forall y, In y (row_parts doc) -> bare dark y) /\ draw ascii_letter ascii_continue doc = Ok x /\
  from_element as_is by_character (as_math (get_elements x)) = Ok (row, [UnknownElement (lit "mphantom"); UnknownElement (lit "mphantom")]) /\
  row = [Symbol (lit "Error")] ++ doc ++ [Symbol (lit "Error")].
Proof. exists [fraction (typed "1") (typed "2")]. do 2 eexists. split; [bare_parts|]. split; [vm_compute; reflexivity|]. split; vm_compute; reflexivity. Qed.
Print Assumptions C91_refuted.
(** A space is read as "Error", and a text gets quotes around its quotes. *)
Theorem C91_space_refuted : exists x, draw ascii_letter ascii_continue (typed "1 +2") = Ok x /\
  from_element as_is by_character (as_math (get_elements x)) = Ok ([sym "1"; Symbol (lit "Error")] ++ typed "+2", [UnknownElement (lit "mspace")]).
Proof. eexists. split; vm_compute; reflexivity. Qed.
Print Assumptions C91_space_refuted.
Theorem C91_text_refuted : exists x, draw ascii_letter ascii_continue (typed """ab""") = Ok x /\
  from_element as_is by_character (as_math (get_elements x)) = Ok (typed """""ab""""", []).
Proof. eexists. split; vm_compute; reflexivity. Qed.
Print Assumptions C91_text_refuted.
