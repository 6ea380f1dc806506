(** Concrete documents used to show that the hypotheses of the theorems can be met. *)
From Verif Require Import Base Str Grid Node Focus Spec BaseFacts TreeFacts.
From Coq Require Import String.
Open Scope list_scope.
Set Implicit Arguments.

(** A checker for well-formedness. *)
Fixpoint wf_nodeb (n : InputNode) : bool :=
  match n with
  | Symbol _ => true
  | Container _ (mkGrid cells w) =>
      (0 <? w) && negb (Datatypes.length cells =? 0) && (Datatypes.length cells mod w =? 0) &&
      forallb (fun cell => forallb wf_nodeb cell) cells
  end.
Definition wf_rowb (r : InputRow) : bool := forallb wf_nodeb r.

Lemma wf_nodeb_ok n : wf_nodeb n = true -> wf_node n.
Proof.
  induction n as [s|v cells w IH] using node_ind'; [constructor|].
  simpl. rewrite !andb_true_iff, negb_true_iff. intros [[[H1 H2] H3] H4].
  constructor.
  - lia.
  - destruct cells; [discriminate|congruence].
  - lia.
  - intros cell Hc n Hn. apply (IH cell Hc n Hn).
    rewrite forallb_forall in H4. apply H4 in Hc. rewrite forallb_forall in Hc. auto.
Qed.
Lemma wf_rowb_ok r : wf_rowb r = true -> wf_row r.
Proof. unfold wf_rowb. rewrite forallb_forall. intros H n Hn. apply wf_nodeb_ok; auto. Qed.

Definition sym (s : string) : InputNode := Symbol (lit s).

(** a (b c^2)/(2x2 table with one empty and one nested cell) sqrt[](d) *)
Definition sample : InputRow :=
  [ sym "a";
    fraction [sym "b"; sym "c"; sup [sym "2"]]
             [Container Table (mkGrid [[sym "x"]; []; [sym "y"; sub [sym "1"]]; [sym "z"]] 2)];
    root [] [sym "d"] ].
Lemma sample_wf : wf_row sample.
Proof. apply wf_rowb_ok. vm_compute. reflexivity. Qed.
