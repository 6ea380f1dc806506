(** Properties of the work of the parser on formulas as they are taught (C86). *)
From Coq Require Import String.
From Verif Require Import Base Str Grid Node NameMap Syntax Pratt Grammar Spec SpecFormula SpecEffort Samples PropsParse FormulaFacts Cost CostCases FormulaCost PropsCost.
Open Scope list_scope.
Open Scope nat_scope.
Local Notation Gx := (default_grammar ascii_letter ascii_continue).

(** * C86 for formulas as they are taught *)
(** The exact number of calls: one for every row, pair of brackets and operand after an operator, but the
    rows in the scripts of an infix operator count once for every operator that is waiting for its operand
    to end, and once more. *)
Theorem C86_formula : forall xs xc n f, classes_ok xs xc -> spelled xs xc f -> conventional 0 0 f ->
  calls (default_grammar xs xc) (spaces n ++ written f) = S (effort f).
Proof. intros xs xc n f HC. exact (@formula_calls xs xc HC n f). Qed.
Print Assumptions C86_formula.
(** The calls are at most one for every symbol, container and cell if every infix operator that has scripts
    comes after an operand that no other operator is waiting for the end of. *)
Theorem C86_steady_partial : forall xs xc n f, classes_ok xs xc -> spelled xs xc f -> conventional 0 0 f -> steady f ->
  calls (default_grammar xs xc) (spaces n ++ written f) <= size (written f).
Proof. intros xs xc n f HC Hs Hc Hf. rewrite C86_formula by assumption. rewrite size_row. exact (steady_effort Hf). Qed.
Print Assumptions C86_steady_partial.

(** [k] minus signs and a name, and an equals sign in whose subscript there is the same again, [n] times *)
Definition name (c : N) : Formula := FAtom (AVariable [c] []) 0.
Fixpoint minus (k : nat) (f : Formula) : Formula := match k with 0 => f | S k => FPrefix Negative 0 [] (minus k f) end.
Fixpoint tower (c : N) (k n : nat) : Formula :=
  match n with 0 => name c | S n => FInfix (minus k (name c)) Equals 0 [(false, 0, tower c k n, 0)] (name c) end.
Lemma minus_effort k f : effort (minus k f) = k + effort f.
Proof. induction k as [|k IH]; [reflexivity|]. cbn [minus]. rewrite effort_prefix, IH. cbn. lia. Qed.
Lemma minus_pending k f : pending (minus k f) = k + pending f.
Proof. induction k as [|k IH]; [reflexivity|]. cbn [minus pending]. lia. Qed.
Lemma minus_size k f : row_size (written (minus k f)) = k + row_size (written f).
Proof. induction k as [|k IH]; [reflexivity|]. cbn [minus]. rewrite written_prefix, !size_app, IH. cbn. lia. Qed.
Lemma minus_conventional k f l r : l <= 6 -> r <= 5 -> conventional 6 r f -> conventional l r f -> conventional l r (minus k f).
Proof.
  intros Hl Hr Hf. revert l Hl. induction k as [|k IH]; intros l Hl Hf'; [exact Hf'|]. cbn [minus]. apply conventional_prefix. split; [exact Hr|]. split; [intros g (u&b&a&[])|].
  apply IH; [cbn; lia|exact Hf].
Qed.
Lemma minus_spelled xs xc k f : spelled xs xc f -> spelled xs xc (minus k f).
Proof. intros H. induction k as [|k IH]; [exact H|]. cbn [minus]. apply spelled_prefix. split; [intros g (u&b&a&[])|]. split; [exact IH|discriminate]. Qed.
Lemma name_spelled xs xc c : xs c = true -> spelled xs xc (name c).
Proof. intros H. cbn. split; [exists c, []; auto|]. split; [intros ? []|]. discriminate. Qed.
Lemma tower_spelled xs xc c k n : xs c = true -> spelled xs xc (tower c k n).
Proof.
  intros H. induction n as [|n IH]; [now apply name_spelled|]. cbn [tower]. apply spelled_infix. split; [apply minus_spelled; now apply name_spelled|]. split; [|now apply name_spelled].
  intros g (u&b&a&[E|[]]). injection E as _ _ <- _. exact IH.
Qed.
Lemma tower_conventional c k n : conventional 0 0 (tower c k n).
Proof.
  induction n as [|n IH]; [exact I|]. cbn [tower]. apply conventional_infix. split; [lia|]. split; [cbn; lia|]. split; [|split; [|exact I]].
  - intros g (u&b&a&[E|[]]). injection E as _ _ <- _. exact IH.
  - apply minus_conventional; cbn; try lia; exact I.
Qed.
Lemma tower_size c k n : row_size (written (tower c k n)) = 1 + n * (k + 5).
Proof.
  induction n as [|n IH]; [reflexivity|]. cbn [tower]. rewrite written_infix, size_app, size_cons, !size_app, minus_size.
  change (row_size (written_scripts [(false, 0, tower c k n, 0)])) with (S (S (row_size (written (tower c k n))) + 0) + 0). rewrite IH. cbn. lia.
Qed.
Lemma tower_effort c k n : (k + 1) ^ n <= S (effort (tower c k n)).
Proof.
  induction n as [|n IH]; [cbn; lia|]. cbn [tower]. rewrite effort_infix, minus_effort, minus_pending. change (scripts_effort [(false, 0, tower c k n, 0)]) with (S (effort (tower c k n)) + 0). cbn [Nat.pow pending name]. nia.
Qed.
(** No polynomial bounds the calls, even for complete formulas in which nothing is missing and nothing is
    left out: with [k] signs before an operator, every script that is nested multiplies them by [k + 1]. *)
Theorem C86_formula_refuted : forall xs xc c k n, classes_ok xs xc -> xs c = true -> let f := tower c k n in
  spelled xs xc f /\ conventional 0 0 f /\ size (written f) = 1 + n * (k + 5) /\ (k + 1) ^ n <= calls (default_grammar xs xc) (written f).
Proof.
  intros xs xc c k n HC Hc f. pose proof (tower_spelled xs xc c k n Hc) as Hs. pose proof (tower_conventional c k n) as Hf. split; [exact Hs|]. split; [exact Hf|]. split.
  - rewrite size_row. apply tower_size.
  - pose proof (C86_formula xs xc 0 f HC Hs Hf) as E. cbn [spaces repeat app] in E. rewrite E. apply tower_effort.
Qed.
Print Assumptions C86_formula_refuted.

(** A sum over a fraction, a call and a limit *)
Definition sum : Formula :=
  FInfix (FPrefix Sum 0 [(false, 0, FInfix (name 105) Equals 0 [] (FAtom (ANumber 49 [] []) 0), 1); (true, 0, name 110, 0)] (FAtom (ACells Fraction 1 [(0, name 97); (1, name 98)]) 0)) Plus 1 []
    (FInfix (FPostfix (name 102) (PApply 0 (FPrefix Negative 0 [] (name 120))) 0) Times 0 [(false, 0, name 103, 0)] (FPostfix (name 121) (PScript true 0 (FAtom (ANumber 50 [] []) 0)) 0)).
Example C86_formula_case : classes_ok ascii_letter ascii_continue /\ spelled ascii_letter ascii_continue sum /\ conventional 0 0 sum /\ steady sum /\ calls Gx (written sum) = 13 /\ effort sum = 12 /\ size (written sum) = 31.
Proof.
  split; [|split; [|split; [|split]]].
  - split; [intros c Hc; cbn in Hc; repeat (destruct Hc as [<-|Hc]; [split; reflexivity|]); destruct Hc|].
    intros c Hc. unfold ascii_letter. apply orb_false_iff. rewrite !andb_false_iff, !N.leb_gt. lia.
  - cbn. repeat split; try discriminate; try (intros ? []; fail); try (exists 105%N, []; now repeat split); try (exists 110%N, []; now repeat split); try (exists 97%N, []; now repeat split); try (exists 98%N, []; now repeat split);
    try (exists 102%N, []; now repeat split); try (exists 120%N, []; now repeat split); try (exists 103%N, []; now repeat split); try (exists 121%N, []; now repeat split); try constructor; auto; unfold digit; lia.
  - cbn. repeat split; lia.
  - cbn. tauto.
  - vm_compute. auto.
Qed.
(** Three signs: 4 to the power of the number of scripts *)
Example C86_tower_case : map (fun n => (size (written (tower 120 3 n)), calls Gx (written (tower 120 3 n)))) [0; 1; 2; 3; 4] = [(1, 1); (9, 9); (17, 41); (25, 169); (33, 681)].
Proof. vm_compute. reflexivity. Qed.
