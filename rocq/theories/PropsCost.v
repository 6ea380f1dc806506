(** Properties of the work of the parser (C86). *)
From Coq Require Import String.
From Verif Require Import Base Str Grid Node Focus Edit Caret Autocomplete Editor Rules NameMap Syntax Pratt Grammar Spec SpecEditor SpecSyntax Samples PropsEditor PropsParse SpecRender GrammarFacts Cost CostFacts CostCases CostBound CostLinear.
Open Scope list_scope.
Open Scope nat_scope.

(** The size of a document: its symbols, containers and cells *)
Fixpoint weight (n : InputNode) : nat :=
  match n with
  | Symbol _ => 1
  | Container _ (mkGrid cells _) => 1 + list_sum (map (fun cell => 1 + list_sum (map weight cell)) cells)
  end.
Definition size (doc : InputRow) : nat := list_sum (map weight doc).
Lemma size_row doc : size doc = row_size doc. Proof. reflexivity. Qed.
(** [n] opening brackets *)
Notation opening n := (repeat (Symbol (lit "(")) n).

(** * C86: the work of the parser *)
(** What is counted are the calls in the parse that the editor makes: questions whether something can be
    parsed are answered without parsing what is inside of containers, and the answers are the same. *)
Theorem C86_counted : forall xs xc doc, wf_row doc -> snd (cparse (default_grammar xs xc) doc) = parse (default_grammar xs xc) doc.
Proof. intros xs xc doc. apply counted_parse; [apply default_no_empty_tokens|apply default_all_containers]. Qed.
Print Assumptions C86_counted.
(** Every opening bracket that is typed trebles them. *)
Theorem C86_brackets : forall xs xc n, xs 40%N = false -> calls (default_grammar xs xc) (opening n) = 3 ^ n.
Proof. intros xs xc n. apply brackets_calls. Qed.
Print Assumptions C86_brackets.
Theorem C86_brackets_typed : forall cfg n, exists ed, run (default_env cfg) (editor_new _) [OpInsertAtCaret (repeat (lit "(") n)] = Ok ed /\ ed_input ed = opening n.
Proof.
  intros cfg n. destruct (C13_typing_partial _ (default_env cfg) (editor_new _) (mkMinRange [] 0 0) (repeat (lit "(") n)) as (ed&E&Hr&_).
  - intros x [].
  - reflexivity.
  - both_profiles; eexists; vm_compute; reflexivity.
  - exists ed. cbn [run]. rewrite E. split; [reflexivity|]. destruct Hr as (row&_&Hle&H). inversion H; subst. cbn [mr_start mr_end Nat.min Nat.max firstn skipn app]. rewrite app_nil_r. clear. induction n as [|n IH]; [reflexivity|]. cbn. now f_equal.
Qed.
Print Assumptions C86_brackets_typed.
(** No polynomial in the size bounds the number of calls. (An opening bracket starts no name.) *)
Theorem C86_refuted : forall xs xc a k, xs 40%N = false -> exists doc, wf_row doc /\ a * (size doc + 1) ^ k < calls (default_grammar xs xc) doc.
Proof.
  intros xs xc a k Hx. destruct (beats_polynomial a 1 1 k) as (n&Hn). exists (opening n). split; [apply brackets_wf|]. rewrite size_row, C86_brackets, brackets_size by exact Hx.
  rewrite Nat.mul_1_l in Hn. pose proof (Nat.pow_le_mono_l 2 3 n ltac:(lia)). lia.
Qed.
Print Assumptions C86_refuted.
(** It never gets worse than exponential. *)
Theorem C86_bound : forall xs xc doc, wf_row doc -> calls (default_grammar xs xc) doc <= 9 ^ size doc.
Proof. intros xs xc doc. apply calls_bound. Qed.
Print Assumptions C86_bound.
(** The signs that are infix operators *)
Definition signs : list str := map lit ["+"; "-"; "*"; "/"; ","; "="; ">"; "<"]%string ++ [[8805%N]; [8804%N]; [8743%N]; [8744%N]; [172%N]; [8660%N]; [10233%N]].
(** A row without opening brackets, and without scripts after an infix operator and any number of spaces *)
Definition plain_row (row : InputRow) : Prop :=
  ~ In (Symbol (lit "(")) row /\
  forall a s k v c b, row = a ++ Symbol s :: repeat (Symbol (lit " ")) k ++ Container v c :: b -> v = Sub \/ v = Sup -> ~ In s signs.
(** Without opening brackets and scripts of infix operators the calls are at most two for every part of the
    document, and one. Fractions, roots, tables and the scripts of operands may be nested in any way. *)
Theorem C86_partial : forall xs xc doc, wf_row doc -> everywhere plain_row doc -> calls (default_grammar xs xc) doc <= 1 + 2 * size doc.
Proof. intros xs xc doc. apply calls_linear. Qed.
Print Assumptions C86_partial.

(** A sum, operators without operands, and factors without operators *)
Example C86_case : let doc := typed "1+2+3+4*5*x" in everywhere plain_row doc /\ calls (default_grammar ascii_letter ascii_continue) doc = 6 /\ size doc = 11.
Proof. cbv zeta. split; [apply (all_calmb_ok (fuel := 3)); vm_compute; reflexivity|split; vm_compute; reflexivity]. Qed.
Example C86_case_missing : calls (default_grammar ascii_letter ascii_continue) (typed "++++++++") = 9 /\ calls (default_grammar ascii_letter ascii_continue) (typed "1 2 3 4 5 6") = 6.
Proof. split; vm_compute; reflexivity. Qed.
(** A fraction after a 2, in whose numerator there is another one, and so on *)
Fixpoint fractions (n : nat) : InputRow := match n with 0 => typed "x" | S n => typed "2" ++ [fraction (fractions n) (typed "y")] end.
Example C86_case_fractions : let doc := fractions 6 in wf_row doc /\ everywhere plain_row doc /\ calls (default_grammar ascii_letter ascii_continue) doc = 19 /\ size doc = 31.
Proof. cbv zeta. split; [apply wf_rowb_ok; vm_compute; reflexivity|]. split; [apply (all_calmb_ok (fuel := 9)); vm_compute; reflexivity|split; vm_compute; reflexivity]. Qed.
(** Scripts after operands *)
Example C86_case_scripts : let doc := typed "-x" ++ [sub (typed "i"); sup (typed "y" ++ [sup (typed "z")])] ++ typed " + 1" ++ [sup []] in
  wf_row doc /\ everywhere plain_row doc /\ calls (default_grammar ascii_letter ascii_continue) doc = 7 /\ size doc = 17.
Proof. cbv zeta. split; [apply wf_rowb_ok; vm_compute; reflexivity|]. split; [apply (all_calmb_ok (fuel := 4)); vm_compute; reflexivity|split; vm_compute; reflexivity]. Qed.
Example C86_case_size : calls (default_grammar ascii_letter ascii_continue) (opening 5) = 243 /\ ascii_letter 40%N = false.
Proof. repeat split; vm_compute; reflexivity. Qed.
