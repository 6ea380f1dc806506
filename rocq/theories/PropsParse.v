(** The parser (C33, C34, C35, C43). *)
From Coq Require Import String.
From Verif Require Import Base Str Grid Node Spec Autocomplete NameMap Syntax Pratt Grammar SyntaxPrint SyntaxFind SpecSyntax SpecPratt BaseFacts TreeFacts ParseFacts ParseTotal FindFacts PrattFacts
  GrammarFacts TableFacts Samples.
Open Scope list_scope.
Open Scope nat_scope.

(** The tests of the repository (parser/tests/parser_test.rs), as a check of the model. *)
Definition printed (doc : InputRow) : Res str := n <- parse ascii_grammar doc ;; print_syntax n.
Definition typed (s : string) : InputRow := map Symbol (symbols s).
Example test_parser : printed (typed "-b*C") =
  Ok (lit "(Arithmetic::Multiply (Arithmetic::Subtract (BuiltIn::Operator ""-"") (Core::Variable ""b"")) (BuiltIn::Operator ""*"") (Core::Variable ""C""))").
Proof. vm_compute. reflexivity. Qed.
Example test_postfix : printed (typed "c+a!") =
  Ok (lit "(Arithmetic::Add (Core::Variable ""c"") (BuiltIn::Operator ""+"") (Arithmetic::Factorial (Core::Variable ""a"") (BuiltIn::Operator ""!"")))").
Proof. vm_compute. reflexivity. Qed.
Example test_sub : printed [sym "a"; sub [sym "1"]] =
  Ok (lit "(BuiltIn::Sub (Core::Variable ""a"") (BuiltIn::Operator 1x1 (Arithmetic::Number ""1"")))").
Proof. vm_compute. reflexivity. Qed.
Example test_sup_sub : printed [sym "a"; sup [sym "1"]; sub [sym "2"]] =
  Ok (lit "(BuiltIn::Sub (BuiltIn::Sup (Core::Variable ""a"") (BuiltIn::Operator 1x1 (Arithmetic::Number ""1""))) (BuiltIn::Operator 1x1 (Arithmetic::Number ""2"")))").
Proof. vm_compute. reflexivity. Qed.
Example test_parser_nested_brackets_and_postfix : printed (typed "(((a!)))") =
  Ok (lit "(Core::RoundBrackets (BuiltIn::Operator ""("") (Core::RoundBrackets (BuiltIn::Operator ""("") (Core::RoundBrackets (BuiltIn::Operator ""("") (Arithmetic::Factorial (Core::Variable ""a"") (BuiltIn::Operator ""!"")) (BuiltIn::Operator "")"")) (BuiltIn::Operator "")"")) (BuiltIn::Operator "")""))").
Proof. vm_compute. reflexivity. Qed.
Example test_parser_tuple : printed (typed "a,b") =
  Ok (lit "(Collections::Tuple (Core::Variable ""a"") (BuiltIn::Operator "","") (Core::Variable ""b""))").
Proof. vm_compute. reflexivity. Qed.
Example test_parser_tuple_advanced : printed (typed "(a,b,c)") =
  Ok (lit "(Core::RoundBrackets (BuiltIn::Operator ""("") (Collections::Tuple (Collections::Tuple (Core::Variable ""a"") (BuiltIn::Operator "","") (Core::Variable ""b"")) (BuiltIn::Operator "","") (Core::Variable ""c"")) (BuiltIn::Operator "")""))").
Proof. vm_compute. reflexivity. Qed.
Example test_parser_function_call : printed (typed "f(a,b)") =
  Ok (lit "(Function::FunctionApplication (Core::Variable ""f"") (BuiltIn::Operator (BuiltIn::Operator ""("") (Collections::Tuple (Core::Variable ""a"") (BuiltIn::Operator "","") (Core::Variable ""b"")) (BuiltIn::Operator "")"")))").
Proof. vm_compute. reflexivity. Qed.
Example test_parser_brackets_with_addition : printed (typed "(a+b)") =
  Ok (lit "(Core::RoundBrackets (BuiltIn::Operator ""("") (Arithmetic::Add (Core::Variable ""a"") (BuiltIn::Operator ""+"") (Core::Variable ""b"")) (BuiltIn::Operator "")""))").
Proof. vm_compute. reflexivity. Qed.
Example test_parser_fraction : printed [sym "("; sym "a"; sym "+"; fraction [sym "b"] [sym "c"]; sym ")"] =
  Ok (lit "(Core::RoundBrackets (BuiltIn::Operator ""("") (Arithmetic::Add (Core::Variable ""a"") (BuiltIn::Operator ""+"") (BuiltIn::Fraction 1x2 (Core::Variable ""b"") (Core::Variable ""c""))) (BuiltIn::Operator "")""))").
Proof. vm_compute. reflexivity. Qed.
Example test_parser_empty_input : printed [] = Ok (lit "(Error::MissingToken)").
Proof. vm_compute. reflexivity. Qed.
Example test_parser_empty_squareroot : printed [root [] [sym "a"]] = Ok (lit "(BuiltIn::Root 2x1 (Error::MissingToken) (Core::Variable ""a""))").
Proof. vm_compute. reflexivity. Qed.
Example test_parser_empty_brackets : printed (typed "a+()") =
  Ok (lit "(Arithmetic::Add (Core::Variable ""a"") (BuiltIn::Operator ""+"") (Core::RoundBrackets (BuiltIn::Operator ""("") (BuiltIn::Operator "")"")))").
Proof. vm_compute. reflexivity. Qed.

(** * C34: parsing always succeeds *)
(** With the default modules and any classification of characters. *)
Theorem C34_total : forall xid_start xid_continue doc, wf_row doc -> exists n, parse (default_grammar xid_start xid_continue) doc = Ok n.
Proof. intros xs xc doc H. destruct (default_covers xs xc H) as (n&E&_). eauto. Qed.
Print Assumptions C34_total.
(** The same for all modules whose tokens are not empty and that have a rule for every container. *)
Theorem C34_all_grammars : forall g doc, no_empty_tokens g -> all_containers g -> wf_row doc -> exists n, parse g doc = Ok n.
Proof. intros g doc Ht Hc H. destruct (parse_covers Ht Hc H) as (n&E&_). eauto. Qed.
Print Assumptions C34_all_grammars.
(** The fuel of the model is enough: more of it changes nothing. *)
Theorem C34_fuel : forall g doc k, no_empty_tokens g -> all_containers g -> wf_row doc -> row_size doc < k ->
  parse_row_with (pratt_parse g k) doc = parse g doc.
Proof. intros g doc k Ht Hc. now apply parse_fuel. Qed.
Print Assumptions C34_fuel.
Example C34_case : wf_row sample /\ is_ok (parse ascii_grammar sample) = true /\ no_empty_tokens ascii_grammar /\ all_containers ascii_grammar /\
  printed (typed "a)(%") = Ok (lit "(Error::MissingOperator (Core::Variable ""a"") (Error::MissingToken) (Error::MissingOperator (Error::MissingOperator (Error::UnknownToken "")"") (Error::MissingToken) (Error::UnknownToken ""("")) (Error::MissingToken) (Error::UnknownToken ""%"")))").
Proof.
  split; [apply sample_wf|]. split; [vm_compute; reflexivity|]. split; [apply default_no_empty_tokens|]. split; [apply default_all_containers|].
  vm_compute. reflexivity.
Qed.
(** The rules for containers are needed: without a rule for tables a table is an unknown token, which panics. *)
Theorem C34_containers_needed : exists g doc, no_empty_tokens g /\ wf_row doc /\ parse g doc = Panic PUnwrap.
Proof.
  exists (mkGrammar [] ascii_letter ascii_continue), [fraction [] []]. split; [intros r t []|]. split; [apply wf_rowb_ok; reflexivity|]. vm_compute. reflexivity.
Qed.
Print Assumptions C34_containers_needed.

(** * C33: the syntax tree covers the input *)
Theorem C33_tiling : forall g doc n, no_empty_tokens g -> all_containers g -> wf_row doc -> parse g doc = Ok n -> covers doc 0 (length doc) n.
Proof. intros g doc n Ht Hc H E. destruct (parse_covers Ht Hc H) as (n'&E'&C). congruence. Qed.
Print Assumptions C33_tiling.
Theorem C33_text : forall g doc n, no_empty_tokens g -> all_containers g -> wf_row doc -> parse g doc = Ok n -> leaf_text n = concat (Spec.symbols doc).
Proof. exact parse_text. Qed.
Print Assumptions C33_text.
Example C33_case : exists n, parse ascii_grammar (typed "limsup 4.5 a") = Ok n /\ leaf_text n = lit "limsup 4.5 a".
Proof. eexists. split; vm_compute; reflexivity. Qed.

(** * C43: every row can be found in the syntax tree *)
Theorem C43_rows_found : forall g doc n p row, no_empty_tokens g -> all_containers g -> wf_row doc -> parse g doc = Ok n -> row_get doc p = Some row ->
  exists n', get_node_with_row_indices n p = Ok n' /\ covers row 0 (length row) n'.
Proof. exact parse_find. Qed.
Print Assumptions C43_rows_found.
(** The tree that is found is the one that parsing the row on its own returns. *)
Theorem C43_rows_parsed : forall g doc n p row, no_empty_tokens g -> all_containers g -> wf_row doc -> parse g doc = Ok n -> row_get doc p = Some row ->
  exists n', get_node_with_row_indices n p = Ok n' /\ parse g row = Ok n'.
Proof. exact find_parsed. Qed.
Print Assumptions C43_rows_parsed.
(** Containers keep their size. *)
Theorem C43_grid_size : forall g doc n k v cells w, no_empty_tokens g -> all_containers g -> wf_row doc -> parse g doc = Ok n ->
  nth_error doc k = Some (Container v (mkGrid cells w)) ->
  exists nodes, get_child_with_new_rows n k = Ok (mkGrid nodes w) /\ length nodes = length cells /\ covers_cells cells nodes.
Proof. exact parse_grid. Qed.
Print Assumptions C43_grid_size.
Example C43_case : exists n n', parse ascii_grammar [sym "a"; fraction [sym "b"] [sym "c"; sup [sym "d"]]] = Ok n /\
  row_get [sym "a"; fraction [sym "b"] [sym "c"; sup [sym "d"]]] [(1, 1); (1, 0)] = Some [sym "d"] /\
  get_node_with_row_indices n [(1, 1); (1, 0)] = Ok n' /\ leaf_text n' = lit "d".
Proof. do 2 eexists. split; [vm_compute; reflexivity|]. split; [reflexivity|]. split; vm_compute; reflexivity. Qed.

(** * C35: operator precedence and associativity *)
(** The tree is a tree of the tokens of the text that respects the binding powers, *)
Theorem C35_respected : forall g doc n, no_empty_tokens g -> all_containers g -> wf_row doc -> parse g doc = Ok n ->
  exists t, tokens_of g doc (flatten t) /\ respects t /\ build t = n.
Proof. intros g doc n Ht Hc. now apply parse_respects. Qed.
Print Assumptions C35_respected.
(** also in the rows of containers, *)
Theorem C35_rows : forall g doc n p row, no_empty_tokens g -> all_containers g -> wf_row doc -> parse g doc = Ok n -> row_get doc p = Some row ->
  exists n' t, get_node_with_row_indices n p = Ok n' /\ tokens_of g row (flatten t) /\ respects t /\ build t = n'.
Proof.
  intros g doc n p row Ht Hc Hwf E Er. destruct (find_parsed Ht Hc Hwf E Er) as (n'&En'&Ep).
  destruct (parse_respects Ht Hc (row_get_wf Hwf Er) Ep) as (t&H). exists n', t. auto.
Qed.
Print Assumptions C35_rows.
(** and inside of brackets, wherever they are; *)
Theorem C35_brackets : forall g row pos a b c i, no_empty_tokens g -> all_containers g -> wf_row row -> pos <= length row ->
  parse_token g (token_parser g (inp row pos)) (TBrackets a b) (inp row pos) = Ok (Some (c, i)) ->
  exists t p, lexes g (EndSymbol b) (Operand, inp row (S pos)) (flatten t) (Operator, inp row p) /\ next g (EndSymbol b) Operator (inp row p) = Ok None /\
    respects t /\ c = Children [bracket_leaf a pos; build t; bracket_leaf b p] /\ i = inp row (S p).
Proof. intros g row pos a b c i Ht Hc. now apply brackets_respect. Qed.
Print Assumptions C35_brackets.
Example C35_brackets_case : exists c, parse_token ascii_grammar (token_parser ascii_grammar (inp (typed "c(a+b*d)") 1)) (TBrackets (lit "(") (lit ")")) (inp (typed "c(a+b*d)") 1) =
  Ok (Some (c, inp (typed "c(a+b*d)") 8)).
Proof. eexists. vm_compute. reflexivity. Qed.
(** and there is only one. *)
Theorem C35_unique : forall t t', respects t -> respects t' -> flatten t = flatten t' -> t = t'.
Proof. exact respects_unique. Qed.
Print Assumptions C35_unique.
Theorem C35_complete : forall g doc t, no_empty_tokens g -> all_containers g -> wf_row doc -> tokens_of g doc (flatten t) -> respects t -> parse g doc = Ok (build t).
Proof. intros g doc t Ht Hc. now apply parse_complete. Qed.
Print Assumptions C35_complete.
(** Writing an expression and parsing it, for all tables of operators. *)
Theorem C35_round_trip : forall g t, single_symbols g -> unambiguous g -> all_containers g -> belongs g t -> respects (place 0 t) ->
  parse g (text_row (spell t)) = Ok (build (place 0 t)).
Proof. exact write_parse. Qed.
Print Assumptions C35_round_trip.
(** Chains of operators of the same power. *)
Theorem C35_left_chain : forall g p doc a l, no_empty_tokens g -> all_containers g -> wf_row doc ->
  (forall op v b, In (op, v, b) l -> op_power op = BLeftInfix p) -> tokens_of g doc (chain_tokens a l) -> parse g doc = Ok (build (left_nest a l)).
Proof. exact left_chain. Qed.
Print Assumptions C35_left_chain.
Theorem C35_right_chain : forall g p doc a l, no_empty_tokens g -> all_containers g -> wf_row doc ->
  (forall op v b, In (op, v, b) l -> op_power op = BRightInfix p) -> tokens_of g doc (chain_tokens a l) -> parse g doc = Ok (build (right_nest a l)).
Proof. exact right_chain. Qed.
Print Assumptions C35_right_chain.
(** A table with operators of all kinds; [-] is both a prefix and an infix operator. *)
Definition one (s : string) (ty : LeafNodeType) : TokenParser := TSymbols [lit s] ty.
Definition table : Grammar := mkGrammar
  (built_in_rules ++
   [ RAtom [lit "x"] (one "x" LSymbol); RAtom [lit "y"] (one "y" LSymbol); RPrefix [lit "Negate"] 400 (one "-" LOperator);
     RLeftInfix [lit "Subtract"] 100 (one "-" LOperator); RLeftInfix [lit "Multiply"] 200 (one "*" LOperator);
     RRightInfix [lit "Power"] 300 (one "^" LOperator); RPostfix [lit "Factorial"] 600 (one "!" LOperator) ])
  (fun _ => false) (fun _ => false).
Definition term_x : Term := MAtom [lit "x"] LSymbol (lit "x").
Definition term_y : Term := MAtom [lit "y"] LSymbol (lit "y").
Definition term_power (a b : Term) : Term := MInfix a (mkOp (BRightInfix 300) (one "^" LOperator) [lit "Power"]) LOperator (lit "^") b.
Definition term_minus (a b : Term) : Term := MInfix a (mkOp (BLeftInfix 100) (one "-" LOperator) [lit "Subtract"]) LOperator (lit "-") b.
Definition term_negate (a : Term) : Term := MPrefix (mkOp (BPrefix 400) (one "-" LOperator) [lit "Negate"]) LOperator (lit "-") a.
Definition term_factorial (a : Term) : Term := MPostfix a (mkOp (BPostfix 600) (one "!" LOperator) [lit "Factorial"]) LOperator (lit "!").
Definition a_term : Term := term_minus (term_minus (term_negate (term_factorial term_x)) (term_power term_y (term_power term_x term_y))) term_x.
Example C35_case : single_symbols table /\ unambiguous table /\ all_containers table /\ belongs table a_term /\ respects (place 0 a_term) /\
  spell a_term = symbols "-x!-y^x^y-x".
Proof.
  assert (S : single_symbols table).
  { intros r Hr. cbn in Hr.
    repeat (destruct Hr as [<-|Hr]; [first [exact I | left; eexists; reflexivity | right; eexists _, _; split; [reflexivity|discriminate]]|]). destruct Hr. }
  split; [exact S|]. split; [|split; [|split; [|split]]].
  - unfold unambiguous. cbn. split; repeat constructor; cbn; intuition discriminate.
  - apply containers_check. intros []; reflexivity.
  - cbn. repeat split; try tauto.
  - cbn. unfold holds_left, holds_right. cbn. repeat split; intros s Hs; repeat (destruct Hs as [<-|Hs]); try easy; unfold weaker; cbn;
      first [left; lia | right; repeat split; lia | intros [H|(H&H'&H'')]; first [lia | discriminate]].
  - reflexivity.
Qed.
Example C35_chain_case : exists l a, tokens_of ascii_grammar (typed "a-b-c") (chain_tokens a l) /\ length l = 2 /\
  printed (typed "a-b-c") = Ok (lit "(Arithmetic::Subtract (Arithmetic::Subtract (Core::Variable ""a"") (BuiltIn::Operator ""-"") (Core::Variable ""b"")) (BuiltIn::Operator ""-"") (Core::Variable ""c""))").
Proof.
  pose (leaf := fun name ty (s : string) p => mkSyntax name (Leaf ty [lit s]) p (S p)).
  pose (minus := mkOp (BLeftInfix 100) (TSymbols [lit "-"] LOperator) (arithmetic_name "Subtract")).
  pose (v := fun (s : string) p => leaf [lit "Core"; lit "Variable"] LSymbol s p).
  exists [(minus, leaf operator_rule_name LOperator "-"%string 1, v "b"%string 2); (minus, leaf operator_rule_name LOperator "-"%string 3, v "c"%string 4)], (v "a"%string 0).
  split; [|split; [reflexivity|vm_compute; reflexivity]].
  apply (tokens_run (fuel := 10) (i := (5, []))). vm_compute. reflexivity.
Qed.
