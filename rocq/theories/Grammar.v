(** The parse rules of the default rule collections. *)
From Coq Require Import String.
From Verif Require Import Base Str Grid Node Autocomplete NameMap Syntax Pratt.
Open Scope list_scope.
Open Scope nat_scope.
Set Implicit Arguments.

(** make_parser.rs:27-63: [VecOrString::into_vec] of a vector of characters or strings *)
Definition symbols (s : string) : list str := map (fun c => [c]) (lit s).
(** make_parser.rs:86-91 *)
Definition operator (c : N) : TokenParser := TSymbols [[c]] LOperator.
(** make_parser.rs:86-91 with a string of ASCII characters *)
Definition ascii_operator (s : string) : TokenParser := TSymbols [lit s] LOperator.

(** built_in_rules.rs:221-255 *)
Definition built_in_rules : list ParseRule :=
  [ NameOnly operator_rule_name; NameOnly whitespaces_rule_name; NameOnly whitespace_rule_name;
    NameOnly error_missing_operator_name; NameOnly error_unknown_token_name; NameOnly error_missing_token_name;
    NameOnly nothing_name;
    RAtom (built_in_name "Fraction") (TContainer Fraction);
    RAtom (built_in_name "Root") (TContainer RootV);
    RPostfix sup_rule_name 1000 (TContainer Sup);
    RPostfix sub_rule_name 1000 (TContainer Sub);
    RAtom (built_in_name "Table") (TContainer Table) ].
(** core_rules.rs:60-94 *)
Definition core_rules : list ParseRule :=
  [ RAtom [lit "Core"; lit "Variable"] TVariable;
    RAtom [lit "Core"; lit "RoundBrackets"] (TBrackets (lit "(") (lit ")"));
    RAtom [lit "Core"; lit "RoundBrackets"] (TEmptyBrackets (lit "(") (lit ")")) ].
(** arithmetic_rules.rs:48-114 *)
Definition arithmetic_name (s : string) : PathIdentifier := [lit "Arithmetic"; lit s].
(** arithmetic_rules.rs:48-114 *)
Definition arithmetic_rules : list ParseRule :=
  [ RAtom (arithmetic_name "Number") TNumber;
    RLeftInfix (arithmetic_name "Add") 100 (ascii_operator "+");
    RLeftInfix (arithmetic_name "Subtract") 100 (ascii_operator "-");
    RPrefix (arithmetic_name "Add") 400 (ascii_operator "+");
    RPrefix (arithmetic_name "Subtract") 400 (ascii_operator "-");
    RLeftInfix (arithmetic_name "Multiply") 200 (ascii_operator "*");
    RLeftInfix (arithmetic_name "Divide") 200 (ascii_operator "/");
    RPostfix (arithmetic_name "Exponent") 850 (ascii_operator "^");
    RPostfix (arithmetic_name "Factorial") 600 (ascii_operator "!") ].
(** calculus_rules.rs:45-77 *)
Definition calculus_name (s : string) : PathIdentifier := [lit "Calculus"; lit s].
(** calculus_rules.rs:45-77 *)
Definition calculus_rules : list ParseRule :=
  [ RAtom (calculus_name "Infinity") (TSymbols [[8734%N]] LSymbol);
    RPrefix (calculus_name "Lim") 100 (TSymbols (symbols "lim") LOperator);
    RPrefix (calculus_name "LimSup") 100 (TSymbols (symbols "limsup") LOperator);
    RPrefix (calculus_name "LimInf") 100 (TSymbols (symbols "liminf") LOperator);
    RPrefix (calculus_name "Sum") 100 (operator 8721);
    RPrefix (calculus_name "Integral") 100 (operator 8747) ].
(** collections_rules.rs:44-50 *)
Definition collections_rules : list ParseRule :=
  [ RLeftInfix [lit "Collections"; lit "Tuple"] 50 (ascii_operator ",") ].
(** comparison_rules.rs:46-74 *)
Definition comparison_name (s : string) : PathIdentifier := [lit "Comparison"; lit s].
(** comparison_rules.rs:46-74 *)
Definition comparison_rules : list ParseRule :=
  [ RLeftInfix (comparison_name "Equals") 40 (ascii_operator "=");
    RLeftInfix (comparison_name "GreaterThan") 50 (ascii_operator ">");
    RLeftInfix (comparison_name "LessThan") 50 (ascii_operator "<");
    RLeftInfix (comparison_name "GreaterThanOrEquals") 50 (operator 8805);
    RLeftInfix (comparison_name "LessThanOrEquals") 50 (operator 8804) ].
(** function_rules.rs:44-57 *)
Definition function_rules : list ParseRule :=
  [ RPostfix [lit "Function"; lit "FunctionApplication"] 800 (TBrackets (lit "(") (lit ")"));
    RPostfix [lit "Function"; lit "FunctionApplication"] 800 (TEmptyBrackets (lit "(") (lit ")")) ].
(** logic_rules.rs:42-78 *)
Definition logic_name (s : string) : PathIdentifier := [lit "Logic"; lit s].
(** logic_rules.rs:42-78 *)
Definition logic_rules : list ParseRule :=
  [ RAtom (logic_name "True") (TSymbols [[8868%N]] LSymbol);
    RAtom (logic_name "False") (TSymbols [[8869%N]] LSymbol);
    RLeftInfix (logic_name "And") 100 (operator 8743);
    RLeftInfix (logic_name "Or") 100 (operator 8744);
    RLeftInfix (logic_name "Not") 100 (operator 172);
    RLeftInfix (logic_name "Equivalent") 100 (operator 8660);
    RLeftInfix (logic_name "Implies") 100 (operator 10233) ].
(** string_rules.rs:45-78 *)
Definition string_rules : list ParseRule := [ RAtom [lit "String"; lit "String"] TString ].

(** src/core/index.ts:28-43, parser/tests/parser_test.rs:15-41 *)
Definition default_parse_rules : list ParseRule :=
  built_in_rules ++ core_rules ++ arithmetic_rules ++ calculus_rules ++ collections_rules ++ comparison_rules ++ function_rules ++
  logic_rules ++ string_rules.
(** src/core/index.ts:28-43 *)
Definition default_grammar (xid_start xid_continue : N -> bool) : Grammar := mkGrammar default_parse_rules xid_start xid_continue.
(** The ASCII part of the Unicode tables: letters, and letters, digits and [_]. Model only. *)
Definition ascii_letter (c : N) : bool := ((65 <=? c) && (c <=? 90) || (97 <=? c) && (c <=? 122))%N.
(** Model only *)
Definition ascii_continue (c : N) : bool := (ascii_letter c || (48 <=? c) && (c <=? 57) || (c =? 95))%N.
(** Model only *)
Definition ascii_grammar : Grammar := default_grammar ascii_letter ascii_continue.
