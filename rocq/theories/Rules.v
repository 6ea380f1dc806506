(** The autocomplete rules of the default rule collections. *)
From Verif Require Import Base Str Grid Node Focus Autocomplete.
From Coq Require Import String.
Open Scope list_scope.
Set Implicit Arguments.

(** Model only: a symbol of one character *)
Definition typed_symbol (c : N) : InputNode := Symbol [c].

(** rule_collections/built_in_rules.rs:257-262 *)
Definition built_in_autocomplete : list AutocompleteRule :=
  [ mkRule (lit "^") [sup []]; mkRule (lit "_") [sub []] ].
(** rule_collections/arithmetic_rules.rs:116-121 *)
Definition arithmetic_autocomplete : list AutocompleteRule :=
  [ mkRule (lit "/") [fraction [] []]; mkRule (lit "sqrt") [root [] []] ].
(** rule_collections/calculus_rules.rs:79-89 *)
Definition calculus_autocomplete : list AutocompleteRule :=
  [ mkRule (lit "infinity") [Symbol [8734%N]];
    mkRule (lit "lim") (map typed_symbol (lit "lim"));
    mkRule (lit "limsup") (map typed_symbol (lit "limsup"));
    mkRule (lit "liminf") (map typed_symbol (lit "liminf"));
    mkRule (lit "sum") [Symbol [8721%N]];
    mkRule (lit "integral") [Symbol [8747%N]];
    mkRule (lit "integrate") [Symbol [8747%N]] ].
(** rule_collections/collections_rules.rs:52-57 *)
Definition collections_autocomplete : list AutocompleteRule :=
  [ mkRule (lit "vector") [Container Table (mkGrid [[]] 1)];
    mkRule (lit "matrix") [Container Table (mkGrid [[]] 1)] ].
(** rule_collections/comparison_rules.rs:76-81 *)
Definition comparison_autocomplete : list AutocompleteRule :=
  [ mkRule (lit ">=") [Symbol [8805%N]]; mkRule (lit "<=") [Symbol [8804%N]] ].

(** parser/src/parser.rs:25-31 with all modules in the order of
    parser/tests/parser_test.rs:27-41; core_rules.rs:96-98, function_rules.rs:59-61,
    logic_rules.rs:80-82 and string_rules.rs:80-82 have no rules. *)
Definition default_rules : list AutocompleteRule :=
  rev (built_in_autocomplete ++ arithmetic_autocomplete ++ calculus_autocomplete ++ collections_autocomplete ++
       comparison_autocomplete).
