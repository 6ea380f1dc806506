(** Model of the modules that a parser is made of: web/src/math_parser.rs,
    parser/src/parse_modules.rs and src/core/index.ts:24-83. *)
From Coq Require Import String.
From Verif Require Import Base Str Grid Node Autocomplete Rules NameMap Syntax Pratt Grammar Render.
Open Scope list_scope.
Open Scope nat_scope.
Set Implicit Arguments.

(** The modules, rule_collections/*.rs. Values of [Rc<dyn ParseModule>] (parse_module.rs:7-21) are
    determined by which of them they are. *)
Inductive Module := BuiltIn | Core | Arithmetic | Calculus | Collections | Comparison | Function | Logic | Strings.
(** [get_rules] of each module, e.g. core_rules.rs:40-42 *)
Definition module_rules (m : Module) : list ParseRule :=
  match m with
  | BuiltIn => built_in_rules | Core => core_rules | Arithmetic => arithmetic_rules | Calculus => calculus_rules
  | Collections => collections_rules | Comparison => comparison_rules | Function => function_rules | Logic => logic_rules
  | Strings => string_rules
  end.
(** [get_autocomplete_rules] of each module, e.g. core_rules.rs:44-46 *)
Definition module_autocomplete (m : Module) : list AutocompleteRule :=
  match m with
  | BuiltIn => built_in_autocomplete | Arithmetic => arithmetic_autocomplete | Calculus => calculus_autocomplete
  | Collections => collections_autocomplete | Comparison => comparison_autocomplete
  | Core | Function | Logic | Strings => []
  end.
(** The names in the order of the calls of [with_rule_name] (parse_modules.rs:24-26): the fields
    first in built_in_rules.rs:41-53, otherwise the rules one after the other. *)
Definition module_names (m : Module) : list PathIdentifier :=
  match m with
  | BuiltIn =>
      [ operator_rule_name; whitespaces_rule_name; whitespace_rule_name; sub_rule_name; sup_rule_name;
        error_missing_operator_name; error_missing_token_name; error_unknown_token_name; nothing_name;
        built_in_name "Fraction"; built_in_name "Root"; built_in_name "Table" ]
  | _ => map rule_name (module_rules m)
  end.

(** parse_modules.rs:48-67 and parser/src/math_parser.rs:56-256: the parser that [ParseModuleCollection] gives *)
Definition collection_grammar (xid_start xid_continue : N -> bool) (ms : list Module) : Grammar :=
  mkGrammar (flat_map module_rules ms) xid_start xid_continue.
(** parser/src/parser.rs:25-31 *)
Definition collection_autocomplete (ms : list Module) : list AutocompleteRule := rev (flat_map module_autocomplete ms).

(** What the JavaScript side holds: the name map in [ParseModulesBindings] (web/src/math_parser.rs:67-72) and the
    objects of class [BoxedParseModule], in order of creation. wasm-bindgen passes an object by value by taking the
    pointer out of it; [None] is an object without pointer. *)
Record Library := mkLibrary { lib_names : SyntaxNodeNameMap; lib_objects : list (option Module) }.
(** web/src/math_parser.rs:76-83 *)
Definition library_new : Library := mkLibrary (add_all name_map_new (module_names BuiltIn)) [].
(** web/src/math_parser.rs:85-87 (for [BuiltIn], whose names are there already) and 97-123 *)
Definition make_module (lib : Library) (m : Module) : Library :=
  mkLibrary (match m with BuiltIn => lib_names lib | _ => add_all (lib_names lib) (module_names m) end) (lib_objects lib ++ [Some m]).
(** Code that wasm-bindgen generates for the argument of [add_module] (web/src/math_parser.rs:54-56): the pointer is
    taken out of the object; Rust panics on a null pointer, and for something that is not such an object
    the check of the class throws. *)
Definition take_object (objects : list (option Module)) (k : nat) : list (option Module) * Res Module :=
  match nth_error objects k with
  | Some (Some m) => (firstn k objects ++ None :: skipn (S k) objects, Ok m)
  | Some None => (objects, Panic PUnwrap)
  | None => (objects, throw)
  end.
(** src/core/index.ts:41-43: the loop; [ms] are the modules of the collection so far *)
Fixpoint add_modules (objects : list (option Module)) (ms : list Module) (ks : list nat) : list (option Module) * Res (list Module) :=
  match ks with
  | [] => (objects, Ok ms)
  | k :: ks =>
      match take_object objects k with
      | (objects, Ok m) => add_modules objects (ms ++ [m]) ks
      | (objects, Panic p) => (objects, Panic p)
      end
  end.
(** src/core/index.ts:39-45 with web/src/math_parser.rs:43-65; the arguments are given by their
    numbers. The collection starts with the built-in module. *)
Definition make_math_parser_with (lib : Library) (ks : list nat) : Library * Res (list Module) :=
  let (objects, r) := add_modules (lib_objects lib) [BuiltIn] ks in (mkLibrary (lib_names lib) objects, r).

(** src/core/index.ts:27-37: [MathModules], in this order *)
Definition math_modules : list Module := [BuiltIn; Core; Arithmetic; Calculus; Collections; Comparison; Function; Logic; Strings].
(** src/core/index.ts:24-37 *)
Definition library_loading : Library := fold_left make_module math_modules library_new.
(** src/core/index.ts:72-82: the arguments for [DefaultParser] *)
Definition default_arguments : list nat := [1; 2; 3; 4; 5; 6; 7; 8].
(** src/core/index.ts:24-82: the file is evaluated once *)
Definition library_loaded : Library * Res (list Module) := make_math_parser_with library_loading default_arguments.
