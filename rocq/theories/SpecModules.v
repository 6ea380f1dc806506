(** What it means that a module has nothing to do with a document. *)
From Coq Require Import String.
From Verif Require Import Base Str Grid Node Focus Edit Caret Autocomplete NameMap Syntax Pratt Grammar SpecSyntax Modules.
Open Scope list_scope.
Open Scope nat_scope.

(** The row begins with these symbols. *)
Fixpoint begins_with (l : list str) (row : InputRow) : bool :=
  match l, row with
  | [], _ => true
  | s :: l, Symbol t :: row => str_eqb t s && begins_with l row
  | _, _ => false
  end.
(** The row begins with what the parser of a rule looks for: the symbols of an operator, a symbol of digits, a
    symbol that is an identifier, a quotation mark, an opening bracket or a container. *)
Definition begins (xs xc : N -> bool) (t : TokenParser) (row : InputRow) : bool :=
  match t with
  | TSymbols l _ => begins_with l row
  | TContainer v => match row with Container w _ :: _ => variant_eqb w v | _ => false end
  | TBrackets a _ | TEmptyBrackets a _ => begins_with [a] row
  | TString => begins_with [[34%N]] row
  | TNumber => match row with Symbol s :: _ => forallb (fun c => (48 <=? c) && (c <=? 57))%N s | _ => false end
  | TVariable => match row with Symbol (c :: s) :: _ => xs c && forallb xc s | _ => false end
  end.
(** No rule of the module has a beginning anywhere in this row. *)
Definition absent (xs xc : N -> bool) (m : Module) (row : InputRow) : Prop :=
  forall r t a b, In r (module_rules m) -> rule_token r = Some t -> row = a ++ b -> begins xs xc t b = false.
(** The characters that start identifiers do not start anything else: no digit, opening bracket, quotation mark,
    infinity, tack or up tack starts one. *)
Definition plain_letters (xs : N -> bool) : Prop :=
  (forall c, (48 <=? c)%N = true -> (c <=? 57)%N = true -> xs c = false) /\ xs 40%N = false /\ xs 34%N = false /\ xs 8734%N = false /\ xs 8868%N = false /\ xs 8869%N = false.

(** What a page can do with the modules after src/core/index.ts was loaded: make them again, and make parsers of
    objects. *)
Inductive LibOp := MakeModule (m : Module) | MakeParser (ks : list nat).
Definition lib_step (lib : Library) (op : LibOp) : Library :=
  match op with MakeModule m => make_module lib m | MakeParser ks => fst (make_math_parser_with lib ks) end.
Definition lib_after (ops : list LibOp) : Library := fold_left lib_step ops (fst library_loaded).
(** The names that the page finds in the name map. *)
Definition lib_known (lib : Library) : list PathIdentifier := map fst (nm_values (lib_names lib)).
