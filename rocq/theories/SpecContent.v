(** What documents are made of. *)
From Coq Require Import String.
From Verif Require Import Base Str Grid Node Focus Edit Caret Autocomplete Editor Syntax FromMathML Component Spec SpecEditor SpecSafety.
Open Scope list_scope.
Open Scope nat_scope.
Set Implicit Arguments.

(** All symbols and containers of [doc], however deeply nested, satisfy [Q]. *)
Definition made_of (Q : Part -> Prop) (doc : InputRow) : Prop := forall x, In x (row_parts doc) -> Q x.
(** What is given to an operation satisfies [Q]: symbols that are typed, and nodes that are pasted or loaded. *)
Definition gives {SyntaxNode} (Q : Part -> Prop) (env : Env SyntaxNode) (op : Op) : Prop :=
  match op with
  | OpInsertAtCaret vs => forall s, In s vs -> Q (PartSymbol s)
  | OpPaste data _ => forall nodes, env_deserialize env data = Some nodes -> made_of Q nodes
  | OpSpliceAtRange _ vs => made_of Q vs
  | _ => True
  end.
(** The results of the rules satisfy [Q]. If no symbol is empty, this is asked only of the rules of at
    least two characters: a rule is only looked at when two symbols have been typed of it. *)
Definition rules_give (Q : Part -> Prop) (rules : list AutocompleteRule) : Prop :=
  forall rule, In rule rules -> ((forall s, Q (PartSymbol s) -> s <> []) -> 2 <= List.length (rule_parser rule)) -> made_of Q (rule_result rule).
(** What an event brings from outside satisfies [Q]: what is loaded and what is pasted. What is typed are pieces
    of the text in the event. *)
Definition event_gives (Q : Part -> Prop) (env : Env SyntaxNode) (normalize : str -> str) (segment : str -> list str) (e : Event) : Prop :=
  match e with
  | EvPaste (Some (json, text)) => forall nodes, env_deserialize env (if str_eqb json [] then text else json) = Some nodes -> made_of Q nodes
  | EvConnect (Some x) | EvAttribute (Some x) => forall nodes range, from_element normalize segment x = Ok (nodes, range) -> made_of Q nodes
  | _ => True
  end.
(** Neither a fraction nor a sub- or superscript, nor an empty symbol *)
Definition plain_part (x : Part) : Prop :=
  match x with
  | PartSymbol s => s <> []
  | PartContainer v _ _ => v <> Fraction /\ v <> Sub /\ v <> Sup
  end.
