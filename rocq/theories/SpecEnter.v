(** What can be entered with the keyboard and the mouse alone. *)
From Coq Require Import String.
From Verif Require Import Base Str Grid Node Focus Edit Caret Autocomplete Editor Rules Syntax FromMathML Component Spec SpecEditor SpecSafety SpecContent.
Open Scope list_scope.
Open Scope nat_scope.
Set Implicit Arguments.

(** A symbol, a root with its two cells, or a table of a single cell *)
Definition hand_part (x : Part) : Prop :=
  match x with
  | PartSymbol s => s <> []
  | PartContainer RootV n w => n = 2 /\ w = 2
  | PartContainer Table n w => n = 1 /\ w = 1
  | PartContainer _ _ _ => False
  end.
(** Neither a paste nor the loading of a formula, and no empty symbol: operations of the keyboard and the mouse *)
Definition manual (op : Op) : Prop :=
  match op with
  | OpInsertAtCaret vs => Forall (fun s => s <> []) vs
  | OpPaste _ _ | OpSpliceAtRange _ _ => False
  | _ => True
  end.
(** No rule looks at the symbols in front of this position. *)
Definition unwatched (doc : InputRow) (q : MinPos) : Prop :=
  exists row, row_get doc (mp_row q) = Some row /\ mp_offset q <= List.length row /\ rules_matches default_rules row (mp_offset q) 2 = Ok [].
(** The text of a rule that makes this container. *)
Definition spells (word : str) (n : InputNode) : Prop :=
  word = lit "sqrt" /\ n = root [] [] \/ word = lit "vector" /\ n = Container Table (mkGrid [[]] 1).
(** Small letters, one symbol each *)
Definition letter_by_letter (w : str) : list str := map (fun c => [c]) w.
(** This many letters a *)
Definition pad (k : nat) : InputRow := map Symbol (letter_by_letter (repeat 97%N k)).
