(** How often a parser that reads from left to right and remembers nothing begins to read an expression, in a
    formula as it is taught. Nothing here depends on the parser or on binding powers. *)
From Verif Require Import Base Str Grid Node NameMap Syntax SpecFormula.
Open Scope list_scope.
Open Scope nat_scope.

(** Prefix and infix operators whose operand the formula ends with: what follows the formula is looked at
    once for every one of them. *)
Fixpoint pending (f : Formula) : nat :=
  match f with
  | FAtom _ _ | FPostfix _ _ _ => 0
  | FPrefix _ _ _ a => S (pending a)
  | FInfix _ _ _ _ b => S (pending b)
  end.
(** An expression is begun for every operand after an operator, every cell, and every pair of brackets. To
    look at an operator is to read its scripts. *)
Fixpoint effort (f : Formula) : nat :=
  let scripts := fold_right (fun '(_, _, a, _) rest => S (effort a) + rest) 0 in
  match f with
  | FAtom a _ =>
      match a with
      | ABrackets _ a => S (effort a)
      | ACells _ _ cells => fold_right (fun '(_, a) rest => S (effort a) + rest) 0 cells
      | _ => 0
      end
  | FPrefix _ _ s a => scripts s + S (effort a)
  | FInfix a _ _ s b => effort a + S (pending a) * scripts s + S (effort b)
  | FPostfix a op _ => effort a + match op with PApply _ b | PScript _ _ b => S (effort b) | _ => 0 end
  end.
(** Scripts of an infix operator come after an operand that no other operator is waiting for the end of. *)
Fixpoint steady (f : Formula) : Prop :=
  let scripts := fold_right (fun '(_, _, a, _) rest => steady a /\ rest) True in
  match f with
  | FAtom a _ =>
      match a with
      | ABrackets _ a => steady a
      | ACells _ _ cells => fold_right (fun '(_, a) rest => steady a /\ rest) True cells
      | _ => True
      end
  | FPrefix _ _ s a => scripts s /\ steady a
  | FInfix a _ _ s b => steady a /\ (pending a = 0 \/ s = []) /\ scripts s /\ steady b
  | FPostfix a op _ => steady a /\ match op with PApply _ b | PScript _ _ b => steady b | _ => True end
  end.
