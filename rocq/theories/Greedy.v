(** Model of parser/src/parser/greedy_choice.rs. *)
From Verif Require Import Base.
Set Implicit Arguments.

Section Greedy.
Variables O E : Type.
(** The result of a parser, and [inp.offset()] after it. Model of [inp.parse(parser)], greedy_choice.rs:36-37; what a parser
    does depends only on the offset at which it starts. *)
Definition Attempt := ((O + E) * nat)%type.
(** greedy_choice.rs:40-45 *)
Definition compare_attempts (a b : Attempt) : comparison :=
  match a, b with
  | (inl _, a_offset), (inl _, b_offset) => Nat.compare a_offset b_offset
  | (inl _, _), (inr _, _) => Gt
  | (inr _, _), (inl _, _) => Lt
  | (inr _, _), (inr _, _) => Eq
  end.
(** Model of [Iterator::max_by]: the last one of several that are equal, std *)
Fixpoint max_by (cmp : Attempt -> Attempt -> comparison) (best : Attempt) (l : list Attempt) : Attempt :=
  match l with
  | [] => best
  | x :: l => max_by cmp match cmp best x with Gt => best | _ => x end l
  end.
(** The error of [expected_found] for an empty list, greedy_choice.rs:28 *)
Variable nothing_expected : E.
(** greedy_choice.rs:25-52: the result, and the offset of the input afterwards. Every attempt begins at [before]; nothing is
    rewound after the last one. *)
Definition greedy_parse (parsers : list (nat -> Attempt)) (before : nat) : Attempt :=
  match map (fun parser => parser before) parsers with
  | [] => (inr nothing_expected, before)
  | x :: attempts => (fst (max_by compare_attempts x attempts), snd (last attempts x))
  end.
(** greedy_choice.rs:58-64 *)
Definition greedy_choice (parsers : list (nat -> Attempt)) : Res (nat -> Attempt) :=
  _ <- assert_ (negb (length parsers =? 0)) ;; Ok (greedy_parse parsers).
End Greedy.
