(** Specifications about moving in the list of suggestions. *)
From Verif Require Import Base Node.
Set Implicit Arguments.

(** The entry above or below; at the ends it stays. *)
Definition beside (d : VerticalDirection) (i n : nat) : nat :=
  match d with VUp => i - 1 | VDown => Nat.min (i + 1) (n - 1) end.
(** [j] is the first place with the same content as [i]. *)
Definition first_like {A} (l : list A) (i j : nat) : Prop :=
  nth_error l j = nth_error l i /\ forall k, k < j -> nth_error l k <> nth_error l i.
(** Where keys lead if each one goes one entry further and then to the first entry with the same content *)
Inductive leads {A} (l : list A) : list VerticalDirection -> nat -> nat -> Prop :=
| leads_nil i : leads l [] i i
| leads_cons d ds i j k : first_like l (beside d i (length l)) j -> leads l ds j k -> leads l (d :: ds) i k.
