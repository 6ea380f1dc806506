(** Which elements a selection is drawn over. *)
From Verif Require Import Base Str Grid Node Syntax Pratt Render Layout.

(** The element that the indices of children lead to *)
Fixpoint element_at (x : Element) (path : list nat) : option Element :=
  match path with
  | [] => Some x
  | k :: path => match nth_error (get_children x) k with Some c => element_at c path | None => None end
  end.
(** The nodes of the row that an element draws *)
Definition element_range (x : Element) : nat * nat := syn_range (el_tree x).
Definition draws (x : Element) (k : nat) : Prop := fst (element_range x) <= k < snd (element_range x).
