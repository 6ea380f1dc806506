(** Specifications of views of grids and of the content of the list of suggestions. *)
From Verif Require Import Base Str Grid Node Focus Edit Caret Autocomplete.
Set Implicit Arguments.

(** The view [r] of [g] shows the smallest rectangle with the cells ([x1], [y1]) and ([x2], [y2]): it has its size, and every cell of it
    is where it is expected. *)
Definition shows_rectangle {T} (g : GridVec T) (r : GridRectangle) (x1 y1 x2 y2 : nat) : Prop :=
  let w := Nat.max x1 x2 + 1 - Nat.min x1 x2 in
  let h := Nat.max y1 y2 + 1 - Nat.min y1 y2 in
  rect_size r = Ok (w, h) /\
  forall x y, view_get g r (mkIndex2D x y w) =
    Ok (if (x <? w) && (y <? h) then nth_error (gvalues g) ((Nat.min y1 y2 + y) * gwidth g + (Nat.min x1 x2 + x)) else None).
(** [m] is a match of the rule with the last ones of the symbols [input]; an empty symbol in front of them belongs to them. *)
Definition matches_end (rule : AutocompleteRule) (input : list InputNode) (m : RuleMatch) : Prop :=
  exists before syms last rest, input = before ++ map Symbol (syms ++ [last]) /\ last <> [] /\ (forall b, before <> b ++ [Symbol []]) /\
    rule_parser rule = concat (syms ++ [last]) ++ rest /\ m = mkMatch rule (byte_len (concat syms) + 1) (length (syms ++ [last])).
