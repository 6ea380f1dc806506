(** Which row a click reports for what is drawn in a row (C54, C72). *)
From Verif Require Import Base Grid Node NameMap Syntax Pratt Grammar Render.
Set Implicit Arguments.

Section Stray.
Variable xs xc : N -> bool.
(** The whole row is a sub- or superscript: something with a script at the end. *)
Definition script_row (row : InputRow) : bool :=
  match parse (default_grammar xs xc) row with
  | Ok n => path_eqb (syn_name n) sub_rule_name || path_eqb (syn_name n) sup_rule_name
  | Panic _ => false
  end.
(** On the way into the script at the end of such a row, in a container, the index of the row is counted twice. [last] is the
    index of the row. *)
Definition twice (row : InputRow) (last : option RowIndex) (k : nat) : RowIndices :=
  match last with Some i => if script_row row && (S k =? length row) then [i] else [] | None => [] end.
Fixpoint reported_from (row : InputRow) (last : option RowIndex) (p : RowIndices) : RowIndices :=
  match p with
  | [] => []
  | (k, j) :: p =>
      twice row last k ++ (k, j) ::
      match nth_error row k with
      | Some (Container _ c) => match nth_error (gvalues c) j with Some cell => reported_from cell (Some (k, j)) p | None => p end
      | _ => p
      end
  end.
(** The row that is reported for the row [p] *)
Definition reported (doc : InputRow) (p : RowIndices) : RowIndices := reported_from doc None p.
End Stray.
(** The row in which an element is drawn: on the way to it, every child of an element that draws a container is a row of the container. *)
Fixpoint drawn_row (x : Element) (path : list nat) : RowIndices :=
  match path with
  | [] => []
  | k :: path =>
      match nth_error (get_children x) k with
      | Some c => match syn_children (el_tree x) with NewRows _ => [(fst (syn_range (el_tree x)), k)] | _ => [] end ++ drawn_row c path
      | None => []
      end
  end.
(** The element at the end of a path *)
Fixpoint get_path (x : Element) (path : list nat) : option Element :=
  match path with
  | [] => Some x
  | k :: path => match nth_error (get_children x) k with Some c => get_path c path | None => None end
  end.
(** An element that draws a row of a container *)
Definition row_element (x : Element) (path : list nat) : Prop :=
  exists q k z g, path = q ++ [k] /\ get_path x q = Some z /\ syn_children (el_tree z) = NewRows g /\ get_path x path <> None.
