(** What Backspace and Delete are meant to do with containers. *)
From Verif Require Import Base Str Grid Node Focus Edit Caret Spec SpecMove SpecEditor SpecSafety.
Set Implicit Arguments.
Unset Strict Implicit.

(** At the position, the key in this direction dissolves the container at index [i] of the row
    [p]: its content takes its place, and [k] nodes of this content are in front of the caret.
    - Delete dissolves a script behind the caret, and Backspace the script at whose start the caret is.
    - Between the first two cells of a fraction or a root, both join them.
    - A container without any content vanishes from its first cell with Backspace and from its
      last cell with Delete. *)
Inductive dissolves (doc : InputRow) : HorizontalDirection -> MinPos -> RowIndices -> nat -> nat -> Prop :=
| script_behind p i v g : node_get doc p i = Some (Container v g) -> v = Sub \/ v = Sup ->
    dissolves doc HRight (mkMinPos p i) p i 0
| script_start p i j v g : node_get doc p i = Some (Container v g) -> v = Sub \/ v = Sup ->
    dissolves doc HLeft (mkMinPos (p ++ [(i, j)]) 0) p i 0
| second_cell p i v g first cells : node_get doc p i = Some (Container v g) -> v = Fraction \/ v = RootV -> gvalues g = first :: cells ->
    dissolves doc HLeft (mkMinPos (p ++ [(i, 1)]) 0) p i (length first)
| first_cell p i v g first cells : node_get doc p i = Some (Container v g) -> v = Fraction \/ v = RootV -> gvalues g = first :: cells ->
    dissolves doc HRight (mkMinPos (p ++ [(i, 0)]) (length first)) p i (length first)
| empty_from_start p i v g : node_get doc p i = Some (Container v g) -> (forall cell, In cell (gvalues g) -> cell = []) ->
    dissolves doc HLeft (mkMinPos (p ++ [(i, 0)]) 0) p i 0
| empty_from_end p i v g : node_get doc p i = Some (Container v g) -> (forall cell, In cell (gvalues g) -> cell = []) ->
    dissolves doc HRight (mkMinPos (p ++ [(i, length (gvalues g) - 1)]) 0) p i 0.

(** A symbol is next to the position. *)
Definition symbol_beside (doc : InputRow) (d : HorizontalDirection) (q : MinPos) : Prop :=
  exists i s, match d with HLeft => mp_offset q = S i | HRight => mp_offset q = i end /\ node_get doc (mp_row q) i = Some (Symbol s).

(** No symbol is empty, and scripts have a single cell. *)
Definition ordinary (x : Part) : Prop := match x with PartSymbol s => s <> [] | PartContainer v cells _ => v = Sub \/ v = Sup -> cells = 1 end.
