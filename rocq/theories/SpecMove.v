(** Specifications about caret movement and selections used in theorem statements. *)
From Verif Require Import Base Str Grid Node Focus Edit Caret Spec.

(** Where Up leads from the row under a path, [None]: nowhere. Cell [j] of a grid of
    width [w] lies directly above cell [j + w]. *)
Inductive up_from (doc : InputRow) : RowIndices -> option MinPos -> Prop :=
| up_root : up_from doc [] None
| up_sup p i j g : node_get doc p i = Some (Container Sup g) ->
    up_from doc (p ++ [(i, j)]) (Some (mkMinPos p i))
| up_cell p i j j' v g cell : node_get doc p i = Some (Container v g) -> v <> Sup ->
    j = j' + gwidth g -> nth_error (gvalues g) j' = Some cell ->
    up_from doc (p ++ [(i, j)]) (Some (mkMinPos (p ++ [(i, j')]) (length cell)))
| up_out p i j v g t : node_get doc p i = Some (Container v g) -> v <> Sup ->
    j < gwidth g -> up_from doc p t -> up_from doc (p ++ [(i, j)]) t.

(** Where Down leads. *)
Inductive down_from (doc : InputRow) : RowIndices -> option MinPos -> Prop :=
| down_root : down_from doc [] None
| down_sub p i j g : node_get doc p i = Some (Container Sub g) ->
    down_from doc (p ++ [(i, j)]) (Some (mkMinPos p i))
| down_cell p i j v g : node_get doc p i = Some (Container v g) -> v <> Sub ->
    j + gwidth g < length (gvalues g) ->
    down_from doc (p ++ [(i, j)]) (Some (mkMinPos (p ++ [(i, j + gwidth g)]) 0))
| down_out p i j v g t : node_get doc p i = Some (Container v g) -> v <> Sub ->
    length (gvalues g) <= j + gwidth g -> down_from doc p t -> down_from doc (p ++ [(i, j)]) t.

(** [a] and [b] lie in or below the different cells [j] and [j'] of the table that is
    node [i] of the row under [p]. *)
Definition in_table_cells (doc : InputRow) (a b : MinPos) (p : RowIndices) (i : nat)
    (g : GridVec InputRow) (j j' : nat) : Prop :=
  node_get doc p i = Some (Container Table g) /\ j <> j' /\
  prefix (p ++ [(i, j)]) (mp_row a) /\ prefix (p ++ [(i, j')]) (mp_row b).

(** Pressing an arrow key [k] times. *)
Fixpoint presses (cfg : Cfg) (doc : InputRow) (d : Direction) (k : nat) (c : Caret) : Res Caret :=
  match k with
  | 0 => Ok c
  | S k => c' <- nav_move_caret cfg doc c d MChar ;; presses cfg doc d k c'
  end.

(** A caret without selection. *)
Definition collapsed (m : MinPos) : MinimalCaret := mkMinCaret m m.

(** Going left out of the first cell of a container computes [0 - 1] in the code, which
    panics in builds with overflow checks. *)
Definition at_cell_zero (m : MinPos) : Prop := mp_offset m = 0 /\ exists p i, mp_row m = p ++ [(i, 0)].
