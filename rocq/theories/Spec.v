(** Small specifications used in the statements of the property theorems.
    Nothing here is used by the model; the model's functions are related to these
    notions by proof. *)
From Verif Require Import Base Str Grid Node Focus.
Set Implicit Arguments.

(** The row stored under a path: node number [i], then cell number [j], and so on. *)
Fixpoint row_get (doc : InputRow) (path : RowIndices) : option InputRow :=
  match path with
  | [] => Some doc
  | (i, j) :: path =>
      match nth_error doc i with
      | Some (Container _ g) =>
          match nth_error (gvalues g) j with
          | Some cell => row_get cell path
          | None => None
          end
      | _ => None
      end
  end.

(** The node stored under a path and an index. *)
Definition node_get (doc : InputRow) (path : RowIndices) (i : nat) : option InputNode :=
  match row_get doc path with Some row => nth_error row i | None => None end.

(** Well-formed documents: every container is a full rectangle of at least one cell. *)
Inductive wf_node : InputNode -> Prop :=
| wf_symbol s : wf_node (Symbol s)
| wf_container v cells w :
    0 < w -> cells <> [] -> length cells mod w = 0 ->
    (forall cell, In cell cells -> forall n, In n cell -> wf_node n) ->
    wf_node (Container v (mkGrid cells w)).
Definition wf_row (r : InputRow) : Prop := forall n, In n r -> wf_node n.

(** A caret position, range of a document. *)
Definition valid_pos (doc : InputRow) (p : MinPos) : Prop :=
  exists row, row_get doc (mp_row p) = Some row /\ mp_offset p <= length row.
Definition valid_range (doc : InputRow) (r : MinRange) : Prop :=
  exists row, row_get doc (mr_row r) = Some row /\
              mr_start r <= length row /\ mr_end r <= length row.

(** All caret positions of a document in reading order: in front of the first
    node; then, for every node, the positions inside it, cell by cell, followed by
    the position behind it. *)
Definition here (offset : nat) : MinPos := mkMinPos [] offset.
Definition below (i : RowIndex) (p : MinPos) : MinPos := mkMinPos (i :: mp_row p) (mp_offset p).
Fixpoint node_positions (i : nat) (n : InputNode) : list MinPos :=
  match n with
  | Symbol _ => []
  | Container _ (mkGrid cells _) =>
      (fix cells_positions (j : nat) (cells : list InputRow) : list MinPos :=
         match cells with
         | [] => []
         | cell :: cells =>
             map (below (i, j))
               (here 0 ::
                (fix nodes_positions (k : nat) (nodes : list InputNode) : list MinPos :=
                   match nodes with
                   | [] => []
                   | n :: nodes => node_positions k n ++ here (S k) :: nodes_positions (S k) nodes
                   end) 0 cell)
             ++ cells_positions (S j) cells
         end) 0 cells
  end.
Fixpoint nodes_positions (k : nat) (nodes : list InputNode) : list MinPos :=
  match nodes with
  | [] => []
  | n :: nodes => node_positions k n ++ here (S k) :: nodes_positions (S k) nodes
  end.
Definition positions (doc : InputRow) : list MinPos := here 0 :: nodes_positions 0 doc.

(** [b] comes immediately after [a] / somewhere after [a] in [l]. *)
Definition next_in {A} (l : list A) (a b : A) : Prop := exists l1 l2, l = l1 ++ a :: b :: l2.
Definition before_in {A} (l : list A) (a b : A) : Prop := exists l1 l2 l3, l = l1 ++ a :: l2 ++ b :: l3.

(** The ends of a range, and the positions it contains. *)
Definition range_left (r : MinRange) : MinPos := mkMinPos (mr_row r) (Nat.min (mr_start r) (mr_end r)).
Definition range_right (r : MinRange) : MinPos := mkMinPos (mr_row r) (Nat.max (mr_start r) (mr_end r)).
Definition pos_le (a b : MinPos) : Prop := minpos_cmp a b = Lt \/ a = b.
Definition pos_in_range (p : MinPos) (r : MinRange) : Prop := pos_le (range_left r) p /\ pos_le p (range_right r).

(** [doc'] is [doc] with the row [r] under [path] replaced by [r'], and nothing
    else changed. *)
Inductive replaced : RowIndices -> InputRow -> InputRow -> InputRow -> InputRow -> Prop :=
| replaced_here r r' : replaced [] r r' r r'
| replaced_below path r r' left v before cell cell' after w right :
    replaced path r r' cell cell' ->
    replaced ((length left, length before) :: path) r r'
      (left ++ Container v (mkGrid (before ++ cell :: after) w) :: right)
      (left ++ Container v (mkGrid (before ++ cell' :: after) w) :: right).

(** The symbols of a document from left to right, cell by cell. *)
Fixpoint node_symbols (n : InputNode) : list str :=
  match n with
  | Symbol s => [s]
  | Container _ (mkGrid cells _) => concat (map (fun cell => concat (map node_symbols cell)) cells)
  end.
Definition symbols (doc : InputRow) : list str := concat (map node_symbols doc).

(** [p] is a beginning of [q]. *)
Definition prefix (p q : RowIndices) : Prop := exists s, q = p ++ s.
