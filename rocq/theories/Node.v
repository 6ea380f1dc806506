(** Model of input_tree/src/node.rs, row.rs and direction.rs. *)
From Verif Require Import Base Str Grid.
Set Implicit Arguments.

(** node.rs:35-50 *)
Inductive InputNodeVariant := Fraction | RootV | Sup | Sub | Table.

(** node.rs:19-26, row.rs:24-26.  [InputRow] is modelled by its only field, the
    list of its nodes. *)
Inductive InputNode :=
| Container (v : InputNodeVariant) (g : GridVec (list InputNode))
| Symbol (s : str).
(** row.rs:24-26 *)
Notation InputRow := (list InputNode).

(** direction.rs:9-35 *)
Inductive Direction := DLeft | DRight | DUp | DDown.
(** direction.rs:22-25 *)
Inductive HorizontalDirection := HLeft | HRight.
(** direction.rs:33-36 *)
Inductive VerticalDirection := VUp | VDown.
(** direction.rs:38-54 *)
Definition h_to_dir (d : HorizontalDirection) : Direction :=
  match d with HLeft => DLeft | HRight => DRight end.

(** Model only: a comparison with [HorizontalDirection::Left] *)
Definition is_left (d : HorizontalDirection) : bool :=
  match d with HLeft => true | HRight => false end.

(** node.rs:53-88: constructors *)
Definition fraction (a b : InputRow) : InputNode := Container Fraction (mkGrid [a; b] 1).
(** node.rs:61-67 *)
Definition root (a b : InputRow) : InputNode := Container RootV (mkGrid [a; b] 2).
(** node.rs:69-74 *)
Definition sup (a : InputRow) : InputNode := Container Sup (mkGrid [a] 1).
(** node.rs:76-81 *)
Definition sub (a : InputRow) : InputNode := Container Sub (mkGrid [a] 1).
(** node.rs:83-88 *)
Definition table (values : list InputRow) (width : nat) : Res InputNode :=
  g <- from_one_dimensional values width ;; Ok (Container Table g).

(** node.rs:151-161, 113-118 *)
Definition variant_has_resizable_grid (v : InputNodeVariant) : bool :=
  match v with Table => true | _ => false end.
(** node.rs:113-118 *)
Definition has_resizable_grid (n : InputNode) : bool :=
  match n with Container v _ => variant_has_resizable_grid v | Symbol _ => false end.

(** node.rs:120-125 *)
Definition node_grid (n : InputNode) : option (GridVec InputRow) :=
  match n with Container _ g => Some g | Symbol _ => None end.

(** row.rs:41-58 *)
Definition row_offset_to_index (row : InputRow) (offset : nat) (d : HorizontalDirection) : option nat :=
  match d with
  | HLeft => if offset =? 0 then None else Some (offset - 1)
  | HRight => if length row <=? offset then None else Some offset
  end.

(** row.rs:80, 91, 100-104 *)
Definition RowIndex := (nat * nat)%type.
(** row.rs:80 *)
Notation RowIndices := (list RowIndex).
(** row.rs:101-104 *)
Record ElementIndices := mkElementIndices { ei_row : RowIndices; ei_index : nat }.

(** row.rs:85: derived [PartialEq] *)
Definition rowindex_eqb (a b : RowIndex) : bool := (fst a =? fst b) && (snd a =? snd b).
(** row.rs:79: derived [PartialEq] *)
Fixpoint rowindices_eqb (a b : RowIndices) : bool :=
  match a, b with
  | [], [] => true
  | x :: a, y :: b => rowindex_eqb x y && rowindices_eqb a b
  | _, _ => false
  end.

(** row.rs:119-121: [self.0.starts_with(&other.0)] *)
Fixpoint indices_starts_with (self other : RowIndices) : bool :=
  match other, self with
  | [], _ => true
  | y :: other, x :: self => rowindex_eqb x y && indices_starts_with self other
  | _ :: _, [] => false
  end.

(** row.rs:123-132: zip, take_while equal *)
Fixpoint get_shared (self other : RowIndices) : RowIndices :=
  match self, other with
  | x :: self, y :: other => if rowindex_eqb x y then x :: get_shared self other else []
  | _, _ => []
  end.

(** Derived [Ord] for [RowIndex] (row.rs:85): lexicographic. *)
Definition rowindex_cmp (a b : RowIndex) : comparison :=
  match Nat.compare (fst a) (fst b) with
  | Eq => Nat.compare (snd a) (snd b)
  | c => c
  end.

(** Lexicographic comparison of slices ([slice::cmp]). Model of std. *)
Fixpoint slice_cmp (a b : list RowIndex) : comparison :=
  match a, b with
  | [], [] => Eq
  | [], _ :: _ => Lt
  | _ :: _, [] => Gt
  | x :: a, y :: b => match rowindex_cmp x y with Eq => slice_cmp a b | c => c end
  end.

(** row.rs:160-192 *)
Definition cmp_indices_and_offset (self_indices : RowIndices) (self_offset : nat)
    (other_indices : RowIndices) (other_offset : nat) : comparison :=
  let shared_len := Nat.min (length self_indices) (length other_indices) in
  match slice_cmp (firstn shared_len self_indices) (firstn shared_len other_indices) with
  | Eq =>
      let self_ooi := match nth_error self_indices shared_len with
                      | Some i => fst i * 2 + 1
                      | None => self_offset * 2
                      end in
      let other_ooi := match nth_error other_indices shared_len with
                       | Some i => fst i * 2 + 1
                       | None => other_offset * 2
                       end in
      Nat.compare self_ooi other_ooi
  | c => c
  end.
