(** Model of parser/src/syntax_tree/node_type_id.rs. *)
From Verif Require Import Base Str.
Set Implicit Arguments.

(** [std::collections::HashMap]: an association list in order of insertion. Only [get],
    [insert] and [len] are used, so the order is invisible. *)
Section HashMap.
Variables K V : Type.
Variable eqb : K -> K -> bool.
(** Model of std *)
Definition HashMap := list (K * V).
(** Model of std *)
Fixpoint hm_get (m : HashMap) (k : K) : option V :=
  match m with
  | [] => None
  | (k', v) :: m => if eqb k k' then Some v else hm_get m k
  end.
(** Model of std *)
Fixpoint hm_insert (m : HashMap) (k : K) (v : V) : HashMap :=
  match m with
  | [] => [(k, v)]
  | (k', v') :: m => if eqb k k' then (k', v) :: m else (k', v') :: hm_insert m k v
  end.
End HashMap.

(** node_identifier.rs:15. That the parts are Unicode identifiers is not needed. *)
Definition PathIdentifier := list str.
(** node_identifier.rs:9: derived [PartialEq] *)
Fixpoint path_eqb (a b : PathIdentifier) : bool :=
  match a, b with
  | [], [] => true
  | x :: a, y :: b => str_eqb x y && path_eqb a b
  | _, _ => false
  end.

(** node_type_id.rs:13: a [u32] *)
Definition SyntaxNodeNameId := N.
(** Model of [u32] *)
Definition two32 : N := 4294967296.
(** [_ as u32], model of std *)
Definition as_u32 (n : nat) : N := (N.of_nat n mod two32)%N.

(** node_type_id.rs:22-25 *)
Record SyntaxNodeNameMap := mkNameMap {
  nm_values : HashMap PathIdentifier SyntaxNodeNameId;
  nm_reverse : HashMap SyntaxNodeNameId PathIdentifier }.
(** node_type_id.rs:28-33 *)
Definition name_map_new : SyntaxNodeNameMap := mkNameMap [] [].
(** node_type_id.rs:35-44 *)
Definition name_map_add (m : SyntaxNodeNameMap) (path : PathIdentifier) : SyntaxNodeNameMap * SyntaxNodeNameId :=
  match hm_get path_eqb (nm_values m) path with
  | Some id => (m, id)
  | None =>
      let id := as_u32 (length (nm_values m)) in
      (mkNameMap (hm_insert path_eqb (nm_values m) path id) (hm_insert N.eqb (nm_reverse m) id path), id)
  end.
(** node_type_id.rs:45-47 *)
Definition name_map_get (m : SyntaxNodeNameMap) (path : PathIdentifier) : option SyntaxNodeNameId :=
  hm_get path_eqb (nm_values m) path.
(** node_type_id.rs:49-51 *)
Definition name_map_get_reverse (m : SyntaxNodeNameMap) (id : SyntaxNodeNameId) : option PathIdentifier :=
  hm_get N.eqb (nm_reverse m) id.

(** Registering several names one after the other. Model only. *)
Fixpoint add_all (m : SyntaxNodeNameMap) (names : list PathIdentifier) : SyntaxNodeNameMap :=
  match names with
  | [] => m
  | name :: names => add_all (fst (name_map_add m name)) names
  end.
