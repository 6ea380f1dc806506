(** Specifications about serialized documents. *)
From Verif Require Import Base Str Grid Node Focus Edit Caret Autocomplete Editor Spec SpecEditor Json.
Set Implicit Arguments.

(** How many containers lie around each other. *)
Fixpoint nesting (n : InputNode) : nat :=
  match n with
  | Symbol _ => 0
  | Container _ (mkGrid cells _) => S (list_max (map (fun cell => list_max (map nesting cell)) cells))
  end.
Definition row_nesting (r : InputRow) : nat := list_max (map nesting r).
(** The widths of all grids are values of type [usize]. *)
Inductive fits (max : N) : InputNode -> Prop :=
| fits_symbol s : fits max (Symbol s)
| fits_container v cells w : (N.of_nat w <= max)%N -> (forall cell, In cell cells -> forall n, In n cell -> fits max n) ->
    fits max (Container v (mkGrid cells w)).
Definition fits_row (max : N) (r : InputRow) : Prop := forall n, In n r -> fits max n.
(** The nodes selected by a range. *)
Definition nodes_in (doc : InputRow) (m : MinRange) (vs : list InputNode) : Prop :=
  exists row, row_get doc (mr_row m) = Some row /\ hi m <= length row /\ vs = firstn (hi m - lo m) (skipn (lo m) row).
(** The editor uses the JSON format. *)
Definition uses_json SyntaxNode (env : Env SyntaxNode) (max : N) : Prop :=
  (forall nodes, env_serialize env nodes = serialize_input_nodes nodes) /\
  (forall text, env_deserialize env text = deserialize_input_nodes max text).
