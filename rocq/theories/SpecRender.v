(** Specifications about rendering. *)
From Verif Require Import Base Str Grid Node Spec.
Set Implicit Arguments.

(** A row at any depth *)
Definition everywhere (P : InputRow -> Prop) (doc : InputRow) : Prop := forall p row, row_get doc p = Some row -> P row.
(** Fractions and roots have two cells. *)
Definition two_cells (row : InputRow) : Prop :=
  forall k v c, nth_error row k = Some (Container v c) -> v = Fraction \/ v = RootV -> length (gvalues c) = 2.
Definition is_script (row : InputRow) (k : nat) : Prop := exists v c, nth_error row k = Some (Container v c) /\ (v = Sub \/ v = Sup).
Definition is_space (row : InputRow) (k : nat) : Prop := nth_error row k = Some (Symbol [32%N]).
(** There is no space after, or before, a sub- or superscript. *)
Definition no_space_after_scripts (row : InputRow) : Prop := forall k, is_script row k -> ~ is_space row (S k).
Definition no_space_before_scripts (row : InputRow) : Prop := forall k, is_script row (S k) -> ~ is_space row k.
(** The row contains the symbols "l", "i" and "m" in succession. *)
Definition spells_lim (row : InputRow) : Prop :=
  exists k, nth_error row k = Some (Symbol [108%N]) /\ nth_error row (1 + k) = Some (Symbol [105%N]) /\ nth_error row (2 + k) = Some (Symbol [109%N]).
(** The spaces between [j] and [k]; there is no further one before them. *)
Definition spaces_before (row : InputRow) (j k : nat) : Prop := j < k /\ (forall i, j <= i < k -> is_space row i) /\ forall i, j = S i -> ~ is_space row i.
(** Spaces before a sub- or superscript come after a container or after a symbol of the given kind. *)
Definition spaces_follow (kind : str -> Prop) (row : InputRow) : Prop :=
  forall j k, is_script row k -> spaces_before row j k ->
  exists i, j = S i /\ ((exists v c, nth_error row i = Some (Container v c)) \/ exists x, nth_error row i = Some (Symbol x) /\ kind x).
(** The operators and constants that are a single symbol: + - * / ^ ! ∞ ∑ ∫ , = > < ≥ ≤ ⊤ ⊥ ∧ ∨ ¬ ⇔ ⟹ *)
Definition operator_symbols : list str :=
  map (fun c => [c]) [43; 45; 42; 47; 94; 33; 8734; 8721; 8747; 44; 61; 62; 60; 8805; 8804; 8868; 8869; 8743; 8744; 172; 8660; 10233]%N.
(** A symbol of digits only *)
Definition digit_symbol (x : str) : Prop := forall c, In c x -> (48 <= c <= 57)%N.
(** A symbol that starts, or continues, an identifier *)
Definition letter_symbol (xs xc : N -> bool) (x : str) : Prop := exists c r, x = c :: r /\ xs c = true /\ forall d, In d r -> xc d = true.
Definition continue_symbol (xc : N -> bool) (x : str) : Prop := forall d, In d x -> xc d = true.
(** A symbol that is a token on its own wherever it is, but for strings *)
Definition stands_alone (xs xc : N -> bool) (x : str) : Prop :=
  x <> [40%N] /\ (In x operator_symbols \/ digit_symbol x \/ letter_symbol xs xc x).
(** A symbol that can be the last of a token. The last letters of "lim", "limsup" and "liminf" are
    there for the case that they are not letters according to [xs] and [xc]. *)
Definition may_end (xs xc : N -> bool) (x : str) : Prop :=
  In x operator_symbols \/ digit_symbol x \/ letter_symbol xs xc x \/ continue_symbol xc x \/ x = [41%N] \/ x = [34%N] \/ In x [[109%N]; [112%N]; [102%N]].
(** If a symbol before the spaces before a script can end a token, then it is a token on its own. *)
Definition clear_before_scripts (xs xc : N -> bool) (row : InputRow) : Prop :=
  forall i k x, is_script row k -> spaces_before row (S i) k -> nth_error row i = Some (Symbol x) -> may_end xs xc x -> stands_alone xs xc x.
