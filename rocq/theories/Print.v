(** Model of the [Display] implementations of documents. *)
From Coq Require Import String.
From Verif Require Import Base Str Grid Node.
Open Scope list_scope.
Open Scope nat_scope.
Set Implicit Arguments.

(** Rust's [Display] for unsigned integers: decimal digits. Model of std. *)
Fixpoint digits (u : Decimal.uint) : str :=
  match u with
  | Decimal.Nil => []
  | Decimal.D0 u => 48%N :: digits u
  | Decimal.D1 u => 49%N :: digits u
  | Decimal.D2 u => 50%N :: digits u
  | Decimal.D3 u => 51%N :: digits u
  | Decimal.D4 u => 52%N :: digits u
  | Decimal.D5 u => 53%N :: digits u
  | Decimal.D6 u => 54%N :: digits u
  | Decimal.D7 u => 55%N :: digits u
  | Decimal.D8 u => 56%N :: digits u
  | Decimal.D9 u => 57%N :: digits u
  end.
(** Model of [Display] (std) *)
Definition print_N (n : N) : str := digits (N.to_uint n).
(** Model of [Display] (std) *)
Definition print_usize (n : nat) : str := print_N (N.of_nat n).

(** print_helpers.rs:3-12 [write_with_escaped_double_quotes] *)
Fixpoint escape_quotes (s : str) : str :=
  match s with
  | [] => []
  | c :: s =>
      (if (c =? 34)%N then lit "\""" else if (c =? 92)%N then lit "\\" else [c]) ++ escape_quotes s
  end.

(** node.rs:163-173 *)
Definition print_variant (v : InputNodeVariant) : str :=
  match v with
  | Fraction => lit "frac"
  | RootV => lit "root"
  | Sup => lit "sup"
  | Sub => lit "sub"
  | Table => lit "table"
  end.

(** The loops of row.rs:220-222 and grid.rs:93-95: a space in front of each value. *)
Definition print_spaced {A} (print : A -> Res str) : list A -> Res str :=
  fix go l :=
    match l with
    | [] => Ok []
    | x :: l => s <- print x ;; r <- go l ;; Ok (lit " " ++ s ++ r)
    end.

(** row.rs:217-225 *)
Definition print_row_with (print_node : InputNode -> Res str) (r : InputRow) : Res str :=
  s <- print_spaced print_node r ;; Ok (lit "(row" ++ s ++ lit ")").
(** grid.rs:90-98 *)
Definition print_grid_with (print_node : InputNode -> Res str) (g : GridVec InputRow) : Res str :=
  w <- gwidth_of g ;;
  h <- gheight_of g ;;
  s <- print_spaced (print_row_with print_node) (gvalues g) ;;
  Ok (print_usize w ++ lit "x" ++ print_usize h ++ s).
(** node.rs:135-149 *)
Fixpoint print_node (n : InputNode) : Res str :=
  match n with
  | Container v g =>
      s <- print_grid_with print_node g ;;
      Ok (lit "(" ++ print_variant v ++ lit " " ++ s ++ lit ")")
  | Symbol value => Ok (lit """" ++ escape_quotes value ++ lit """")
  end.
(** row.rs:217-225 *)
Definition print_row (r : InputRow) : Res str := print_row_with print_node r.
