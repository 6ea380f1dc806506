(** Model of parser/src/syntax_tree/display_syntax_tree.rs. *)
From Coq Require Import String.
From Verif Require Import Base Str Grid NameMap Syntax Print.
Open Scope list_scope.
Open Scope nat_scope.
Set Implicit Arguments.

(** print_helpers.rs:14-27 [write_with_separator] *)
Fixpoint print_separated (sep : str) (l : list str) : str :=
  match l with
  | [] => []
  | [s] => s
  | s :: l => s ++ sep ++ print_separated sep l
  end.
(** node_identifier.rs:40-44 *)
Definition print_path (p : PathIdentifier) : str := print_separated (lit "::") p.
(** display_syntax_tree.rs:26-65 and 67-75, with a name for every node *)
Fixpoint print_syntax (n : SyntaxNode) : Res str :=
  match n with
  | mkSyntax name c _ _ =>
      body <- match c with
              | NewRows (mkGrid [] _) | Children [] => Ok []
              | NewRows (mkGrid values w) =>
                  ' (w, h) <- gsize (mkGrid values w) ;;
                  l <- (fix go l := match l with [] => Ok [] | n :: l => s <- print_syntax n ;; r <- go l ;; Ok (lit " " ++ s ++ r) end) values ;;
                  Ok (lit " " ++ print_usize w ++ lit "x" ++ print_usize h ++ l)
              | Children values =>
                  (fix go l := match l with [] => Ok [] | n :: l => s <- print_syntax n ;; r <- go l ;; Ok (lit " " ++ s ++ r) end) values
              | Leaf _ symbols => Ok (lit " """ ++ flat_map escape_quotes symbols ++ lit """")
              end ;;
      Ok (lit "(" ++ print_path name ++ body ++ lit ")")
  end.
