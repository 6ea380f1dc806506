(** Specifications about the places where the caret is drawn. *)
From Coq Require Import String.
From Verif Require Import Base Str Syntax.
Open Scope list_scope.
Open Scope nat_scope.

(** A leaf of the tree of a row, with its range and its symbols; those in the rows of containers do not count. *)
Inductive row_leaf : SyntaxNode -> nat -> nat -> list str -> Prop :=
| leaf_itself name ty l s e : row_leaf (mkSyntax name (Leaf ty l) s e) s e l
| leaf_below name children s' e' n s e l : In n children -> row_leaf n s e l -> row_leaf (mkSyntax name (Children children) s' e') s e l.
(** The words that are a leaf with one symbol *)
Definition limit_words : list str := [lit "lim"; lit "limsup"; lit "liminf"].
(** Both offsets are inside of one of these words. *)
Definition inside_limit (n : SyntaxNode) (i j : nat) : Prop :=
  exists w s, In w limit_words /\ row_leaf n s (s + length w) [w] /\ s < i /\ j < s + length w.
