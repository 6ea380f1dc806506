(** Model of the functions of src/core/index.ts that find a row in the syntax tree. A
    failing [assert] throws, which is [Panic PAssert] here. *)
From Verif Require Import Base Str Grid Node Syntax.
Set Implicit Arguments.

(** src/core/index.ts:150 *)
Definition in_range (n : SyntaxNode) (k : nat) : bool := (fst (syn_range n) <=? k) && (k <? snd (syn_range n)).
(** src/core/index.ts:145-158; returns the new rows of the node *)
Fixpoint get_child_with_new_rows (n : SyntaxNode) (k : nat) : Res (GridVec SyntaxNode) :=
  match n with
  | mkSyntax _ (Children l) _ _ =>
      (fix go l :=
         match l with
         | [] => Panic PAssert
         | c :: l => if in_range c k then get_child_with_new_rows c k else go l
         end) l
  | mkSyntax _ (NewRows g) _ _ => Ok g
  | mkSyntax _ (Leaf _ _) _ _ => Panic PAssert
  end.
(** src/core/index.ts:122-139 *)
Fixpoint get_node_with_row_indices (n : SyntaxNode) (indices : RowIndices) : Res SyntaxNode :=
  match indices with
  | [] => Ok n
  | (k, j) :: indices =>
      _ <- assert_ (in_range n k) ;;
      g <- get_child_with_new_rows n k ;;
      match nth_error (gvalues g) j with
      | Some c => get_node_with_row_indices c indices
      | None => Panic PAssert
      end
  end.
