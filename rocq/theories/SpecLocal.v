(** Which part of a syntax tree depends on what (C104). *)
From Verif Require Import Base Str Grid Node NameMap Syntax SyntaxFind Pratt Grammar Render.
Set Implicit Arguments.

(** The same symbol, or containers of the same kind and size with anything in them *)
Inductive alike : InputNode -> InputNode -> Prop :=
| alike_symbol s : alike (Symbol s) (Symbol s)
| alike_container v cells cells' w : length cells = length cells' -> alike (Container v (mkGrid cells w)) (Container v (mkGrid cells' w)).
(** Trees that are the same except for what is inside of containers *)
Inductive same_outline : SyntaxNode -> SyntaxNode -> Prop :=
| outline_children name l l' s e : same_outlines l l' -> same_outline (mkSyntax name (Children l) s e) (mkSyntax name (Children l') s e)
| outline_leaf name ty symbols s e : same_outline (mkSyntax name (Leaf ty symbols) s e) (mkSyntax name (Leaf ty symbols) s e)
| outline_rows name l l' w s e : length l = length l' -> same_outline (mkSyntax name (NewRows (mkGrid l w)) s e) (mkSyntax name (NewRows (mkGrid l' w)) s e)
with same_outlines : list SyntaxNode -> list SyntaxNode -> Prop :=
| outlines_nil : same_outlines [] []
| outlines_cons n n' l l' : same_outline n n' -> same_outlines l l' -> same_outlines (n :: l) (n' :: l').
(** [tree_replaced p a b t u]: in the tree [t], the tree of the row [p] is [a]; with [b] in its place, and nothing else changed,
    it is [u]. *)
Inductive tree_replaced : RowIndices -> SyntaxNode -> SyntaxNode -> SyntaxNode -> SyntaxNode -> Prop :=
| tree_here a b : tree_replaced [] a b a b
| tree_children k j p a b name l1 c c' l2 s e : in_range c k = true -> tree_replaced ((k, j) :: p) a b c c' ->
    tree_replaced ((k, j) :: p) a b (mkSyntax name (Children (l1 ++ c :: l2)) s e) (mkSyntax name (Children (l1 ++ c' :: l2)) s e)
| tree_row k p a b name l1 c c' l2 w e : tree_replaced p a b c c' ->
    tree_replaced ((k, length l1) :: p) a b (mkSyntax name (NewRows (mkGrid (l1 ++ c :: l2) w)) k e) (mkSyntax name (NewRows (mkGrid (l1 ++ c' :: l2) w)) k e).
(** The same for what is drawn: the elements of the row [p], and elements outside of it, which keep their class, their place and
    their other children. *)
Inductive drawing_replaced : RowIndices -> Element -> Element -> Element -> Element -> Prop :=
| drawing_here a b : drawing_replaced [] a b a b
| drawing_children k j p a b class t t' i l1 c c' l2 : in_range (el_tree c) k = true -> drawing_replaced ((k, j) :: p) a b c c' ->
    drawing_replaced ((k, j) :: p) a b (mkElement class t i (l1 ++ c :: l2)) (mkElement class t' i (l1 ++ c' :: l2))
| drawing_row k p a b class t t' i l1 c c' l2 : el_row_index c = Some (k, length l1) -> drawing_replaced p a b c c' ->
    drawing_replaced ((k, length l1) :: p) a b (mkElement class t i (l1 ++ c :: l2)) (mkElement class t' i (l1 ++ c' :: l2)).
(** How the row [p] is drawn: with its index, and without any options *)
Definition row_index_of (p : RowIndices) : option RowIndex := match rev p with [] => None | i :: _ => Some i end.
