(** Specifications about the DOM that is drawn. *)
From Verif Require Import Base Str Grid Node Syntax Render.
Set Implicit Arguments.

(** ** Valid MathML *)
Definition is_text (d : Dom) : bool := match d with DomText _ => true | DomElement _ _ _ => false end.
Definition has_tag (t : Tag) (d : Dom) : bool :=
  match d, t with
  | DomElement Tmtr _ _, Tmtr | DomElement Tmtd _ _, Tmtd => true
  | _, _ => false
  end.
Definition child_count (d : Dom) : nat := match d with DomElement _ _ l => length l | DomText _ => 0 end.
(** mfrac, mroot, msub and msup have exactly two children. A table consists of rows of cells,
    all rows have the same number of cells and at least one, and a cell has one child. Text
    is only in elements for text. *)
Fixpoint valid_dom (d : Dom) : bool :=
  match d with
  | DomText _ => false
  | DomElement tag _ l =>
      match tag with
      | Tmi | Tmn | Tmo | Tmtext | Tmspace | Tmerror => forallb is_text l
      | Tmfrac | Tmroot | Tmsub | Tmsup => (length l =? 2) && forallb valid_dom l
      | Tmrow => forallb valid_dom l
      | Tmphantom => length l =? 0
      | Tmtable =>
          forallb (has_tag Tmtr) l && forallb valid_dom l &&
          forallb (fun d => (0 <? child_count d) && (child_count d =? child_count (hd d l))) l
      | Tmtr => forallb (has_tag Tmtd) l && forallb valid_dom l
      | Tmtd => (length l =? 1) && forallb valid_dom l
      end
  end.
(** ** Text *)
(** The texts in the DOM from first to last *)
Fixpoint dom_texts (d : Dom) : list str :=
  match d with
  | DomText t => [t]
  | DomElement _ _ l => flat_map dom_texts l
  end.
(** The symbols of the leaves of a syntax tree from left to right *)
Fixpoint tree_symbols (n : SyntaxNode) : list str :=
  match n with
  | mkSyntax _ (NewRows (mkGrid l _)) _ _ | mkSyntax _ (Children l) _ _ => flat_map tree_symbols l
  | mkSyntax _ (Leaf _ symbols) _ _ => symbols
  end.
(** ** Nodes of a tree *)
Inductive node_of : SyntaxNode -> SyntaxNode -> Prop :=
| node_here n : node_of n n
| node_child m n name l s e : In n l -> node_of m n -> node_of m (mkSyntax name (Children l) s e)
| node_cell m n name l w s e : In n l -> node_of m n -> node_of m (mkSyntax name (NewRows (mkGrid l w)) s e).
