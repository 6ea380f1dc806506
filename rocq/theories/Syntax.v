(** Model of parser/src/syntax_tree/syntax_node.rs and syntax_node_builder.rs. *)
From Verif Require Import Base Str Grid NameMap.
Set Implicit Arguments.

(** syntax_node.rs:101-107 *)
Inductive LeafNodeType := LSymbol | LOperator.

(** syntax_node.rs:25-36, 56-62, 81-87. The name is stored as a path instead of an id,
    by C32 they correspond to each other. [value] is left out: nothing but
    [SyntaxNodeBuilder::set_value] writes it, which is never called. *)
Inductive SyntaxNode :=
| mkSyntax (name : PathIdentifier) (children : SyntaxNodeChildren) (range_start range_end : nat)
with SyntaxNodeChildren :=
| NewRows (rows : GridVec SyntaxNode)
| Children (children : list SyntaxNode)
| Leaf (node_type : LeafNodeType) (symbols : list str).

(** syntax_node.rs:28 *)
Definition syn_name (n : SyntaxNode) : PathIdentifier := match n with mkSyntax name _ _ _ => name end.
(** syntax_node.rs:30 *)
Definition syn_children (n : SyntaxNode) : SyntaxNodeChildren := match n with mkSyntax _ c _ _ => c end.
(** syntax_node.rs:145-147 *)
Definition syn_range (n : SyntaxNode) : nat * nat := match n with mkSyntax _ _ s e => (s, e) end.

(** syntax_node.rs:131-140: the ranges follow each other; the end of the last one *)
Fixpoint ranges_end (prev : nat) (l : list SyntaxNode) : Res nat :=
  match l with
  | [] => Ok prev
  | n :: l => _ <- assert_ (prev =? fst (syn_range n)) ;; ranges_end (snd (syn_range n)) l
  end.
(** syntax_node.rs:122-143 *)
Definition get_combined_range (c : SyntaxNodeChildren) : Res (option (nat * nat)) :=
  match c with
  | Children (n :: l) => e <- ranges_end (snd (syn_range n)) l ;; Ok (Some (fst (syn_range n), e))
  | _ => Ok None
  end.
(** syntax_node.rs:110-120; also syntax_node_builder.rs:32-36 *)
Definition syntax_node_new (name : PathIdentifier) (range : nat * nat) (c : SyntaxNodeChildren) : Res SyntaxNode :=
  r <- get_combined_range c ;;
  _ <- match r with
       | Some r => assert_ ((fst range <=? fst r) && (snd r <=? snd range))
       | None => Ok tt
       end ;;
  Ok (mkSyntax name c (fst range) (snd range)).

(** rule_collection.rs:99-103 and parser/src/math_parser.rs:29-33 *)
Definition combine_ranges (a b : nat * nat) : nat * nat := (Nat.min (fst a) (fst b), Nat.max (snd a) (snd b)).
