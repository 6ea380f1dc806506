(** Where the tokens of a row end, according to its syntax tree. *)
From Verif Require Import Base Str Grid Node Syntax Pratt Grammar Spec SpecRender.
Set Implicit Arguments.

(** The nodes of the tree of a row, without the trees of the rows of containers in it *)
Inductive node_of (n : SyntaxNode) : SyntaxNode -> Prop :=
| node_self : node_of n n
| node_child l c m : syn_children n = Children l -> In c l -> node_of c m -> node_of n m.
(** A node that is a token: not made of others, nor something unknown, nor white space, nor an
    opening bracket *)
Definition is_token (m : SyntaxNode) : Prop :=
  (forall l, syn_children m <> Children l) /\ syn_children m <> Leaf LOperator [[40%N]] /\
  syn_name m <> error_unknown_token_name /\ syn_name m <> whitespace_rule_name.
Definition ends_token (n : SyntaxNode) (j : nat) : Prop := exists m s, node_of n m /\ syn_range m = (s, j) /\ s < j /\ is_token m.
(** The spaces before a script come after a token. *)
Definition spaces_after_tokens (row : InputRow) (n : SyntaxNode) : Prop :=
  forall j k, is_script row k -> spaces_before row j k -> ends_token n j.
Definition spaces_drawable (xs xc : N -> bool) (row : InputRow) : Prop := forall n, parse (default_grammar xs xc) row = Ok n -> spaces_after_tokens row n.
