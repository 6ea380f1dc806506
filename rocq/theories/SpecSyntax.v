(** Specifications about syntax trees. *)
From Verif Require Import Base Str Grid Node NameMap Syntax Pratt Spec.
Set Implicit Arguments.

(** ** Tiling *)
(** [covers row s e n]: the node [n] covers exactly the elements [s..e] of [row]. Its
    children do so one after the other, a leaf consists of symbols only and spells them,
    and new rows belong to a container and cover all its cells, in a grid of the same
    width. *)
Inductive covers : InputRow -> nat -> nat -> SyntaxNode -> Prop :=
| covers_children row s e name l : tiles row s e l -> covers row s e (mkSyntax name (Children l) s e)
| covers_leaf row s name ty symbols l tail : skipn s row = map Symbol l ++ tail -> l <> [] -> concat symbols = concat l ->
    covers row s (s + length l) (mkSyntax name (Leaf ty symbols) s (s + length l))
| covers_rows row s name v cells w nodes : nth_error row s = Some (Container v (mkGrid cells w)) -> covers_cells cells nodes ->
    covers row s (S s) (mkSyntax name (NewRows (mkGrid nodes w)) s (S s))
with tiles : InputRow -> nat -> nat -> list SyntaxNode -> Prop :=
| tiles_nil row s : tiles row s s []
| tiles_cons row s m e n l : covers row s m n -> tiles row m e l -> tiles row s e (n :: l)
with covers_cells : list InputRow -> list SyntaxNode -> Prop :=
| cells_nil : covers_cells [] []
| cells_cons cell cells n nodes : covers cell 0 (length cell) n -> covers_cells cells nodes -> covers_cells (cell :: cells) (n :: nodes).

(** The text of all leaves from left to right. *)
Fixpoint leaf_text (n : SyntaxNode) : str :=
  match n with
  | mkSyntax _ (NewRows (mkGrid l _)) _ _ | mkSyntax _ (Children l) _ _ => concat (map leaf_text l)
  | mkSyntax _ (Leaf _ symbols) _ _ => concat symbols
  end.

(** ** Grammars *)
Definition rule_token (r : ParseRule) : option TokenParser :=
  match r with
  | NameOnly _ => None
  | RAtom _ t | RPrefix _ _ t | RLeftInfix _ _ t | RRightInfix _ _ t | RPostfix _ _ t => Some t
  end.
(** Every token has at least one symbol. *)
Definition no_empty_tokens (g : Grammar) : Prop := forall r t, In r (g_rules g) -> rule_token r = Some t -> forall ty, t <> TSymbols [] ty.
(** There is a rule for every kind of container. *)
Definition all_containers (g : Grammar) : Prop := forall v, exists r, In r (g_rules g) /\ rule_token r = Some (TContainer v).
