(** Specification of operator precedence. *)
From Verif Require Import Base Str Grid Node NameMap Syntax Pratt.
Set Implicit Arguments.

(** ** Expressions *)
(** The tokens of an expression, in the order of the text. [TkAtom] is anything that is no
    operator, also a missing operand or unknown symbols in place of an operand. [TkJuxt]
    stands between two operands without an operator, [TkUnknown] are unknown symbols in
    place of an operator. *)
Inductive Token :=
| TkPrefix (op : OpParser) (value : SyntaxNode)
| TkAtom (node : SyntaxNode)
| TkInfix (op : OpParser) (value : SyntaxNode)
| TkPostfix (op : OpParser) (value : SyntaxNode)
| TkJuxt
| TkUnknown (node : SyntaxNode).
Inductive Expr :=
| EAtom (node : SyntaxNode)
| EPrefix (op : OpParser) (value : SyntaxNode) (a : Expr)
| EInfix (a : Expr) (op : OpParser) (value : SyntaxNode) (b : Expr)
| EPostfix (a : Expr) (op : OpParser) (value : SyntaxNode)
| EJuxt (a b : Expr)
| EUnknown (a : Expr) (node : SyntaxNode).
(** The tokens of an expression: the tree without its structure. *)
Fixpoint flatten (t : Expr) : list Token :=
  match t with
  | EAtom n => [TkAtom n]
  | EPrefix op v a => TkPrefix op v :: flatten a
  | EInfix a op v b => flatten a ++ TkInfix op v :: flatten b
  | EPostfix a op v => flatten a ++ [TkPostfix op v]
  | EJuxt a b => flatten a ++ TkJuxt :: flatten b
  | EUnknown a n => flatten a ++ [TkUnknown n]
  end.
(** The syntax tree of an expression. *)
Definition start_of (n : SyntaxNode) : nat := fst (syn_range n).
Definition end_of (n : SyntaxNode) : nat := snd (syn_range n).
Definition missing_at (p : nat) : SyntaxNode := mkSyntax error_missing_token_name (Children []) p p.
Definition juxtaposed (x y : SyntaxNode) : SyntaxNode :=
  mkSyntax error_missing_operator_name (Children [x; missing_at (end_of x); y]) (start_of x) (end_of y).
Fixpoint build (t : Expr) : SyntaxNode :=
  match t with
  | EAtom n => n
  | EPrefix op v a => let x := build a in mkSyntax (op_name op) (Children [v; x]) (start_of v) (end_of x)
  | EInfix a op v b => let x := build a in let y := build b in mkSyntax (op_name op) (Children [x; v; y]) (start_of x) (end_of y)
  | EPostfix a op v => let x := build a in mkSyntax (op_name op) (Children [x; v]) (start_of x) (end_of v)
  | EJuxt a b => juxtaposed (build a) (build b)
  | EUnknown a n => juxtaposed (build a) n
  end.

(** ** Binding powers *)
Definition weaker (a b : Power) : Prop := fst a < fst b \/ (fst a = fst b /\ snd a = Weak /\ snd b = Strong).
(** How strongly an operator pulls on the operand to its left and right. Of two operators
    of the same power a left-associative one pulls less to the left than to the right. A missing operator
    is left-associative and as weak as a sum, unknown symbols bind stronger than anything. *)
Definition left_power (op : OpParser) : Power :=
  match op_power op with BPrefix v | BLeftInfix v => (v, Weak) | BPostfix v | BRightInfix v => (v, Strong) end.
Definition pull_right (op : OpParser) : Power :=
  match op_power op with BPrefix v | BLeftInfix v => (v, Strong) | BPostfix v | BRightInfix v => (v, Weak) end.
Definition pull_left (k : Token) : option Power :=
  match k with
  | TkInfix op _ | TkPostfix op _ => Some (left_power op)
  | TkJuxt => Some (100, Weak)
  | _ => None
  end.
Definition juxt_right : Power := (100, Strong).
(** The operators of an expression that are open to the left: those that the expression
    ends up in when something to the left of it takes a part of it. *)
Fixpoint left_edge (t : Expr) : list Power :=
  match t with
  | EAtom _ | EPrefix _ _ _ => []
  | EInfix a op _ _ => left_power op :: left_edge a
  | EPostfix a op _ => left_power op :: left_edge a
  | EJuxt a _ => (100, Weak) :: left_edge a
  | EUnknown a _ => left_edge a
  end.
Fixpoint right_edge (t : Expr) : list Power :=
  match t with
  | EAtom _ | EPostfix _ _ _ | EUnknown _ _ => []
  | EPrefix op _ a => pull_right op :: right_edge a
  | EInfix _ op _ b => pull_right op :: right_edge b
  | EJuxt _ b => juxt_right :: right_edge b
  end.
(** No operator of the right operand is weaker than the operator before it, *)
Definition holds_right (p : Power) (b : Expr) : Prop := forall s, In s (left_edge b) -> ~ weaker s p.
(** and every operator of the left operand is stronger than the operator after it. *)
Definition holds_left (a : Expr) (p : Power) : Prop := forall s, In s (right_edge a) -> weaker p s.
Fixpoint respects (t : Expr) : Prop :=
  match t with
  | EAtom _ => True
  | EPrefix op _ a => respects a /\ holds_right (pull_right op) a
  | EInfix a op _ b => respects a /\ respects b /\ holds_left a (left_power op) /\ holds_right (pull_right op) b
  | EPostfix a op _ => respects a /\ holds_left a (left_power op)
  | EJuxt a b => respects a /\ respects b /\ holds_left a (100, Weak) /\ holds_right juxt_right b
  | EUnknown a _ => respects a /\ right_edge a = []
  end.

(** ** Reading tokens *)
Section Read.
Variable g : Grammar.
Definition token_parser (i : Input) := pratt_parse g (row_size (snd i)).
Definition prefix_at (i : Input) := parse_prefix g (token_parser i) i.
Definition infix_at (i : Input) := parse_infix g (token_parser i) i.
Definition postfix_at (i : Input) := parse_postfix g (token_parser i) i.
Definition atom_at (i : Input) := parse_atom g (token_parser i) i.
Definition unknown_at (e : Ending) (i : Input) := parse_unknown g (token_parser i) e i.

(** Does an operand come next or an operator? *)
Inductive State := Operand | Operator.
(** The next token, whatever the binding powers are; [None] at the end. *)
Definition next (e : Ending) (st : State) (i : Input) : Res (option (Token * (State * Input))) :=
  p <- prefix_at i ;; a <- atom_at i ;; n <- infix_at i ;; q <- postfix_at i ;;
  match st with
  | Operand =>
      match p, a, n, q with
      | Some ((v, op), i), _, _, _ => Ok (Some (TkPrefix op v, (Operand, i)))
      | _, Some (v, i), _, _ => Ok (Some (TkAtom v, (Operator, i)))
      | _, _, None, None =>
          if is_at_end e i then v <- missing_token (fst i) ;; Ok (Some (TkAtom v, (Operator, i)))
          else ' (v, i) <- unknown_at e i ;; Ok (Some (TkAtom v, (Operator, i)))
      | _, _, _, _ => v <- missing_token (fst i) ;; Ok (Some (TkAtom v, (Operator, i)))
      end
  | Operator =>
      match n, q, p, a with
      | Some ((v, op), i), _, _, _ => Ok (Some (TkInfix op v, (Operand, i)))
      | _, Some ((v, op), i), _, _ => Ok (Some (TkPostfix op v, (Operator, i)))
      | _, _, None, None =>
          if is_at_end e i then Ok None
          else ' (v, i) <- unknown_at e i ;; Ok (Some (TkUnknown v, (Operator, i)))
      | _, _, _, _ => Ok (Some (TkJuxt, (Operand, i)))
      end
  end.
Inductive lexes (e : Ending) : State * Input -> list Token -> State * Input -> Prop :=
| lexes_nil st : lexes e st [] st
| lexes_cons st k st1 l st2 : next e (fst st) (snd st) = Ok (Some (k, st1)) -> lexes e st1 l st2 -> lexes e st (k :: l) st2.
(** The tokens of a whole row. *)
Definition tokens_of (doc : InputRow) (l : list Token) : Prop :=
  exists i, lexes EndInput (Operand, (0, doc)) l (Operator, i) /\ next EndInput Operator i = Ok None.
End Read.

(** ** Tables of operators *)
Definition space : str := [32%N].
(** All tokens are a single symbol, except for the containers; no symbol is a space. *)
Definition single_symbols (g : Grammar) : Prop := forall r, In r (g_rules g) ->
  match r with
  | NameOnly _ => True
  | RAtom _ t | RPrefix _ _ t | RLeftInfix _ _ t | RRightInfix _ _ t | RPostfix _ _ t =>
      (exists v, t = TContainer v) \/ (exists s ty, t = TSymbols [s] ty /\ s <> space)
  end.
Definition token_symbol (t : TokenParser) : list str := match t with TSymbols [s] _ => [s] | _ => [] end.
(** A symbol is not both an operand and a prefix operator, or both an infix and a postfix
    operator; but it can be an infix and a prefix operator. *)
Definition unambiguous (g : Grammar) : Prop :=
  NoDup (flat_map (fun op => token_symbol (op_token op)) (prefix_ops g) ++ flat_map (fun '(_, t) => token_symbol t) (atom_rules g)) /\
  NoDup (flat_map (fun op => token_symbol (op_token op)) (infix_ops g ++ postfix_ops g)).

(** Expressions as they are written. *)
Inductive Term :=
| MAtom (name : PathIdentifier) (ty : LeafNodeType) (s : str)
| MPrefix (op : OpParser) (ty : LeafNodeType) (s : str) (a : Term)
| MInfix (a : Term) (op : OpParser) (ty : LeafNodeType) (s : str) (b : Term)
| MPostfix (a : Term) (op : OpParser) (ty : LeafNodeType) (s : str).
Fixpoint spell (t : Term) : list str :=
  match t with
  | MAtom _ _ s => [s]
  | MPrefix _ _ s a => s :: spell a
  | MInfix a _ _ s b => spell a ++ s :: spell b
  | MPostfix a _ _ s => spell a ++ [s]
  end.
(** The rules that are used belong to the grammar. *)
Fixpoint belongs (g : Grammar) (t : Term) : Prop :=
  match t with
  | MAtom name ty s => In (RAtom name (TSymbols [s] ty)) (g_rules g)
  | MPrefix op ty s a => In op (prefix_ops g) /\ op_token op = TSymbols [s] ty /\ belongs g a
  | MInfix a op ty s b => In op (infix_ops g) /\ op_token op = TSymbols [s] ty /\ belongs g a /\ belongs g b
  | MPostfix a op ty s => In op (postfix_ops g) /\ op_token op = TSymbols [s] ty /\ belongs g a
  end.
(** The expression at an offset. *)
Definition leaf_at (name : PathIdentifier) (ty : LeafNodeType) (s : str) (p : nat) : SyntaxNode := mkSyntax name (Leaf ty [s]) p (S p).
Fixpoint place (p : nat) (t : Term) : Expr :=
  match t with
  | MAtom name ty s => EAtom (leaf_at name ty s p)
  | MPrefix op ty s a => EPrefix op (leaf_at operator_rule_name ty s p) (place (S p) a)
  | MInfix a op ty s b =>
      let q := p + length (spell a) in EInfix (place p a) op (leaf_at operator_rule_name ty s q) (place (S q) b)
  | MPostfix a op ty s => EPostfix (place p a) op (leaf_at operator_rule_name ty s (p + length (spell a)))
  end.
