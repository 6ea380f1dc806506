(** Formulas as they are taught: a grammar with one level per precedence, and the tree of a formula.
    Nothing here depends on the parser or on binding powers. *)
From Coq Require Import String.
From Verif Require Import Base Str Grid Node NameMap Syntax.
Open Scope list_scope.
Open Scope nat_scope.

(** ** Formulas *)
Inductive Infix := Equals | Greater | Less | AtLeast | AtMost | Comma | Plus | Minus | And | Or | Equivalent | Implies | Times | Divide.
Inductive Prefix := Positive | Negative | Sum | Integral | Lim | LimSup | LimInf.
Inductive Constant := Infinity | Truth | Falsehood.
(** Numbers of spaces are given after every token, and before what a row or an opening bracket begins
    with. Characters of a string are marked if there is a backslash before them. *)
Inductive Atom (F : Type) :=
| AVariable (first : str) (others : list str)
| ANumber (first : N) (others decimals : list N)
| AConstant (c : Constant)
| AString (l : list (bool * str))
| AEmpty
| ABrackets (before : nat) (a : F)
| ACells (v : InputNodeVariant) (w : nat) (cells : list (nat * F)).
Inductive Postfix (F : Type) :=
| PFactorial
| PCall
| PApply (before : nat) (a : F)
| PScript (upper : bool) (before : nat) (a : F).
(** Sub- and superscripts of an operator *)
Definition Scripts (F : Type) : Type := list (bool * nat * F * nat).
Inductive Formula :=
| FAtom (a : Atom Formula) (after : nat)
| FPrefix (op : Prefix) (after : nat) (s : Scripts Formula) (a : Formula)
| FInfix (a : Formula) (op : Infix) (after : nat) (s : Scripts Formula) (b : Formula)
| FPostfix (a : Formula) (op : Postfix Formula) (after : nat).
Arguments AVariable {F}. Arguments ANumber {F}. Arguments AConstant {F}. Arguments AString {F}. Arguments AEmpty {F}. Arguments ABrackets {F}. Arguments ACells {F}.
Arguments PFactorial {F}. Arguments PCall {F}. Arguments PApply {F}. Arguments PScript {F}.

Definition infix_char (op : Infix) : N :=
  match op with
  | Equals => 61 | Greater => 62 | Less => 60 | AtLeast => 8805 | AtMost => 8804 | Comma => 44 | Plus => 43 | Minus => 45
  | And => 8743 | Or => 8744 | Equivalent => 8660 | Implies => 10233 | Times => 42 | Divide => 47
  end%N.
Definition prefix_text (op : Prefix) : str :=
  match op with
  | Positive => [43] | Negative => [45] | Sum => [8721] | Integral => [8747] | Lim => lit "lim" | LimSup => lit "limsup" | LimInf => lit "liminf"
  end%N.
Definition constant_char (c : Constant) : N := match c with Infinity => 8734 | Truth => 8868 | Falsehood => 8869 end%N.
Definition single (l : list N) : list str := map (fun c => [c]) l.
Definition sign (c : N) : InputNode := Symbol [c].
Definition spaces (k : nat) : InputRow := repeat (sign 32) k.
Definition script (upper : bool) : InputNodeVariant := if upper then Sup else Sub.

(** How a formula is written. *)
Definition number_symbols (c : N) (l d : list N) : list str := single (c :: l) ++ match d with [] => [] | _ => single (46%N :: d) end.
Definition string_symbols (l : list (bool * str)) : list str :=
  lit """" :: flat_map (fun '(escaped, s) => if escaped : bool then [lit "\"; s] else [s]) l ++ [lit """"].
Fixpoint written (f : Formula) : InputRow :=
  let scripts := flat_map (fun '(u, before, a, after) => Container (script u) (mkGrid [spaces before ++ written a] 1) :: spaces after) in
  match f with
  | FAtom a after =>
      match a with
      | AVariable s l => map Symbol (s :: l)
      | ANumber c l d => map Symbol (number_symbols c l d)
      | AConstant c => [sign (constant_char c)]
      | AString l => map Symbol (string_symbols l)
      | AEmpty => [sign 40; sign 41]
      | ABrackets before a => sign 40 :: spaces before ++ written a ++ [sign 41]
      | ACells v w cells => [Container v (mkGrid (map (fun '(before, a) => spaces before ++ written a) cells) w)]
      end ++ spaces after
  | FPrefix op after s a => map Symbol (single (prefix_text op)) ++ spaces after ++ scripts s ++ written a
  | FInfix a op after s b => written a ++ sign (infix_char op) :: spaces after ++ scripts s ++ written b
  | FPostfix a op after =>
      written a ++ match op with
      | PFactorial => [sign 33]
      | PCall => [sign 40; sign 41]
      | PApply before b => sign 40 :: spaces before ++ written b ++ [sign 41]
      | PScript u before b => [Container (script u) (mkGrid [spaces before ++ written b] 1)]
      end ++ spaces after
  end.
Definition width (f : Formula) : nat := length (written f).

(** Precedence: equations; comparisons and tuples; sums and logic; products; signs; everything that
    comes after its operand. Chains nest to the left. *)
Definition level (op : Infix) : nat :=
  match op with
  | Equals => 1
  | Greater | Less | AtLeast | AtMost | Comma => 2
  | Plus | Minus | And | Or | Equivalent | Implies => 3
  | Times | Divide => 4
  end.
Definition prefix_level (op : Prefix) : nat := match op with Positive | Negative => 5 | _ => 3 end.
(** A formula that can be written without brackets after something that takes operands of level [l]
    and before an operator of level [r]. *)
Fixpoint conventional (l r : nat) (f : Formula) : Prop :=
  let scripts := fold_right (fun '(_, _, a, _) rest => conventional 0 0 a /\ rest) True in
  match f with
  | FAtom a _ =>
      match a with
      | ABrackets _ a => conventional 0 0 a
      | ACells _ _ cells => fold_right (fun '(_, a) rest => conventional 0 0 a /\ rest) True cells
      | _ => True
      end
  | FPrefix op _ s a => r <= prefix_level op /\ scripts s /\ conventional (S (prefix_level op)) r a
  | FInfix a op _ s b => l <= level op /\ r <= level op /\ scripts s /\ conventional l (level op) a /\ conventional (S (level op)) r b
  | FPostfix a op _ => conventional l 6 a /\ match op with PApply _ b | PScript _ _ b => conventional 0 0 b | _ => True end
  end.

(** ** Characters *)
(** Operators, brackets, quotes and spaces *)
Definition signs : list N :=
  [61; 62; 60; 8805; 8804; 44; 43; 45; 8743; 8744; 8660; 10233; 42; 47; 172; 33; 94; 40; 41; 34; 32; 46; 8734; 8868; 8869; 8721; 8747]%N.
(** What is assumed of the classes of characters in identifiers. *)
Definition classes_ok (xs xc : N -> bool) : Prop :=
  (forall c, In c signs -> xs c = false /\ xc c = false) /\ (forall c, (48 <= c <= 57)%N -> xs c = false).
Definition digit (c : N) : Prop := (48 <= c <= 57)%N.
(** Names begin with a letter and do not begin with "lim", numbers consist of digits, quotes and
    backslashes in strings are marked, and a limit is not a "limsup" or "liminf" by mistake. Fractions, roots and tables
    have all their cells. *)
Fixpoint spelled (xs xc : N -> bool) (f : Formula) : Prop :=
  let scripts := fold_right (fun '(_, _, a, _) rest => spelled xs xc a /\ rest) True in
  match f with
  | FAtom a _ =>
      match a with
      | AVariable s l =>
          (exists c t, s = c :: t /\ xs c = true /\ forallb xc t = true) /\ (forall t, In t l -> forallb xc t = true) /\
          firstn 3 (s :: l) <> single (lit "lim")
      | ANumber c l d => digit c /\ Forall digit l /\ Forall digit d
      | AConstant _ | AEmpty => True
      | AString l => forall s, In (false, s) l -> s <> lit """" /\ s <> lit "\"
      | ABrackets _ a => spelled xs xc a
      | ACells v w cells =>
          In v [Fraction; RootV; Table] /\ 0 < w /\ cells <> [] /\ length cells mod w = 0 /\ fold_right (fun '(_, a) rest => spelled xs xc a /\ rest) True cells
      end
  | FPrefix op after s a =>
      scripts s /\ spelled xs xc a /\
      (op = Lim -> after = 0 -> s = [] -> firstn 3 (written a) <> map Symbol (single (lit "sup")) /\ firstn 3 (written a) <> map Symbol (single (lit "inf")))
  | FInfix a _ _ s b => spelled xs xc a /\ scripts s /\ spelled xs xc b
  | FPostfix a op _ => spelled xs xc a /\ match op with PApply _ b | PScript _ _ b => spelled xs xc b | _ => True end
  end.

(** ** The tree of a formula *)
Definition named (a b : string) : PathIdentifier := [lit a; lit b].
Definition infix_name (op : Infix) : PathIdentifier :=
  match op with
  | Equals => named "Comparison" "Equals"
  | Greater => named "Comparison" "GreaterThan"
  | Less => named "Comparison" "LessThan"
  | AtLeast => named "Comparison" "GreaterThanOrEquals"
  | AtMost => named "Comparison" "LessThanOrEquals"
  | Comma => named "Collections" "Tuple"
  | Plus => named "Arithmetic" "Add"
  | Minus => named "Arithmetic" "Subtract"
  | And => named "Logic" "And"
  | Or => named "Logic" "Or"
  | Equivalent => named "Logic" "Equivalent"
  | Implies => named "Logic" "Implies"
  | Times => named "Arithmetic" "Multiply"
  | Divide => named "Arithmetic" "Divide"
  end.
Definition prefix_name (op : Prefix) : PathIdentifier :=
  match op with
  | Positive => named "Arithmetic" "Add"
  | Negative => named "Arithmetic" "Subtract"
  | Sum => named "Calculus" "Sum"
  | Integral => named "Calculus" "Integral"
  | Lim => named "Calculus" "Lim"
  | LimSup => named "Calculus" "LimSup"
  | LimInf => named "Calculus" "LimInf"
  end.
Definition constant_name (c : Constant) : PathIdentifier :=
  match c with Infinity => named "Calculus" "Infinity" | Truth => named "Logic" "True" | Falsehood => named "Logic" "False" end.
Definition cells_name (v : InputNodeVariant) : PathIdentifier :=
  named "BuiltIn" match v with Fraction => "Fraction" | RootV => "Root" | Table => "Table" | Sup => "Sup" | Sub => "Sub" end.
Definition operator_name : PathIdentifier := named "BuiltIn" "Operator".
Definition atom_name {F} (a : Atom F) : PathIdentifier :=
  match a with
  | AVariable _ _ => named "Core" "Variable"
  | ANumber _ _ _ => named "Arithmetic" "Number"
  | AConstant c => constant_name c
  | AString _ => named "String" "String"
  | AEmpty | ABrackets _ _ => named "Core" "RoundBrackets"
  | ACells v _ _ => cells_name v
  end.
Definition postfix_name {F} (op : Postfix F) : PathIdentifier :=
  match op with
  | PFactorial => named "Arithmetic" "Factorial"
  | PCall | PApply _ _ => named "Function" "FunctionApplication"
  | PScript u _ _ => cells_name (script u)
  end.
(** A token that begins at offset [p] after [before] spaces, is [len] nodes wide and has [after] spaces after it *)
Definition blank (k p : nat) : list SyntaxNode :=
  match k with 0 => [] | _ => [mkSyntax (named "BuiltIn" "Whitespace") (Leaf LOperator (repeat [32%N] k)) p (p + k)] end.
Definition spaced (name : PathIdentifier) (c : SyntaxNodeChildren) (p before len after : nat) : SyntaxNode :=
  let n := mkSyntax name c (p + before) (p + before + len) in
  match before, after with
  | 0, 0 => n
  | _, _ => mkSyntax (named "BuiltIn" "Whitespaces") (Children (blank before p ++ n :: blank after (p + before + len))) p (p + before + len + after)
  end.
Definition op_leaf (c : N) (p : nat) : SyntaxNode := mkSyntax operator_name (Leaf LOperator [[c]]) p (S p).
Definition in_brackets (p : nat) (n : SyntaxNode) : SyntaxNodeChildren := Children [op_leaf 40 p; n; op_leaf 41 (snd (syn_range n))].
(** The tree of a formula that is written after [before] spaces at offset [p]. *)
Fixpoint tree (before p : nat) (f : Formula) : SyntaxNode :=
  let node name children := mkSyntax name children p (p + before + width f) in
  let scripts := fold_left (fun n '(u, before, a, after) =>
    let q := snd (syn_range n) in
    mkSyntax (cells_name (script u)) (Children [n; spaced operator_name (NewRows (mkGrid [tree before 0 a] 1)) q 0 1 after]) (fst (syn_range n)) (q + 1 + after)) in
  match f with
  | FAtom a after =>
      let content :=
        match a with
        | AVariable s l => Leaf LSymbol (s :: l)
        | ANumber c l d => Leaf LSymbol (number_symbols c l d)
        | AConstant c => Leaf LSymbol [[constant_char c]]
        | AString l => Leaf LSymbol (string_symbols l)
        | AEmpty => Children [op_leaf 40 (p + before); op_leaf 41 (S (p + before))]
        | ABrackets inner a => in_brackets (p + before) (tree inner (S (p + before)) a)
        | ACells v w cells => NewRows (mkGrid (map (fun '(inner, a) => tree inner 0 a) cells) w)
        end in
      spaced (atom_name a) content p before (width f - after) after
  | FPrefix op after s a =>
      let v := scripts s (spaced operator_name (Leaf LOperator [prefix_text op]) p before (length (prefix_text op)) after) in
      node (prefix_name op) (Children [v; tree 0 (snd (syn_range v)) a])
  | FInfix a op after s b =>
      let v := scripts s (spaced operator_name (Leaf LOperator [[infix_char op]]) (p + before + width a) 0 1 after) in
      node (infix_name op) (Children [tree before p a; v; tree 0 (snd (syn_range v)) b])
  | FPostfix a op after =>
      let q := p + before + width a in
      let content :=
        match op with
        | PFactorial => Leaf LOperator [[33%N]]
        | PCall => Children [op_leaf 40 q; op_leaf 41 (S q)]
        | PApply inner b => in_brackets q (tree inner (S q) b)
        | PScript _ inner b => NewRows (mkGrid [tree inner 0 b] 1)
        end in
      node (postfix_name op) (Children [tree before p a; spaced operator_name content q 0 (width f - width a - after) after])
  end.

(** ** Spaces *)
(** The formula without its spaces *)
Fixpoint squeeze (f : Formula) : Formula :=
  let scripts := map (fun '(u, _, a, _) => (u, 0, squeeze a, 0)) in
  match f with
  | FAtom a _ =>
      FAtom match a with
        | AVariable s l => AVariable s l
        | ANumber c l d => ANumber c l d
        | AConstant c => AConstant c
        | AString l => AString l
        | AEmpty => AEmpty
        | ABrackets _ a => ABrackets 0 (squeeze a)
        | ACells v w cells => ACells v w (map (fun '(_, a) => (0, squeeze a)) cells)
        end 0
  | FPrefix op _ s a => FPrefix op 0 (scripts s) (squeeze a)
  | FInfix a op _ s b => FInfix (squeeze a) op 0 (scripts s) (squeeze b)
  | FPostfix a op _ =>
      FPostfix (squeeze a) match op with
        | PFactorial => PFactorial
        | PCall => PCall
        | PApply _ b => PApply 0 (squeeze b)
        | PScript u _ b => PScript u 0 (squeeze b)
        end 0
  end.
(** A syntax tree without offsets and spaces *)
Fixpoint bare (n : SyntaxNode) : SyntaxNode :=
  match n with
  | mkSyntax name c _ _ =>
      let c := match c with
        | Children l => Children (flat_map (fun m => if path_eqb (syn_name m) (named "BuiltIn" "Whitespace") then [] else [bare m]) l)
        | NewRows g => NewRows (mkGrid (map bare (gvalues g)) (gwidth g))
        | Leaf ty l => Leaf ty l
        end in
      match c with
      | Children [m] => if path_eqb name (named "BuiltIn" "Whitespaces") then m else mkSyntax name c 0 0
      | _ => mkSyntax name c 0 0
      end
  end.
