(** Model of parser/src/parser/pratt_parser.rs, math_parser.rs, make_parser.rs,
    parser_extensions.rs, rule_collection.rs and of the token parsers in
    rule_collections/*.rs.

    The combinators of chumsky (external code) are modelled by their documented
    behaviour: [then], [choice] and [or], [repeated], [or_not], [just], [select],
    [map_with_span] and [end]; alternatives that fail rewind the input. [can_parse] runs a
    parser without building its output; here it is built and dropped. [Cost.v] has it without
    building, and [C86_counted] says that the parses are the same. *)
From Coq Require Import String.
From Verif Require Import Base Str Grid Node Autocomplete NameMap Syntax.
Open Scope list_scope.
Open Scope nat_scope.
Set Implicit Arguments.

(** * Binding powers *)
(** pratt_parser.rs:496-499 *)
Inductive Strength := Weak | Strong.
(** pratt_parser.rs:527: the pair that stands for a strength *)
Definition Power := (nat * Strength)%type.
(** pratt_parser.rs:495: the derived order. *)
Definition strength_ltb (a b : Strength) : bool := match a, b with Weak, Strong => true | _, _ => false end.
(** The derived order of a pair (std). *)
Definition power_ltb (a b : Power) : bool :=
  (fst a <? fst b) || ((fst a =? fst b) && strength_ltb (snd a) (snd b)).
(** pratt_parser.rs:502-507 *)
Definition invert (s : Strength) : Strength := match s with Weak => Strong | Strong => Weak end.
(** pratt_parser.rs:511-522 *)
Inductive BindingPower :=
| BPrefix (v : nat)
| BPostfix (v : nat)
| BLeftInfix (v : nat)
| BRightInfix (v : nat).
(** pratt_parser.rs:527-535 *)
Definition strength_left (b : BindingPower) : Power :=
  match b with
  | BPrefix v | BLeftInfix v => (v, Weak)
  | BPostfix v | BRightInfix v => (v, Strong)
  end.
(** pratt_parser.rs:537-540 *)
Definition strength_right (b : BindingPower) : Power := let (v, s) := strength_left b in (v, invert s).

(** * Rules *)
(** The parsers that rules are made of: the values of the trait MakeParser, make_parser.rs:10-12. *)
Inductive TokenParser :=
| TSymbols (symbols : list str) (node_type : LeafNodeType)   (* make_parser.rs:65-91 *)
| TContainer (v : InputNodeVariant)                          (* built_in_rules.rs:182-220 *)
| TBrackets (starting ending : str)                          (* make_parser.rs:93-134 *)
| TEmptyBrackets (starting ending : str)                     (* make_parser.rs:136-168 *)
| TNumber                                                    (* arithmetic_rules.rs:52-72 *)
| TVariable                                                  (* core_rules.rs:64-81 *)
| TString.                                                   (* string_rules.rs:48-75 *)
(** parse_module.rs:23-31 *)
Inductive ParseRule :=
| NameOnly (name : PathIdentifier)
| RAtom (name : PathIdentifier) (t : TokenParser)
| RPrefix (name : PathIdentifier) (v : nat) (t : TokenParser)
| RLeftInfix (name : PathIdentifier) (v : nat) (t : TokenParser)
| RRightInfix (name : PathIdentifier) (v : nat) (t : TokenParser)
| RPostfix (name : PathIdentifier) (v : nat) (t : TokenParser).

(** pratt_parser.rs:489-493: an operator. The parser is the one made in
    parser/src/math_parser.rs:83-196, the name is the one of the builder. *)
Record OpParser := mkOp { op_power : BindingPower; op_token : TokenParser; op_name : PathIdentifier }.

(** parse_modules.rs:48-67 (ParseModuleCollection): the rules of all modules in order, and
    [is_xid_start], [is_xid_continue] of the crate unicode-ident. *)
Record Grammar := mkGrammar {
  g_rules : list ParseRule;
  g_xid_start : N -> bool;
  g_xid_continue : N -> bool }.
(** parser/src/math_parser.rs:67-77 and 198-229: later rules come first. *)
Definition g_ops (f : ParseRule -> option OpParser) (g : Grammar) : list OpParser :=
  flat_map (fun r => match f r with Some op => [op] | None => [] end) (rev (g_rules g)).
(** parser/src/math_parser.rs:200-206, pratt_parser.rs:663-709 (constructors of operators) *)
Definition prefix_ops : Grammar -> list OpParser :=
  g_ops (fun r => match r with RPrefix n v t => Some (mkOp (BPrefix v) t n) | _ => None end).
(** parser/src/math_parser.rs:207-220 *)
Definition infix_ops : Grammar -> list OpParser :=
  g_ops (fun r => match r with RLeftInfix n v t => Some (mkOp (BLeftInfix v) t n) | RRightInfix n v t => Some (mkOp (BRightInfix v) t n) | _ => None end).
(** parser/src/math_parser.rs:221-227 *)
Definition postfix_ops : Grammar -> list OpParser :=
  g_ops (fun r => match r with RPostfix n v t => Some (mkOp (BPostfix v) t n) | _ => None end).
(** parser/src/math_parser.rs:199 *)
Definition atom_rules (g : Grammar) : list (PathIdentifier * TokenParser) :=
  flat_map (fun r => match r with RAtom n t => [(n, t)] | _ => [] end) (rev (g_rules g)).

(** built_in_rules.rs:75-77 *)
Definition built_in_name (s : string) : PathIdentifier := [lit "BuiltIn"; lit s].
(** built_in_rules.rs:78-80 *)
Definition error_name (s : string) : PathIdentifier := [lit "Error"; lit s].
(** built_in_rules.rs:40-73 *)
Definition operator_rule_name := built_in_name "Operator".
(** built_in_rules.rs:40-73 *)
Definition whitespaces_rule_name := built_in_name "Whitespaces".
(** built_in_rules.rs:40-73 *)
Definition whitespace_rule_name := built_in_name "Whitespace".
(** built_in_rules.rs:40-73 *)
Definition sub_rule_name := built_in_name "Sub".
(** built_in_rules.rs:40-73 *)
Definition sup_rule_name := built_in_name "Sup".
(** built_in_rules.rs:40-73 *)
Definition nothing_name := built_in_name "Nothing".
(** built_in_rules.rs:40-73 *)
Definition error_missing_operator_name := error_name "MissingOperator".
(** built_in_rules.rs:40-73 *)
Definition error_missing_token_name := error_name "MissingToken".
(** built_in_rules.rs:40-73 *)
Definition error_unknown_token_name := error_name "UnknownToken".

(** * Input *)
(** Model only, for the [InputRef] of chumsky: the offset in the row and the nodes from there on. *)
Definition Input := (nat * InputRow)%type.
(** Model only: a parser returns normally with a value and the remaining input, or an error. *)
Definition PRes (A : Type) := Res (option (A * Input)).
(** Model only: sequencing of parsers *)
Definition pbind {A B} (r : PRes A) (f : A -> Input -> PRes B) : PRes B :=
  o <- r ;; match o with Some (a, i) => f a i | None => Ok None end.
(** Model only: the span of chumsky between two offsets *)
Definition span (a b : Input) : nat * nat := (fst a, fst b).

(** parser_extensions.rs:4-11 *)
Definition just_symbol (s : str) (i : Input) : option (str * Input) :=
  match snd i with
  | Symbol t :: r => if str_eqb t s then Some (s, (S (fst i), r)) else None
  | _ => None
  end.
(** parser_extensions.rs:13-28 *)
Fixpoint just_symbols (l : list str) (i : Input) : option (str * Input) :=
  match l with
  | [] => Some ([], i)
  | s :: l =>
      match just_symbol s i with
      | Some (s, i) => match just_symbols l i with Some (t, i) => Some (s ++ t, i) | None => None end
      | None => None
      end
  end.
(** Model of the macro of chumsky: [select! { InputNode::Symbol(a) if p(a) => a }] *)
Definition select_symbol (p : str -> bool) (i : Input) : option (str * Input) :=
  match snd i with
  | Symbol s :: r => if p s then Some (s, (S (fst i), r)) else None
  | _ => None
  end.
(** Model of [.repeated().collect()] of chumsky after such a macro *)
Fixpoint take_symbols (p : str -> bool) (pos : nat) (l : InputRow) : list str * Input :=
  match l with
  | Symbol s :: r => if p s then let (t, i) := take_symbols p (S pos) r in (s :: t, i) else ([], (pos, l))
  | _ => ([], (pos, l))
  end.
(** Model of the same, on an input *)
Definition repeat_symbols (p : str -> bool) (i : Input) : list str * Input := take_symbols p (fst i) (snd i).

(** arithmetic_rules.rs:54 *)
Definition is_digits (s : str) : bool := forallb (fun c => (48 <=? c) && (c <=? 57))%N s.
(** arithmetic_rules.rs:53-71 *)
Definition parse_number (i : Input) : option (list str * Input) :=
  match repeat_symbols is_digits i with
  | ([], _) => None
  | (a, i1) =>
      match just_symbol (lit ".") i1 with
      | Some (c, i2) =>
          match repeat_symbols is_digits i2 with
          | ([], _) => Some (a, i1)
          | (d, i3) => Some (a ++ c :: d, i3)
          end
      | None => Some (a, i1)
      end
  end.
(** core_rules.rs:49-53 *)
Definition is_identifier_start (g : Grammar) (s : str) : bool :=
  match s with c :: s => g_xid_start g c && forallb (g_xid_continue g) s | [] => false end.
(** core_rules.rs:55-57 *)
Definition is_identifier_continue (g : Grammar) (s : str) : bool := forallb (g_xid_continue g) s.
(** core_rules.rs:64-81 *)
Definition parse_variable (g : Grammar) (i : Input) : option (list str * Input) :=
  match select_symbol (is_identifier_start g) i with
  | Some (a, i) => let (l, i) := repeat_symbols (is_identifier_continue g) i in Some (a :: l, i)
  | None => None
  end.
(** string_rules.rs:51-60: characters other than quotes and backslashes, or any character
    after a backslash *)
Fixpoint take_string (pos : nat) (l : InputRow) : list str * Input :=
  match l with
  | Symbol s :: r =>
      if str_eqb s (lit "\") then
        match r with
        | Symbol t :: r' => let (u, i) := take_string (S (S pos)) r' in (s :: t :: u, i)
        | _ => ([], (pos, l))
        end
      else if str_eqb s (lit """") then ([], (pos, l))
      else let (u, i) := take_string (S pos) r in (s :: u, i)
  | _ => ([], (pos, l))
  end.
(** string_rules.rs:49-74 *)
Definition parse_string (i : Input) : option (list str * Input) :=
  match just_symbol (lit """") i with
  | Some (a, i) =>
      let (b, i) := take_string (fst i) (snd i) in
      match just_symbol (lit """") i with
      | Some (c, i) => Some (a :: b ++ [c], i)
      | None => None
      end
  | None => None
  end.

(** parser/src/math_parser.rs:51-65, built_in_rules.rs:142-145 *)
Definition parse_spaces (i : Input) : Res (option SyntaxNode * Input) :=
  match repeat_symbols (fun s => str_eqb s (lit " ")) i with
  | ([], i') => Ok (None, i')
  | (l, i') => n <- syntax_node_new whitespace_rule_name (span i i') (Leaf LOperator l) ;; Ok (Some n, i')
  end.
(** built_in_rules.rs:147-172 *)
Definition whitespaces_node (before : option SyntaxNode) (node : SyntaxNode) (after : option SyntaxNode) (range : nat * nat) : Res SyntaxNode :=
  match before, after with
  | Some b, Some a => syntax_node_new whitespaces_rule_name range (Children [b; node; a])
  | None, Some a => syntax_node_new whitespaces_rule_name range (Children [node; a])
  | Some b, None => syntax_node_new whitespaces_rule_name range (Children [b; node])
  | None, None => Ok node
  end.

(** rule_collection.rs:60-69 *)
Definition build_infix (name : PathIdentifier) (op lhs rhs : SyntaxNode) : Res SyntaxNode :=
  syntax_node_new name (combine_ranges (syn_range lhs) (combine_ranges (syn_range op) (syn_range rhs))) (Children [lhs; op; rhs]).
(** rule_collection.rs:75-83 *)
Definition build_prefix (name : PathIdentifier) (op rhs : SyntaxNode) : Res SyntaxNode :=
  syntax_node_new name (combine_ranges (syn_range op) (syn_range rhs)) (Children [op; rhs]).
(** rule_collection.rs:89-97 *)
Definition build_postfix (name : PathIdentifier) (op lhs : SyntaxNode) : Res SyntaxNode :=
  syntax_node_new name (combine_ranges (syn_range lhs) (syn_range op)) (Children [lhs; op]).

(** built_in_rules.rs:98-105, parser/src/math_parser.rs:245-248 *)
Definition missing_token (position : nat) : Res SyntaxNode :=
  syntax_node_new error_missing_token_name (position, position) (Children []).
(** built_in_rules.rs:107-119, parser/src/math_parser.rs:249-258 *)
Definition missing_operator (a b : SyntaxNode) : Res SyntaxNode :=
  m <- missing_token (snd (syn_range a)) ;;
  syntax_node_new error_missing_operator_name (combine_ranges (syn_range a) (syn_range b)) (Children [a; m; b]).
(** built_in_rules.rs:121-136, parser/src/math_parser.rs:259-267 *)
Definition unknown_token (position : nat) (n : InputNode) : Res SyntaxNode :=
  match n with
  | Symbol s => syntax_node_new error_unknown_token_name (position, S position) (Leaf LSymbol [s])
  | Container _ _ => Panic PUnwrap
  end.
(** parser/src/math_parser.rs:268 *)
Definition missing_operator_power : BindingPower := BLeftInfix 100.

(** The ending parsers: [end()] (parser/src/math_parser.rs:40, built_in_rules.rs:199) and
    [just_symbol(_)] (make_parser.rs:106). *)
Inductive Ending := EndInput | EndSymbol (s : str).
(** pratt_parser.rs:575-577 *)
Definition at_end (i : Input) : bool := match snd i with [] => true | _ => false end.
(** pratt_parser.rs:204-213 *)
Definition is_at_end (e : Ending) (i : Input) : bool :=
  at_end i ||
  match e with
  | EndInput => at_end i
  | EndSymbol s => match just_symbol s i with Some _ => true | None => false end
  end.

(** The result of [pratt_parse]: is it an [End]? (pratt_parser.rs:132-135) *)
Definition PrattResult := (bool * SyntaxNode)%type.

(** Model only: [map] and [collect] (std) with a function that may panic *)
Fixpoint map_res {A B} (f : A -> Res B) (l : list A) : Res (list B) :=
  match l with
  | [] => Ok []
  | x :: l => y <- f x ;; r <- map_res f l ;; Ok (y :: r)
  end.

Section Step.
Variable g : Grammar.
(** Recursive calls of [pratt_parse]. *)
Variable rec : Power -> Ending -> Input -> Res (PrattResult * Input).

(** [p.parse(&row.values)] for a whole row: errors, that is nodes that are not consumed, panic.
    built_in_rules.rs:192-212 and parser/src/parser.rs:42-52 *)
Definition parse_row_with (row : InputRow) : Res SyntaxNode :=
  ' ((_, n), i) <- rec (0, Weak) EndInput (0, row) ;;
  if at_end i then Ok n else Panic PUnwrap.

(** syntax_node_builder.rs:26-30: [new_leaf_node] *)
Definition leaf_token (ty : LeafNodeType) (o : option (list str * Input)) : PRes SyntaxNodeChildren :=
  Ok (option_map (fun '(l, i) => (Leaf ty l, i)) o).
(** [MakeParser::build] for every parser: make_parser.rs:70-76 (symbols), 93-134 and
    136-168 (brackets), built_in_rules.rs:182-220 (containers), and the parsers above *)
Definition parse_token (t : TokenParser) (i : Input) : PRes SyntaxNodeChildren :=
  match t with
  | TSymbols l ty => leaf_token ty (option_map (fun '(s, i) => ([s], i)) (just_symbols l i))
  | TNumber => leaf_token LSymbol (parse_number i)
  | TVariable => leaf_token LSymbol (parse_variable g i)
  | TString => leaf_token LSymbol (parse_string i)
  | TContainer v =>
      match snd i with
      | Container v' c :: r =>
          if variant_eqb v' v then
            rows <- map_res parse_row_with (gvalues c) ;;
            w <- gwidth_of c ;;
            grid <- from_one_dimensional rows w ;;
            Ok (Some (NewRows grid, (S (fst i), r)))
          else Ok None
      | _ => Ok None
      end
  | TBrackets a b =>
      match just_symbol a i with
      | None => Ok None
      | Some (l, i1) =>
          ' ((_, child), i2) <- rec (0, Weak) (EndSymbol b) i1 ;;
          match just_symbol b i2 with
          | None => Ok None
          | Some (r, i3) =>
              lhs <- syntax_node_new operator_rule_name (span i i1) (Leaf LOperator [l]) ;;
              rhs <- syntax_node_new operator_rule_name (span i2 i3) (Leaf LOperator [r]) ;;
              Ok (Some (Children [lhs; child; rhs], i3))
          end
      end
  | TEmptyBrackets a b =>
      match just_symbol a i with
      | None => Ok None
      | Some (l, i1) =>
          match just_symbol b i1 with
          | None => Ok None
          | Some (r, i2) =>
              lhs <- syntax_node_new operator_rule_name (span i i1) (Leaf LOperator [l]) ;;
              rhs <- syntax_node_new operator_rule_name (span i1 i2) (Leaf LOperator [r]) ;;
              Ok (Some (Children [lhs; rhs], i2))
          end
      end
  end.

(** parser/src/math_parser.rs:83-122: a token with spaces around it *)
Definition parse_rule (name : PathIdentifier) (t : TokenParser) (i : Input) : PRes SyntaxNode :=
  ' (before, i1) <- parse_spaces i ;;
  pbind (parse_token t i1) (fun c i2 =>
  node <- syntax_node_new name (span i1 i2) c ;;
  ' (after, i3) <- parse_spaces i2 ;;
  node <- whitespaces_node before node after (span i i3) ;;
  Ok (Some (node, i3))).
(** parser/src/math_parser.rs:124-175: a sub- or superscript after an operator *)
Definition parse_script (v : InputNodeVariant) (i : Input) : PRes SyntaxNode :=
  pbind (parse_token (TContainer v) i) (fun c i1 =>
  node <- syntax_node_new operator_rule_name (span i i1) c ;;
  ' (after, i2) <- parse_spaces i1 ;;
  node <- whitespaces_node None node after (span i i2) ;;
  Ok (Some (node, i2))).
(** parser/src/math_parser.rs:183-193. Every script consumes a node, so the number of nodes is
    enough fuel. *)
Fixpoint parse_scripts (fuel : nat) (node : SyntaxNode) (i : Input) : Res (SyntaxNode * Input) :=
  match fuel with
  | 0 => Ok (node, i)
  | S fuel =>
      s <- parse_script Sub i ;;
      match s with
      | Some (op, i') => node <- build_postfix sub_rule_name op node ;; parse_scripts fuel node i'
      | None =>
          s <- parse_script Sup i ;;
          match s with
          | Some (op, i') => node <- build_postfix sup_rule_name op node ;; parse_scripts fuel node i'
          | None => Ok (node, i)
          end
      end
  end.
(** parser/src/math_parser.rs:177-196 *)
Definition parse_op (op : OpParser) (i : Input) : PRes SyntaxNode :=
  match op_power op with
  | BPostfix _ => parse_rule operator_rule_name (op_token op) i
  | _ =>
      pbind (parse_rule operator_rule_name (op_token op) i) (fun node i1 =>
      r <- parse_scripts (length (snd i1)) node i1 ;; Ok (Some r))
  end.

(** pratt_parser.rs:591-601 with [HasParser] (623-631) *)
Fixpoint parse_iter (ops : list OpParser) (i : Input) : PRes (SyntaxNode * OpParser) :=
  match ops with
  | [] => Ok None
  | op :: ops =>
      r <- parse_op op i ;;
      match r with
      | Some (n, i') => Ok (Some ((n, op), i'))
      | None => parse_iter ops i
      end
  end.
(** parser/src/math_parser.rs:233 [choice(atom_parsers)] *)
Fixpoint parse_choice (rules : list (PathIdentifier * TokenParser)) (i : Input) : PRes SyntaxNode :=
  match rules with
  | [] => Ok None
  | (name, t) :: rules =>
      r <- parse_rule name t i ;;
      match r with
      | Some x => Ok (Some x)
      | None => parse_choice rules i
      end
  end.
(** parser/src/math_parser.rs:239-243, the prefix parsers *)
Definition parse_prefix := parse_iter (prefix_ops g).
(** parser/src/math_parser.rs:239-243, the infix parsers *)
Definition parse_infix := parse_iter (infix_ops g).
(** parser/src/math_parser.rs:239-243, the postfix parsers *)
Definition parse_postfix := parse_iter (postfix_ops g).
(** parser/src/math_parser.rs:239-243, the atom parsers *)
Definition parse_atom := parse_choice (atom_rules g).
(** pratt_parser.rs:603-608, and 610-620 for the lists of operators *)
Definition can_parse {A} (p : Input -> PRes A) (i : Input) : Res bool :=
  r <- p i ;; Ok (match r with Some _ => true | None => false end).
(** Model only: [a || b] *)
Definition or_else (a b : Res bool) : Res bool := x <- a ;; if x then Ok true else b.

(** pratt_parser.rs:224-244: the loop. Every round consumes a node. *)
Fixpoint unknown_loop (e : Ending) (node : SyntaxNode) (pos : nat) (l : InputRow) : Res (SyntaxNode * Input) :=
  stop <- (if is_at_end e (pos, l) then Ok true
           else or_else (can_parse parse_prefix (pos, l)) (or_else (can_parse parse_atom (pos, l))
                (or_else (can_parse parse_infix (pos, l)) (can_parse parse_postfix (pos, l))))) ;;
  if stop then Ok (node, (pos, l))
  else match l with
       | [] => Panic PUnwrap
       | n :: r =>
           next <- unknown_token pos n ;;
           node <- missing_operator node next ;;
           unknown_loop e node (S pos) r
       end.
(** pratt_parser.rs:215-246 *)
Definition parse_unknown (e : Ending) (i : Input) : Res (SyntaxNode * Input) :=
  match snd i with
  | [] => Panic PUnwrap
  | n :: r => node <- unknown_token (fst i) n ;; unknown_loop e node (S (fst i)) r
  end.

(** pratt_parser.rs:284-314 *)
Definition pratt_first (e : Ending) (i : Input) : Res (PrattResult * Input) :=
  if at_end i then n <- missing_token (fst i) ;; Ok ((true, n), i)
  else
    p <- parse_prefix i ;;
    match p with
    | Some ((value, op), i1) =>
        ' ((ended, rhs), i2) <- rec (strength_right (op_power op)) e i1 ;;
        n <- build_prefix (op_name op) value rhs ;; Ok ((ended, n), i2)
    | None =>
        a <- parse_atom i ;;
        match a with
        | Some (n, i1) => Ok ((false, n), i1)
        | None =>
            o <- or_else (can_parse parse_infix i) (can_parse parse_postfix i) ;;
            if o : bool then n <- missing_token (fst i) ;; Ok ((false, n), i)
            else if is_at_end e i then n <- missing_token (fst i) ;; Ok ((true, n), i)
            else ' (n, i1) <- parse_unknown e i ;; Ok ((false, n), i1)
        end
    end.
(** pratt_parser.rs:316-381 *)
Fixpoint pratt_loop (fuel : nat) (min : Power) (e : Ending) (lhs : SyntaxNode) (i : Input) : Res (PrattResult * Input) :=
  match fuel with
  | 0 => Panic PFuel
  | S fuel =>
      if at_end i then Ok ((true, lhs), i)
      else
        o <- parse_infix i ;;
        match o with
        | Some ((value, op), i1) =>
            if power_ltb (strength_left (op_power op)) min then Ok ((false, lhs), i)
            else
              ' ((ended, rhs), i2) <- rec (strength_right (op_power op)) e i1 ;;
              n <- build_infix (op_name op) value lhs rhs ;;
              if ended : bool then Ok ((true, n), i2) else pratt_loop fuel min e n i2
        | None =>
        o <- parse_postfix i ;;
        match o with
        | Some ((value, op), i1) =>
            if power_ltb (strength_left (op_power op)) min then Ok ((false, lhs), i)
            else n <- build_postfix (op_name op) value lhs ;; pratt_loop fuel min e n i1
        | None =>
        o <- or_else (can_parse parse_prefix i) (can_parse parse_atom i) ;;
        if o : bool then
          if power_ltb (strength_left missing_operator_power) min then Ok ((false, lhs), i)
          else
            ' ((ended, rhs), i2) <- rec (strength_right missing_operator_power) e i ;;
            n <- missing_operator lhs rhs ;;
            if ended : bool then Ok ((true, n), i2) else pratt_loop fuel min e n i2
        else if is_at_end e i then Ok ((true, lhs), i)
        else
          ' (rhs, i1) <- parse_unknown e i ;;
          n <- missing_operator lhs rhs ;;
          pratt_loop fuel min e n i1
        end
        end
  end.
(** pratt_parser.rs:278-382: one call *)
Definition pratt_step (min : Power) (e : Ending) (i : Input) : Res (PrattResult * Input) :=
  ' ((ended, lhs), i1) <- pratt_first e i ;;
  if ended : bool then Ok ((true, lhs), i1) else pratt_loop (S (length (snd i1))) min e lhs i1.
End Step.

(** pratt_parser.rs:278-382; the fuel bounds the depth of the recursion *)
Fixpoint pratt_parse (g : Grammar) (fuel : nat) (min : Power) (e : Ending) (i : Input) : Res (PrattResult * Input) :=
  match fuel with
  | 0 => Panic PFuel
  | S fuel => pratt_step g (pratt_parse g fuel) min e i
  end.

(** Model only: the number of nodes and cells in a row, a bound for the depth of the recursion. *)
Fixpoint node_size (n : InputNode) : nat :=
  match n with
  | Symbol _ => 1
  | Container _ (mkGrid cells _) => S (list_sum (map (fun cell => S (list_sum (map node_size cell))) cells))
  end.
(** Model only: see [node_size]. *)
Definition row_size (r : InputRow) : nat := list_sum (map node_size r).

(** parser/src/parser.rs:42-52 *)
Definition parse (g : Grammar) (doc : InputRow) : Res SyntaxNode := parse_row_with (pratt_parse g (S (row_size doc))) doc.
