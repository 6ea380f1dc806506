(** The parser of Pratt.v with a counter of the calls of [pratt_parse]. The definitions here are
    those of Pratt.v of the same name without the first letter, except for the look ahead:
    pratt_parser.rs:603-620 runs a parser there in the mode of chumsky that only checks, and Pratt.v
    runs it in full. [CostFacts.v] proves that the results are the same for every document whose
    grids are well-formed. Tokens that are symbols are not counted. *)
From Coq Require Import String.
From Verif Require Import Base Str Grid Node Autocomplete NameMap Syntax Pratt.
Open Scope list_scope.
Open Scope nat_scope.
Set Implicit Arguments.

(** Model only: a result, and the number of calls that were made on the way to it *)
Definition Counted (A : Type) := (nat * Res A)%type.
(** Model only: one after the other; nothing is called after a panic *)
Definition cbind {A B} (m : Counted A) (f : A -> Counted B) : Counted B :=
  match m with
  | (n, Ok a) => let (k, r) := f a in (n + k, r)
  | (n, Panic p) => (n, Panic p)
  end.
(** Model only: without calls *)
Definition free {A} (r : Res A) : Counted A := (0, r).
Notation "x <+ m ;; f" := (cbind m (fun x => f)) (at level 61, m at next level, right associativity).
Notation "' pat <+ m ;; f" := (cbind m (fun x => match x with pat => f end)) (at level 61, pat pattern, m at next level, right associativity).
(** Model only: see [pbind] *)
Definition cpbind {A B} (r : Counted (option (A * Input))) (f : A -> Input -> Counted (option (B * Input))) : Counted (option (B * Input)) :=
  o <+ r ;; match o with Some (a, i) => f a i | None => free (Ok None) end.
(** Model only: see [map_res] *)
Fixpoint cmap_res {A B} (f : A -> Counted B) (l : list A) : Counted (list B) :=
  match l with
  | [] => free (Ok [])
  | x :: l => y <+ f x ;; r <+ cmap_res f l ;; free (Ok (y :: r))
  end.

Section Step.
Variable g : Grammar.
(** Recursive calls of [pratt_parse]. *)
Variable rec : Power -> Ending -> Input -> Counted (PrattResult * Input).

(** built_in_rules.rs:192-212, parser/src/parser.rs:42-52 *)
Definition cparse_row_with (row : InputRow) : Counted SyntaxNode :=
  ' ((_, n), i) <+ rec (0, Weak) EndInput (0, row) ;;
  free (if at_end i then Ok n else Panic PUnwrap).
(** make_parser.rs:65-168, built_in_rules.rs:182-220 *)
Definition cparse_token (t : TokenParser) (i : Input) : Counted (option (SyntaxNodeChildren * Input)) :=
  match t with
  | TContainer v =>
      match snd i with
      | Container v' c :: r =>
          if variant_eqb v' v then
            rows <+ cmap_res cparse_row_with (gvalues c) ;;
            free (w <- gwidth_of c ;;
                  grid <- from_one_dimensional rows w ;;
                  Ok (Some (NewRows grid, (S (fst i), r))))
          else free (Ok None)
      | _ => free (Ok None)
      end
  | TBrackets a b =>
      match just_symbol a i with
      | None => free (Ok None)
      | Some (l, i1) =>
          ' ((_, child), i2) <+ rec (0, Weak) (EndSymbol b) i1 ;;
          free (match just_symbol b i2 with
                | None => Ok None
                | Some (r, i3) =>
                    lhs <- syntax_node_new operator_rule_name (span i i1) (Leaf LOperator [l]) ;;
                    rhs <- syntax_node_new operator_rule_name (span i2 i3) (Leaf LOperator [r]) ;;
                    Ok (Some (Children [lhs; child; rhs], i3))
                end)
      end
  | t => free (parse_token g (fun _ _ _ => Panic PFuel) t i)
  end.
(** parser/src/math_parser.rs:83-122 *)
Definition cparse_rule (name : PathIdentifier) (t : TokenParser) (i : Input) : Counted (option (SyntaxNode * Input)) :=
  ' (before, i1) <+ free (parse_spaces i) ;;
  cpbind (cparse_token t i1) (fun c i2 =>
  free (node <- syntax_node_new name (span i1 i2) c ;;
        ' (after, i3) <- parse_spaces i2 ;;
        node <- whitespaces_node before node after (span i i3) ;;
        Ok (Some (node, i3)))).
(** parser/src/math_parser.rs:124-175 *)
Definition cparse_script (v : InputNodeVariant) (i : Input) : Counted (option (SyntaxNode * Input)) :=
  cpbind (cparse_token (TContainer v) i) (fun c i1 =>
  free (node <- syntax_node_new operator_rule_name (span i i1) c ;;
        ' (after, i2) <- parse_spaces i1 ;;
        node <- whitespaces_node None node after (span i i2) ;;
        Ok (Some (node, i2)))).
(** parser/src/math_parser.rs:183-193 *)
Fixpoint cparse_scripts (fuel : nat) (node : SyntaxNode) (i : Input) : Counted (SyntaxNode * Input) :=
  match fuel with
  | 0 => free (Ok (node, i))
  | S fuel =>
      s <+ cparse_script Sub i ;;
      match s with
      | Some (op, i') => node <+ free (build_postfix sub_rule_name op node) ;; cparse_scripts fuel node i'
      | None =>
          s <+ cparse_script Sup i ;;
          match s with
          | Some (op, i') => node <+ free (build_postfix sup_rule_name op node) ;; cparse_scripts fuel node i'
          | None => free (Ok (node, i))
          end
      end
  end.
(** parser/src/math_parser.rs:177-196 *)
Definition cparse_op (op : OpParser) (i : Input) : Counted (option (SyntaxNode * Input)) :=
  match op_power op with
  | BPostfix _ => cparse_rule operator_rule_name (op_token op) i
  | _ =>
      cpbind (cparse_rule operator_rule_name (op_token op) i) (fun node i1 =>
      r <+ cparse_scripts (length (snd i1)) node i1 ;; free (Ok (Some r)))
  end.
(** pratt_parser.rs:591-601 *)
Fixpoint cparse_iter (ops : list OpParser) (i : Input) : Counted (option (SyntaxNode * OpParser * Input)) :=
  match ops with
  | [] => free (Ok None)
  | op :: ops =>
      r <+ cparse_op op i ;;
      match r with
      | Some (n, i') => free (Ok (Some ((n, op), i')))
      | None => cparse_iter ops i
      end
  end.
(** parser/src/math_parser.rs:233 *)
Fixpoint cparse_choice (rules : list (PathIdentifier * TokenParser)) (i : Input) : Counted (option (SyntaxNode * Input)) :=
  match rules with
  | [] => free (Ok None)
  | (name, t) :: rules =>
      r <+ cparse_rule name t i ;;
      match r with
      | Some x => free (Ok (Some x))
      | None => cparse_choice rules i
      end
  end.
(** parser/src/math_parser.rs:239-243 *)
Definition cparse_prefix := cparse_iter (prefix_ops g).
(** parser/src/math_parser.rs:239-243 *)
Definition cparse_infix := cparse_iter (infix_ops g).
(** parser/src/math_parser.rs:239-243 *)
Definition cparse_postfix := cparse_iter (postfix_ops g).
(** parser/src/math_parser.rs:239-243 *)
Definition cparse_atom := cparse_choice (atom_rules g).
(** Model only: see [or_else] *)
Definition cor_else (a b : Counted bool) : Counted bool := x <+ a ;; if x then free (Ok true) else b.
(** parser/src/math_parser.rs:51-65: the spaces before a token, of which nothing is built *)
Definition skip_spaces (i : Input) : Input := snd (repeat_symbols (fun s => str_eqb s (lit " ")) i).
(** pratt_parser.rs:603-609: whether a token can be parsed. In the mode that only checks, chumsky does
    not run the functions given to [map], and that is where the rows of a container are parsed
    (built_in_rules.rs:192-217). The brackets call [pratt_parse] in full (make_parser.rs:93-134), because
    an [ExtParser] is checked by parsing. *)
Definition ccan_token (t : TokenParser) (i : Input) : Counted bool :=
  match t with
  | TContainer v => free (Ok (match snd i with Container v' _ :: _ => variant_eqb v' v | _ => false end))
  | TBrackets a b =>
      match just_symbol a i with
      | None => free (Ok false)
      | Some (_, i1) =>
          ' (_, i2) <+ rec (0, Weak) (EndSymbol b) i1 ;;
          free (Ok (match just_symbol b i2 with Some _ => true | None => false end))
      end
  | t => free (r <- parse_token g (fun _ _ _ => Panic PFuel) t i ;; Ok (match r with Some _ => true | None => false end))
  end.
(** parser/src/math_parser.rs:83-122, 177-196, pratt_parser.rs:603-620: whether one of several rules or
    operators can be parsed. The spaces and scripts after the token cannot fail, build nothing, and are
    given back, so they are left out. *)
Fixpoint ccan_any (tokens : list TokenParser) (i : Input) : Counted bool :=
  match tokens with
  | [] => free (Ok false)
  | t :: tokens => cor_else (ccan_token t (skip_spaces i)) (ccan_any tokens i)
  end.
(** parser/src/math_parser.rs:239-243 *)
Definition ccan_prefix := ccan_any (map op_token (prefix_ops g)).
(** parser/src/math_parser.rs:239-243 *)
Definition ccan_infix := ccan_any (map op_token (infix_ops g)).
(** parser/src/math_parser.rs:239-243 *)
Definition ccan_postfix := ccan_any (map op_token (postfix_ops g)).
(** parser/src/math_parser.rs:239-243 *)
Definition ccan_atom := ccan_any (map snd (atom_rules g)).
(** pratt_parser.rs:224-244 *)
Fixpoint cunknown_loop (e : Ending) (node : SyntaxNode) (pos : nat) (l : InputRow) : Counted (SyntaxNode * Input) :=
  stop <+ (if is_at_end e (pos, l) then free (Ok true)
           else cor_else (ccan_prefix (pos, l)) (cor_else (ccan_atom (pos, l))
                (cor_else (ccan_infix (pos, l)) (ccan_postfix (pos, l))))) ;;
  if stop then free (Ok (node, (pos, l)))
  else match l with
       | [] => free (Panic PUnwrap)
       | n :: r =>
           next <+ free (unknown_token pos n) ;;
           node <+ free (missing_operator node next) ;;
           cunknown_loop e node (S pos) r
       end.
(** pratt_parser.rs:215-246 *)
Definition cparse_unknown (e : Ending) (i : Input) : Counted (SyntaxNode * Input) :=
  match snd i with
  | [] => free (Panic PUnwrap)
  | n :: r => node <+ free (unknown_token (fst i) n) ;; cunknown_loop e node (S (fst i)) r
  end.
(** pratt_parser.rs:284-314 *)
Definition cpratt_first (e : Ending) (i : Input) : Counted (PrattResult * Input) :=
  if at_end i then free (n <- missing_token (fst i) ;; Ok ((true, n), i))
  else
    p <+ cparse_prefix i ;;
    match p with
    | Some ((value, op), i1) =>
        ' ((ended, rhs), i2) <+ rec (strength_right (op_power op)) e i1 ;;
        free (n <- build_prefix (op_name op) value rhs ;; Ok ((ended, n), i2))
    | None =>
        a <+ cparse_atom i ;;
        match a with
        | Some (n, i1) => free (Ok ((false, n), i1))
        | None =>
            o <+ cor_else (ccan_infix i) (ccan_postfix i) ;;
            if o : bool then free (n <- missing_token (fst i) ;; Ok ((false, n), i))
            else if is_at_end e i then free (n <- missing_token (fst i) ;; Ok ((true, n), i))
            else ' (n, i1) <+ cparse_unknown e i ;; free (Ok ((false, n), i1))
        end
    end.
(** pratt_parser.rs:316-381 *)
Fixpoint cpratt_loop (fuel : nat) (min : Power) (e : Ending) (lhs : SyntaxNode) (i : Input) : Counted (PrattResult * Input) :=
  match fuel with
  | 0 => free (Panic PFuel)
  | S fuel =>
      if at_end i then free (Ok ((true, lhs), i))
      else
        o <+ cparse_infix i ;;
        match o with
        | Some ((value, op), i1) =>
            if power_ltb (strength_left (op_power op)) min then free (Ok ((false, lhs), i))
            else
              ' ((ended, rhs), i2) <+ rec (strength_right (op_power op)) e i1 ;;
              n <+ free (build_infix (op_name op) value lhs rhs) ;;
              if ended : bool then free (Ok ((true, n), i2)) else cpratt_loop fuel min e n i2
        | None =>
        o <+ cparse_postfix i ;;
        match o with
        | Some ((value, op), i1) =>
            if power_ltb (strength_left (op_power op)) min then free (Ok ((false, lhs), i))
            else n <+ free (build_postfix (op_name op) value lhs) ;; cpratt_loop fuel min e n i1
        | None =>
        o <+ cor_else (ccan_prefix i) (ccan_atom i) ;;
        if o : bool then
          if power_ltb (strength_left missing_operator_power) min then free (Ok ((false, lhs), i))
          else
            ' ((ended, rhs), i2) <+ rec (strength_right missing_operator_power) e i ;;
            n <+ free (missing_operator lhs rhs) ;;
            if ended : bool then free (Ok ((true, n), i2)) else cpratt_loop fuel min e n i2
        else if is_at_end e i then free (Ok ((true, lhs), i))
        else
          ' (rhs, i1) <+ cparse_unknown e i ;;
          n <+ free (missing_operator lhs rhs) ;;
          cpratt_loop fuel min e n i1
        end
        end
  end.
(** pratt_parser.rs:278-382 *)
Definition cpratt_step (min : Power) (e : Ending) (i : Input) : Counted (PrattResult * Input) :=
  ' ((ended, lhs), i1) <+ cpratt_first e i ;;
  if ended : bool then free (Ok ((true, lhs), i1)) else cpratt_loop (S (length (snd i1))) min e lhs i1.
End Step.

(** pratt_parser.rs:278-382; every call counts *)
Fixpoint cpratt_parse (g : Grammar) (fuel : nat) (min : Power) (e : Ending) (i : Input) : Counted (PrattResult * Input) :=
  match fuel with
  | 0 => free (Panic PFuel)
  | S fuel => let (k, r) := cpratt_step g (cpratt_parse g fuel) min e i in (S k, r)
  end.
(** parser/src/parser.rs:42-52 *)
Definition cparse (g : Grammar) (doc : InputRow) : Counted SyntaxNode := cparse_row_with (cpratt_parse g (S (row_size doc))) doc.
(** Model only: the number of calls of [pratt_parse] in parsing a document *)
Definition calls (g : Grammar) (doc : InputRow) : nat := fst (cparse g doc).
