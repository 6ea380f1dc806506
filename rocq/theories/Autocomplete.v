(** Model of parser/src/autocomplete.rs, parser/src/parser.rs ([matches]),
    caret/src/autocomplete.rs and [AutocompleteState] of caret/src/math_editor.rs. *)
From Verif Require Import Base Str Grid Node Focus Edit Caret.
Set Implicit Arguments.

(** parser/src/autocomplete.rs:10-15 *)
Record AutocompleteRule := mkRule { rule_parser : str; rule_result : list InputNode }.

(** parser/src/autocomplete.rs:35-42 *)
Record RuleMatch := mkMatch {
  m_rule : AutocompleteRule; m_rule_match_length : nat; m_input_match_length : nat }.

(** parser/src/autocomplete.rs:45-47 *)
Definition is_complete_match (m : RuleMatch) : bool :=
  m_rule_match_length m =? byte_len (rule_parser (m_rule m)).

(** parser/src/autocomplete.rs:73-81.  Every iteration increases [i] by at least
    one, so [byte_len haystack + 2] iterations are enough. *)
Fixpoint indices_of_fuel (fuel : nat) (needle haystack : str) (i : nat) : Res (list nat) :=
  match fuel with
  | 0 => Panic PFuel
  | S fuel =>
      s <- slice_from haystack i ;;
      match find s needle with
      | None => Ok []
      | Some v =>
          let index := v + i in
          rest <- indices_of_fuel fuel needle haystack (index + 1) ;;
          Ok (index :: rest)
      end
  end.
(** parser/src/autocomplete.rs:73-81 *)
Definition indices_of (needle haystack : str) : Res (list nat) :=
  indices_of_fuel (byte_len haystack + 2) needle haystack 0.

(** parser/src/autocomplete.rs:107-119: walks backwards over the symbols; returns
    [parser_current_index] and [symbol_count] *)
Fixpoint match_back (parser : str) (input_reverse : list InputNode) (cur count : nat) : Res (nat * nat) :=
  match input_reverse with
  | Symbol symbol :: rest =>
      p <- slice_to parser cur ;;
      if ends_with p symbol then match_back parser rest (cur - byte_len symbol) (count + 1)
      else Ok (cur, count)
  | _ => Ok (cur, count)
  end.

(** parser/src/autocomplete.rs:106-133: the loop over the potential matches *)
Fixpoint collect_matches (rule : AutocompleteRule) (input_reverse : list InputNode) (min_len : nat)
    (potential : list nat) : Res (list RuleMatch) :=
  match potential with
  | [] => Ok []
  | parser_end_index :: potential =>
      ' (cur, count) <- match_back (rule_parser rule) (skipn 1 input_reverse) parser_end_index 1 ;;
      rest <- collect_matches rule input_reverse min_len potential ;;
      if cur =? 0 then
        if count <? min_len then Ok rest
        else Ok (mkMatch rule (parser_end_index + 1) count :: rest)
      else Ok rest
  end.

(** parser/src/autocomplete.rs:84-136 *)
Definition rule_matches (rule : AutocompleteRule) (input : list InputNode) (caret_position min_len : nat)
  : Res (list RuleMatch) :=
  _ <- assert_ (match rule_parser rule with [] => false | _ => true end) ;;
  input <- slice input 0 caret_position ;;
  let input_reverse := rev input in
  potential <-
    match input_reverse with
    | Symbol s :: _ => indices_of s (rule_parser rule)
    | _ => Ok []
    end ;;
  collect_matches rule input_reverse min_len potential.

(** parser/src/autocomplete.rs:141-152 and parser/src/parser.rs:56-67 *)
Fixpoint rules_matches (rules : list AutocompleteRule) (input : list InputNode) (caret_position min_len : nat)
  : Res (list RuleMatch) :=
  match rules with
  | [] => Ok []
  | r :: rules =>
      a <- rule_matches r input caret_position min_len ;;
      b <- rules_matches rules input caret_position min_len ;;
      Ok (a ++ b)
  end.

(** Derived equality of nodes (node.rs:13) and rules (autocomplete.rs:4). *)
Definition variant_eqb (a b : InputNodeVariant) : bool :=
  match a, b with
  | Fraction, Fraction | RootV, RootV | Sup, Sup | Sub, Sub | Table, Table => true
  | _, _ => false
  end.
(** Model of [==] on vectors (std) *)
Fixpoint list_eqb {A} (eqb : A -> A -> bool) (a b : list A) : bool :=
  match a, b with
  | [], [] => true
  | x :: a, y :: b => eqb x y && list_eqb eqb a b
  | _, _ => false
  end.
(** node.rs:13: derived [PartialEq] *)
Fixpoint node_eqb (a b : InputNode) {struct a} : bool :=
  match a, b with
  | Symbol s, Symbol t => str_eqb s t
  | Container v (mkGrid rows w), Container v' (mkGrid rows' w') =>
      variant_eqb v v' && (w =? w') &&
      (fix rows_eqb (a b : list (list InputNode)) : bool :=
         match a, b with
         | [], [] => true
         | x :: a, y :: b =>
             (fix row_eqb (a b : list InputNode) : bool :=
                match a, b with
                | [], [] => true
                | x :: a, y :: b => node_eqb x y && row_eqb a b
                | _, _ => false
                end) x y && rows_eqb a b
         | _, _ => false
         end) rows rows'
  | _, _ => false
  end.
(** parser/src/autocomplete.rs:9: derived [PartialEq] *)
Definition rule_eqb (a b : AutocompleteRule) : bool :=
  str_eqb (rule_parser a) (rule_parser b) && list_eqb node_eqb (rule_result a) (rule_result b).

(** [Vec::sort] with the ordering of parser/src/autocomplete.rs:56-60: a stable
    sort by ascending [rule_match_length]. *)
Fixpoint insert_match (m : RuleMatch) (l : list RuleMatch) : list RuleMatch :=
  match l with
  | [] => [m]
  | x :: l' => if m_rule_match_length m <=? m_rule_match_length x then m :: l else x :: insert_match m l'
  end.
(** caret/src/math_editor.rs:408-431: sorting the matches, stable as [Vec::sort] *)
Definition sort_matches (l : list RuleMatch) : list RuleMatch := fold_right insert_match [] l.

(** caret/src/autocomplete.rs:32-36 *)
Record AutocompleteResults := mkResults {
  ar_selected : nat; ar_matches : list RuleMatch; ar_position : MinPos }.

(** caret/src/autocomplete.rs:39-50 *)
Definition results_new (selected : nat) (ms : list RuleMatch) (p : MinPos) : Res AutocompleteResults :=
  _ <- assert_ (selected <? length ms) ;; Ok (mkResults selected ms p).
(** caret/src/autocomplete.rs:66-68 *)
Definition get_selected (r : AutocompleteResults) : Res RuleMatch :=
  unwrap (nth_error (ar_matches r) (ar_selected r)).
(** caret/src/autocomplete.rs:70-83.  [matches.len() - 1] cannot underflow: the
    list is not empty. *)
Definition move_selection (r : AutocompleteResults) (d : VerticalDirection) : AutocompleteResults :=
  let s := match d with
           | VUp => if 0 <? ar_selected r then ar_selected r - 1 else ar_selected r
           | VDown => if ar_selected r <? length (ar_matches r) - 1 then ar_selected r + 1 else ar_selected r
           end in
  mkResults s (ar_matches r) (ar_position r).
(** caret/src/autocomplete.rs:85-96 *)
Definition get_caret_range (r : AutocompleteResults) (m : RuleMatch) : MinRange :=
  mkMinRange (mp_row (ar_position r)) (mp_offset (ar_position r))
    (mp_offset (ar_position r) - m_input_match_length m).

(** caret/src/autocomplete.rs:27-30 *)
Record AutocorrectAction := mkAutocorrect { ac_rule : AutocompleteRule; ac_range : MinRange }.
(** caret/src/autocomplete.rs:52-64; the builder is its only field *)
Definition results_start_autocorrect (r : AutocompleteResults) : Res (option AutocorrectAction) :=
  selected <- get_selected r ;;
  if negb (is_complete_match selected) then Ok None
  else Ok (Some (mkAutocorrect (m_rule selected) (get_caret_range r selected))).
(** caret/src/autocomplete.rs:17-22 *)
Definition autocorrect_finish (cfg : Cfg) (a : option AutocorrectAction) (edits : list BasicEdit)
  : Res (option AutocorrectAction) :=
  match a with
  | None => Ok None
  | Some a =>
      r <- range_apply_edits cfg (ac_range a) edits ;;
      Ok (Some (mkAutocorrect (ac_rule a) r))
  end.

(** [iter().position(..)], model of std *)
Fixpoint position {A} (f : A -> bool) (l : list A) : option nat :=
  match l with
  | [] => None
  | x :: l => if f x then Some 0 else option_map S (position f l)
  end.

(** math_editor.rs:408-431; the state is [current_autocomplete] *)
Definition state_get_autocomplete (current : option AutocompleteRule) (ms : list RuleMatch) (p : MinPos)
  : Res (option AutocompleteRule * option AutocompleteResults) :=
  match ms with
  | [] => Ok (None, None)
  | _ =>
      let ms := sort_matches ms in
      let selected_index :=
        match current with
        | Some last_rule =>
            match position (fun m => rule_eqb (m_rule m) last_rule) ms with
            | Some i => i
            | None => 0
            end
        | None => 0
        end in
      let current := option_map m_rule (nth_error ms selected_index) in
      r <- results_new selected_index ms p ;;
      Ok (current, Some r)
  end.
