(** The tests of the repository, run on the model. These are checks of the model and no proofs of properties; those of
    parser/tests/parser_test.rs are in [PropsParse]. *)
From Coq Require Import String.
From Verif Require Import Base Str Grid Node Focus Edit Caret Autocomplete Rules Print NameMap Syntax Pratt Grammar SyntaxPrint Spec Samples PropsParse.
Open Scope list_scope.
Open Scope nat_scope.

(** * parser/tests/autocomplete_tests.rs *)
Definition test_rules : list AutocompleteRule := [
  mkRule (lit "/") [fraction [] []]; mkRule (lit "sqrt") [root [] []]; mkRule (lit "^") [sup []]; mkRule (lit "infinity") [Symbol [8734%N]];
  mkRule (lit "lim") (typed "lim"); mkRule (lit "limsup") (typed "limsup"); mkRule (lit "liminf") (typed "liminf"); mkRule (lit "sum") [Symbol [8721%N]];
  mkRule (lit "integral") [Symbol [8747%N]]; mkRule (lit "integrate") [Symbol [8747%N]] ].
Definition test_matches (input : string) (min_len : nat) : Res (list (nat * nat)) :=
  l <- rules_matches test_rules (typed input) (List.length (typed input)) min_len ;; Ok (map (fun m => (m_input_match_length m, m_rule_match_length m)) l).
Definition count (r : Res (list (nat * nat))) : option nat := match r with Ok l => Some (List.length l) | Panic _ => None end.
Example test_autocomplete : count (test_matches "li" 0) = Some 6.
Proof. vm_compute. reflexivity. Qed.
Example test_autocomplete_empty : count (test_matches "" 0) = Some 0.
Proof. vm_compute. reflexivity. Qed.
Example test_autocomplete_full_match : count (test_matches "lim" 0) = Some 3.
Proof. vm_compute. reflexivity. Qed.
Example test_autocomplete_single_match : test_matches "limsu" 5 = Ok [(5, 5)].
Proof. vm_compute. reflexivity. Qed.
Example test_autocomplete_standard_symbol_match : count (test_matches "ligm" 0) = Some 0.
Proof. vm_compute. reflexivity. Qed.
Example test_autocomplete_no_match_followed_by_match : count (test_matches "clilim" 0) = Some 3.
Proof. vm_compute. reflexivity. Qed.
Example test_autocomplete_match_followed_by_autocomplete_match : count (test_matches "limlim" 0) = Some 3.
Proof. vm_compute. reflexivity. Qed.

(** * parser/tests/parser_error_tests.rs: these only have to return *)
Example test_parser_missing_atom_after_prefix : exists s, printed (typed "-") = Ok s.
Proof. eexists. vm_compute. reflexivity. Qed.
Example test_parser_missing_atom_after_infix : exists s, printed (typed "a+") = Ok s.
Proof. eexists. vm_compute. reflexivity. Qed.
Example test_parser_symbol_and_close_bracket : exists s, printed (typed "a)") = Ok s.
Proof. eexists. vm_compute. reflexivity. Qed.
Example test_parser_close_bracket : exists s, printed (typed ")") = Ok s.
Proof. eexists. vm_compute. reflexivity. Qed.

(** * input_tree/tests/edit_tests.rs *)
Example insert_into_empty : forall cfg, tree_apply_edit cfg [] (ERow (mkRowEdit Insert (mkMinPos [] 0) [sym "b"])) = Ok [sym "b"].
Proof. intros cfg. vm_compute. reflexivity. Qed.
Example insert_into_non_empty : forall cfg, tree_apply_edit cfg [sym "a"; sub [sym "1"]] (ERow (mkRowEdit Insert (mkMinPos [] 1) [sym "x"])) = Ok [sym "a"; sym "x"; sub [sym "1"]].
Proof. intros cfg. vm_compute. reflexivity. Qed.
Example delete_nested : tree_apply_edit debug_profile [sym "a"; sub (typed "--1")] (ERow (mkRowEdit Delete (mkMinPos [(1, 0)] 0) (typed "--"))) = Ok [sym "a"; sub [sym "1"]].
Proof. vm_compute. reflexivity. Qed.
Example invert_edit : let e := ERow (mkRowEdit Insert (mkMinPos [] 1) [fraction [sym "b"] [sym "c"]]) in
  tree_apply_edit debug_profile [sym "a"] e = Ok [sym "a"; fraction [sym "b"] [sym "c"]] /\ tree_apply_edits debug_profile [sym "a"] [e; edit_inverse e] = Ok [sym "a"].
Proof. split; vm_compute; reflexivity. Qed.
Example insert_grid_row :
  tree_apply_edit debug_profile [root [sym "2"] [Container Table (mkGrid [[sym "a"]; [sym "b"]; [sym "c"]; [sym "d"]; [sym "e"]; [sym "f"]] 3)]]
    (EGrid (mkGridEdit Insert (mkElementIndices [(0, 1)] 0) GRow 1 (mkGrid [[sym "x"]; [sym "y"]; [sym "z"]] 3))) =
  Ok [root [sym "2"] [Container Table (mkGrid [[sym "a"]; [sym "b"]; [sym "c"]; [sym "x"]; [sym "y"]; [sym "z"]; [sym "d"]; [sym "e"]; [sym "f"]] 3)]].
Proof. vm_compute. reflexivity. Qed.
Example insert_grid_colum :
  tree_apply_edit debug_profile [Container Table (mkGrid [[sym "a"]] 1)] (EGrid (mkGridEdit Insert (mkElementIndices [] 0) GColumn 1 (mkGrid [[sym "x"]] 1))) =
  Ok [Container Table (mkGrid [[sym "a"]; [sym "x"]] 2)].
Proof. vm_compute. reflexivity. Qed.

(** * input_tree/tests/edit_update_range_tests.rs *)
Example insert_expand_cursor : range_apply_edit debug_profile (mkMinRange [] 0 0) (ERow (mkRowEdit Insert (mkMinPos [] 0) [sym "b"])) = Ok (mkMinRange [] 0 1).
Proof. vm_compute. reflexivity. Qed.
Example remove_shrink_cursor_range : range_apply_edit debug_profile (mkMinRange [] 1 4) (ERow (mkRowEdit Delete (mkMinPos [] 0) (typed "a--"))) = Ok (mkMinRange [] 0 1).
Proof. vm_compute. reflexivity. Qed.

(** * input_tree/tests/input_focus_tests.rs *)
Example test_focus_zero : let f := from_root [sym "a"; sub [sym "1"]] in
  List.length (fr_row f) = 2 /\ fr_indices f = [] /\ (r <- focus_row_at f (1, 0) ;; Ok (option_map (fun f => List.length (fr_row f)) r)) = Ok (Some 1).
Proof. split; [|split]; vm_compute; reflexivity. Qed.
Example test_focus_node : option_map fn_node (focus_child_at (from_root [sym "a"; sub [sym "1"]]) 1) = Some (sub [sym "1"]).
Proof. vm_compute. reflexivity. Qed.

(** * input_tree/tests/input_position_tests.rs *)
Example test_positions_ordered : minpos_cmp (mkMinPos [] 0) (mkMinPos [] 1) = Lt /\ minpos_cmp (mkMinPos [] 1) (mkMinPos [] 2) = Lt /\ minpos_cmp (mkMinPos [] 2) (mkMinPos [] 2) = Eq.
Proof. split; [|split]; vm_compute; reflexivity. Qed.
Example test_positions_nested_ordered :
  minpos_cmp (mkMinPos [] 1) (mkMinPos [(1, 0)] 0) = Lt /\ minpos_cmp (mkMinPos [(1, 0)] 0) (mkMinPos [] 1) = Gt /\ minpos_cmp (mkMinPos [(1, 0)] 0) (mkMinPos [] 2) = Lt.
Proof. split; [|split]; vm_compute; reflexivity. Qed.
Example test_positions_in_fractions_ordered : minpos_cmp (mkMinPos [(0, 0)] 1) (mkMinPos [(2, 1)] 0) = Lt.
Proof. vm_compute. reflexivity. Qed.

(** * input_tree/tests/printing_tests.rs *)
Example test_printing : print_row [sym "a"; sub [sym "1"]] = Ok (lit "(row ""a"" (sub 1x1 (row ""1"")))").
Proof. vm_compute. reflexivity. Qed.
Example test_printing_nested_fractions : print_row [sym "a"; sym "+"; fraction (typed "1+2") [fraction [] [root [sym "3"] [sym "3"]; sup [sym "1"]]]] =
  Ok (lit "(row ""a"" ""+"" (frac 1x2 (row ""1"" ""+"" ""2"") (row (frac 1x2 (row) (row (root 2x1 (row ""3"") (row ""3"")) (sup 1x1 (row ""1"")))))))").
Proof. vm_compute. reflexivity. Qed.
Example macro_and_print : print_row [sym "a"; sub [sym "2"]; sym "+"; fraction [sup [sub [sym "b"]]] [root [sym "3"] [sym "3"]; sup [sym "1"]]] =
  Ok (lit "(row ""a"" (sub 1x1 (row ""2"")) ""+"" (frac 1x2 (row (sup 1x1 (row (sub 1x1 (row ""b""))))) (row (root 2x1 (row ""3"") (row ""3"")) (sup 1x1 (row ""1"")))))").
Proof. vm_compute. reflexivity. Qed.

(** * caret/tests/selection_tests.rs *)
Definition selected (doc : InputRow) (s e : MinPos) : Res MinimalCaretSelection :=
  c <- caret_from_minimal doc (mkMinCaret s e) ;; Ok (sel_to_minimal (c_selection c)).
Example test_basic_selection : selected [fraction [sym "a"] [sym "b"]; sym "+"; sym "c"] (mkMinPos [] 0) (mkMinPos [] 2) = Ok (MSelRow (mkMinRange [] 0 2)).
Proof. vm_compute. reflexivity. Qed.
Example test_full_grid_selection :
  (c <- caret_from_minimal [Container Table (mkGrid [typed "ab"; [sym "b"]; [sym "c"]; [sym "d"]] 2)] (mkMinCaret (mkMinPos [(0, 0)] 1) (mkMinPos [(0, 3)] 0)) ;;
   match c_selection c with SelGrid r => a <- gr_top_left r ;; b <- gr_bottom_right r ;; Ok (Some (a, b)) | SelRow _ => Ok None end) = Ok (Some ((0, 0), Some (1, 1))).
Proof. vm_compute. reflexivity. Qed.
Example expand_when_in_child :
  selected [fraction [sym "a"] [sym "b"]; sym "+"; fraction [sym "c"] [sym "d"]] (mkMinPos [(0, 0)] 1) (mkMinPos [(2, 1)] 0) = Ok (MSelRow (mkMinRange [] 0 3)).
Proof. vm_compute. reflexivity. Qed.
