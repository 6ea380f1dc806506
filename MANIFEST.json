{
 "claims": [
  {
   "property": "C01",
   "status": "proved",
   "theorems": [
    "C01_total_order",
    "C01_positions_complete",
    "C01_positions_nodup",
    "C01_reading_order",
    "C01_focused"
   ],
   "note": "Comparison is a strict total order on all positions; on the positions of a document it is the reading order of the separately defined traversal [positions], which lists each caret position once."
  },
  {
   "property": "C02",
   "status": "proved",
   "theorems": [
    "C02_smallest_range"
   ],
   "note": "For every well-formed document and pair of valid positions."
  },
  {
   "property": "C03",
   "status": "proved",
   "theorems": [
    "C03_insert_exact",
    "C03_other_rows",
    "C03_panics_iff_invalid"
   ],
   "note": "Result and frame; panics exactly for invalid positions."
  },
  {
   "property": "C04",
   "status": "proved",
   "theorems": [
    "C04_delete_exact",
    "C04_other_rows",
    "C04_panics_iff_invalid"
   ],
   "note": "Result and frame; panics exactly for ranges outside of the row."
  },
  {
   "property": "C05",
   "status": "proved",
   "theorems": [
    "C05_edits_invertible",
    "C05_edits_exist"
   ],
   "note": "For every sequence of edit lists produced by remove_range, insert and replace_range (row edits; grid edits are C06/C07)."
  },
  {
   "property": "C06",
   "status": "proved",
   "theorems": [
    "C06_insert_lines",
    "C06_insert_columns",
    "C06_stays_well_formed",
    "C06_moved",
    "C06_only_tables",
    "C06_exact",
    "C06_lines_past",
    "C06_columns_past"
   ],
   "note": "With the exact condition for an insertion to be carried out; an index behind the last line appends, and one behind the last column panics or, without overflow checks, tears the lines apart (C06_columns_past)."
  },
  {
   "property": "C07",
   "status": "partial",
   "theorems": [
    "C07_delete_always_panics",
    "C07_exact",
    "C07_refuted"
   ],
   "note": "The statement is false: no deletion is carried out except that of no lines at all, which changes nothing (C07_exact); every deletion of at least one existing line or column panics (C07_delete_always_panics), in particular the inverse of an insertion (C07_refuted). Nothing of the positive statement is left to prove."
  },
  {
   "property": "C08",
   "status": "partial",
   "theorems": [
    "C08_insert_same_row_partial",
    "C08_delete_same_row_partial",
    "C08_other_rows_partial",
    "C08_range_same_row_partial",
    "C08_range_other_rows_partial",
    "C08_nested_exact_partial",
    "C08_root_row_panics",
    "C08_refuted"
   ],
   "note": "Proved for positions and ranges in the edited row and in rows outside it, and for those inside nodes of the edited row an exact condition. The full statement is false there: C08_root_row_panics, C08_refuted."
  },
  {
   "property": "C09",
   "status": "partial",
   "theorems": [
    "C09_right",
    "C09_left_partial",
    "C09_inverse_partial",
    "C09_left_debug_panics",
    "C09_left_debug_refuted"
   ],
   "note": "Right in every build; Left in release builds, and in debug builds except at the start of the first cell of a container, where it always panics (C09_left_debug_panics, C09_left_debug_refuted; the web package is built with --dev). Missing: nothing else."
  },
  {
   "property": "C10",
   "status": "partial",
   "theorems": [
    "C10_right_visits_all",
    "C10_left_visits_all_partial"
   ],
   "note": "Right in every build, Left in release builds. Missing: Left in debug builds, where it is false (C09_left_debug_panics)."
  },
  {
   "property": "C100",
   "status": "proved",
   "theorems": [
    "C100_content",
    "C100_page"
   ],
   "note": "For every predicate on symbols and containers, for the editor (all operations) and for the element (all events, whatever throws). One-character rules are exempt if no symbol is empty."
  },
  {
   "property": "C101",
   "status": "partial",
   "theorems": [
    "C101_by_hand",
    "C101_refuted",
    "C101_exact",
    "C101_page"
   ],
   "note": "False: fractions, subscripts and superscripts have only the one-character rules /, _ and ^, and a rule is only looked at when two symbols have been typed. C101_refuted: a/b is drawn when it is loaded, but no sequence of events without pasting and loading gives it, for any text segmentation without empty pieces. C101_by_hand: what is entered by hand contains only roots and tables. C101_exact: for the operations of the editor, exactly the documents made of nonempty symbols, roots and tables with one cell can be entered without loading and pasting. C101_page: the same for the events of a page, where each symbol has to be a single piece of text."
  },
  {
   "property": "C102",
   "status": "partial",
   "theorems": [
    "C102_select",
    "C102_replace",
    "C102_refuted"
   ],
   "note": "Refuted inside of lim, limsup and liminf: their inner positions are drawn at the same place, so only the first can be clicked, whatever the layout (C102_refuted). Proved for all other positions; missing are documents in which a row of a container is a script as a whole, and drags that start where autocorrect would apply."
  },
  {
   "property": "C103",
   "status": "proved",
   "theorems": [
    "C103_net",
    "C103_same",
    "C103_nothing",
    "C103_again",
    "C103_page"
   ],
   "note": "For every rule set whose tokens are ASCII, as those of the code are, and documents without empty symbols. C103_page is the same for the events of a page, for all renderers, in whichever portions the keys come and whenever the timers do."
  },
  {
   "property": "C104",
   "status": "proved",
   "theorems": [
    "C104_outline",
    "C104_edit",
    "C104_drawn",
    "C104_drawable"
   ],
   "note": "For all modules with nonempty tokens and a rule for every container (the default modules are such). The theorems about drawing are for the default modules."
  },
  {
   "property": "C11",
   "status": "partial",
   "theorems": [
    "C11_arrows_partial",
    "C11_debug_refuted"
   ],
   "note": "All four directions and arbitrary (also selecting) carets. Missing: debug builds at the start of the first cell of a container, where the statement is false (C11_debug_refuted)."
  },
  {
   "property": "C12",
   "status": "proved",
   "theorems": [
    "C12_vertical",
    "C12_up_determined",
    "C12_down_determined"
   ],
   "note": "Includes termination (the model's fuel never runs out) and determinacy of the specified target."
  },
  {
   "property": "C13",
   "status": "partial",
   "theorems": [
    "C13_typing_partial",
    "C13_selection_asks_no_matcher",
    "C13_exact",
    "C13_refuted"
   ],
   "note": "Exact and total, given that the autocomplete matcher does not panic at the caret (it is not even asked when something is selected); C13_exact: typing works exactly if the matcher does not panic. Refuted in full: after inserting an empty symbol, the matcher panics."
  },
  {
   "property": "C14",
   "status": "partial",
   "theorems": [
    "C14_remove_partial",
    "C14_symbol_removed",
    "C14_exact",
    "C14_refuted"
   ],
   "note": "Proved except for Delete with a completely typed token before the caret and no symbol behind it. There it is refuted: moving into the container autocorrects the token and its symbols are lost. C14_exact: apart from at most one replacement by a rule, the symbol is removed or all symbols are kept, in all cases."
  },
  {
   "property": "C15",
   "status": "proved",
   "theorems": [
    "C15_remove_selection"
   ],
   "note": ""
  },
  {
   "property": "C16",
   "status": "partial",
   "theorems": [
    "C16_undo_restores_partial",
    "C16_exact",
    "C16_refuted"
   ],
   "note": "Document and history always; the caret unless the operation only moves and thereby autocorrects. Refuted in that case: undo restores the caret from after the movement. C16_exact says for every operation which caret is restored."
  },
  {
   "property": "C17",
   "status": "proved",
   "theorems": [
    "C17_linear_history",
    "C17_undo_redo_total"
   ],
   "note": ""
  },
  {
   "property": "C18",
   "status": "proved",
   "theorems": [
    "C18_undo_redo",
    "C18_redo_undo",
    "C18_undo_everything",
    "C18_nothing_to_undo"
   ],
   "note": ""
  },
  {
   "property": "C19",
   "status": "partial",
   "theorems": [
    "C19_caret_partial",
    "C19_page",
    "C19_lost",
    "C19_refuted"
   ],
   "note": "For every sequence of operations meeting keeps_caret the caret stays valid and get_caret succeeds; three public-API runs that lose the caret are proved for the rest. C19_page: in a connected element the caret is valid after all events as long as no handler throws, without any other condition. C19_lost: what a lost caret means for every operation (all that ask for it panic; selecting all repairs it)."
  },
  {
   "property": "C20",
   "status": "partial",
   "theorems": [
    "C20_no_panic_partial",
    "C20_exact",
    "C20_run_exact",
    "C20_refuted",
    "C20_overflow_refuted"
   ],
   "note": "Totality of every operation under keeps_caret and avoids_panic (C20_no_panic_partial). C20_exact and C20_run_exact: in the states that such runs reach, an operation succeeds exactly if works holds, and a whole run exactly if works holds all along; so the operations that panic are completely listed (unfinished todo!() operations, overflow in the dev build the repo ships). Refuted without these conditions."
  },
  {
   "property": "C21",
   "status": "proved",
   "theorems": [
    "C21_syntax_tree_current"
   ],
   "note": "For every parse function; a panic of the parser is passed on."
  },
  {
   "property": "C22",
   "status": "proved",
   "theorems": [
    "C22_selection"
   ],
   "note": ""
  },
  {
   "property": "C23",
   "status": "partial",
   "theorems": [
    "C23_corners_partial",
    "C23_exact",
    "C23_refuted"
   ],
   "note": "Corners are proved to be those of the first and last cell in reading order, independent of the drag direction; C23_exact: they are the bounding rectangle exactly if the columns are ordered like the cells. The full statement is false for the other diagonal (C23_refuted)."
  },
  {
   "property": "C24",
   "status": "partial",
   "theorems": [
    "C24_match_sound_partial",
    "C24_exact",
    "C24_complete",
    "C24_refuted",
    "C24_rule_set",
    "C24_bytes"
   ],
   "note": "Every reported match is one: the last input_match_length nodes before the caret are symbols spelling a prefix of the rule's text, and a match reported complete covers the entire text. C24_exact says exactly which matches are reported, in which order and with which numbers, C24_complete which are taken for complete. False: rule_match_length is the start of the last symbol plus 1, so it is wrong (and completeness missed) if the last symbol is longer than one byte (C24_refuted)."
  },
  {
   "property": "C25",
   "status": "partial",
   "theorems": [
    "C25_match_complete_partial",
    "C25_ascii_rules_partial",
    "C25_ascii_rules_total_partial",
    "C25_default_rules_ascii",
    "C25_panics_exact",
    "C25_refuted",
    "C25_empty_symbol_refuted",
    "C25_empty_needle_refuted"
   ],
   "note": "Proved whenever the last symbol starts with an ASCII character and the matched symbols are not preceded by an empty symbol; for ASCII rule sets such as the default one only the condition on empty symbols remains. C25_panics_exact says exactly when the matcher panics. Refuted otherwise: non-ASCII rule text makes the matcher slice inside a character, empty symbols are counted or make it panic."
  },
  {
   "property": "C26",
   "status": "proved",
   "theorems": [
    "C26_popup_shown",
    "C26_popup_total",
    "C26_move_selection"
   ],
   "note": ""
  },
  {
   "property": "C27",
   "status": "partial",
   "theorems": [
    "C27_accept_completion_partial",
    "C27_refuted"
   ],
   "note": "All but the validity of the caret afterwards, for which the exact condition is proved. Refuted: after accepting sum the caret is behind the end of the row and get_caret panics."
  },
  {
   "property": "C28",
   "status": "partial",
   "theorems": [
    "C28_exact",
    "C28_leave_token_partial",
    "C28_refuted",
    "C28_panics_refuted"
   ],
   "note": "C28_exact says for arrow keys, clicks and those uses of Delete that only move the caret which tokens are kept, which are corrected and which make the code panic; the three cases are all. Refuted: a token at the start of a row is not corrected, a token further back than its own length panics."
  },
  {
   "property": "C29",
   "status": "partial",
   "theorems": [
    "C29_text_partial",
    "C29_copy_paste_partial",
    "C29_deep",
    "C29_refuted"
   ],
   "note": "Exact for all selections with at most 20 nested containers (C29_text_partial, C29_copy_paste_partial), false beyond: serde_json refuses to read back deeper text (C29_deep for all, C29_refuted by a run). serde_json is modelled from its documented behaviour. A completed token before the caret is excluded only if one of the documents is not well-formed."
  },
  {
   "property": "C30",
   "status": "partial",
   "theorems": [
    "C30_rejected",
    "C30_well_formed_partial",
    "C30_unchecked",
    "C30_ill_formed",
    "C30_refuted"
   ],
   "note": "Undecodable text changes nothing (C30_rejected); well-formed nodes keep the document well-formed (C30_well_formed_partial). Ill-formed nodes are accepted unchecked (C30_unchecked, C30_ill_formed) and later operations panic (C30_refuted)."
  },
  {
   "property": "C31",
   "status": "proved",
   "theorems": [
    "C31_injective",
    "C31_total"
   ],
   "note": "Printing is injective on all documents and defined on all well-formed ones."
  },
  {
   "property": "C32",
   "status": "partial",
   "theorems": [
    "C32_stable",
    "C32_returned",
    "C32_known",
    "C32_inverse_partial",
    "C32_refuted"
   ],
   "note": "Ids are stable, returned and known for all sequences; one to one up to 2^32 different names (C32_inverse_partial), not beyond, where len() as u32 wraps (C32_refuted)."
  },
  {
   "property": "C33",
   "status": "proved",
   "theorems": [
    "C33_tiling",
    "C33_text"
   ],
   "note": "For every module collection without empty tokens and with a rule for every container (the default one is shown to be such). covers: children tile their parent, leaves are symbols and spell them, new rows cover the cells of a container in a grid of the same width."
  },
  {
   "property": "C34",
   "status": "proved",
   "theorems": [
    "C34_total",
    "C34_all_grammars",
    "C34_fuel",
    "C34_containers_needed"
   ],
   "note": "For the default modules with any XID tables, and for all module collections with the two hypotheses above; C34_containers_needed shows that the second is needed. chumsky's combinators are modelled by their documented behaviour; stack overflow and running time are not modelled."
  },
  {
   "property": "C35",
   "status": "proved",
   "theorems": [
    "C35_respected",
    "C35_rows",
    "C35_brackets",
    "C35_unique",
    "C35_complete",
    "C35_round_trip",
    "C35_left_chain",
    "C35_right_chain"
   ],
   "note": "For every grammar whose tokens are not empty and every well-formed row: the tree is built from the tokens of the row and respects the binding powers, there is exactly one such tree, and any such tree of the tokens is what parsing returns. The same for every row of every container and for the contents of every bracket. Chains nest as prescribed. Writing an expression and parsing it returns it, for all unambiguous tables of single-symbol tokens; for tables with longer tokens the tokens are part of the statement (C35_complete), because symbols can then be split in several ways."
  },
  {
   "property": "C36",
   "status": "proved",
   "theorems": [
    "C36_walk_down",
    "C36_down_up",
    "C36_minimal_round_trip"
   ],
   "note": ""
  },
  {
   "property": "C37",
   "status": "proved",
   "theorems": [
    "C37_index_round_trip",
    "C37_get",
    "C37_set",
    "C37_set_outside"
   ],
   "note": ""
  },
  {
   "property": "C38",
   "status": "partial",
   "theorems": [
    "C38_whole_lines_partial",
    "C38_exact",
    "C38_refuted"
   ],
   "note": "Proved for rectangles made of whole lines; C38_exact: the view shows the rectangle exactly if its first cell begins a line and its last one ends one. False for narrower rectangles (C38_refuted)."
  },
  {
   "property": "C39",
   "status": "partial",
   "theorems": [
    "C39_extends_partial",
    "C39_shrinks_partial",
    "C39_container",
    "C39_reaches_edge_partial",
    "C39_refuted",
    "C39_table_refuted"
   ],
   "note": "Extending always adds the next position, shrinking over a symbol removes it, repeating reaches the document edge within |positions| presses. Shrinking over a container (C39_container, all cases): it goes on inside if the selection started in the first cell that is met; in another cell of a table it selects cells and the next press panics; otherwise the selection never changes again (so the statement is refuted), however often the key is pressed."
  },
  {
   "property": "C40",
   "status": "partial",
   "theorems": [
    "C40_unchanged_partial",
    "C40_exact",
    "C40_refuted"
   ],
   "note": "For all operations that do not replace nodes by as many nodes. Refuted: inserting nothing or removing an empty range records an undo step and discards the redo history. C40_exact: exactly which operations are recorded although nothing changed."
  },
  {
   "property": "C41",
   "status": "proved",
   "theorems": [
    "C41_passive"
   ],
   "note": ""
  },
  {
   "property": "C42",
   "status": "partial",
   "theorems": [
    "C42_splice_partial",
    "C42_splice_any_partial",
    "C42_exact",
    "C42_refuted"
   ],
   "note": "Proved unless the range is in the root row and an end of the caret in a nested one; C42_exact: exactly then it panics (refuted). Any splice that does not panic has the stated effect."
  },
  {
   "property": "C43",
   "status": "proved",
   "theorems": [
    "C43_rows_found",
    "C43_rows_parsed",
    "C43_grid_size"
   ],
   "note": "getNodeWithRowIndices of src/core/index.ts is modelled with its assertions. The tree found at a row is moreover the one that parsing the row on its own returns."
  },
  {
   "property": "C44",
   "status": "partial",
   "theorems": [
    "C44_edge_partial",
    "C44_refuted"
   ],
   "note": "Proved without overflow checks; refuted with them (and the web package is built with them): the editor panics."
  },
  {
   "property": "C45",
   "status": "proved",
   "theorems": [
    "C45_stack_pair",
    "C45_inverse"
   ],
   "note": ""
  },
  {
   "property": "C46",
   "status": "proved",
   "theorems": [
    "C46_wf_preserved",
    "C46_layout_kept"
   ],
   "note": "Row edits; variant, width and number of cells of every container not deleted are kept."
  },
  {
   "property": "C47",
   "status": "partial",
   "theorems": [
    "C47_selection_arrows_partial"
   ],
   "note": "Full for Right, Up and Down; for Left in builds with overflow checks only if the left end is not the start of the first cell of a container (there the code panics, C09_left_debug_panics)."
  },
  {
   "property": "C48",
   "status": "partial",
   "theorems": [
    "C48_reach_every_entry_partial",
    "C48_keys",
    "C48_exact",
    "C48_refuted"
   ],
   "note": "Proved if no rule occurs twice in the popup; refuted otherwise: after typing 'infin' with the default rules no number of Down presses selects the last entry. C48_keys says where any keys lead in any popup, C48_exact exactly which entries can be selected."
  },
  {
   "property": "C49",
   "status": "partial",
   "theorems": [
    "C49_typed_rule_offered_partial",
    "C49_popup",
    "C49_exact",
    "C49_refuted"
   ],
   "note": "Proved for ASCII rule sets, rules of at least two characters and no empty symbol in front of them; C49_popup: exactly what the list contains; C49_exact: a typed rule is offered exactly if it has at least two characters. Refuted for one-character rules: '^', '_' and '/' of the default rules are never offered."
  },
  {
   "property": "C50",
   "status": "partial",
   "theorems": [
    "C50_drawn_partial",
    "C50_necessary",
    "C50_spaces_partial",
    "C50_spaces_necessary",
    "C50_exact",
    "C50_refuted",
    "C50_all"
   ],
   "note": "Refuted: a space after a sub- or superscript (x^2 followed by a space), or spaces before one at the start of a row, make the renderer throw. C50_exact characterises the documents that are drawn: no space after a script, and spaces before a script only after a container or a symbol that is a token on its own. C50_all characterises them all: a document is drawn if and only if fractions and roots have two cells, no space comes after a script, and where spaces come before a script a token of the syntax tree of the row ends before the spaces. Nothing is left open; the full statement is false."
  },
  {
   "property": "C51",
   "status": "proved",
   "theorems": [
    "C51_renderers",
    "C51_default"
   ],
   "note": "For all grammars that contain the built-in names; the default modules meet the hypotheses."
  },
  {
   "property": "C52",
   "status": "proved",
   "theorems": [
    "C52_rows"
   ],
   "note": ""
  },
  {
   "property": "C53",
   "status": "partial",
   "theorems": [
    "C53_total",
    "C53_exact",
    "C53_distinct_partial",
    "C53_refuted"
   ],
   "note": "The caret is drawn for every position. C53_exact: two positions of a row are drawn at the same place exactly if both are inside of the same 'lim', 'limsup' or 'liminf' of its tree; in particular never if no row contains the symbols of 'lim' (C53_distinct_partial). Refuted for 'lim', whose second and third position coincide."
  },
  {
   "property": "C54",
   "status": "partial",
   "theorems": [
    "C54_click_partial",
    "C54_refuted",
    "C54_exact",
    "C54_reported",
    "C54_wrong"
   ],
   "note": "Refuted in full: a click on the 2 of x^(y^2), or of y^2 in a numerator, gives a position that does not exist, and the editor then panics. C54_exact says for all documents and all layouts with nested boxes which row a click gives: the row in which the closest place is drawn, with the index of every row repeated that is a script as a whole and whose script is entered. C54_wrong: in every document with such a row there are clicks that give a wrong row. C54_click_partial: without such rows every click, for arbitrary layouts, gives a position of the document."
  },
  {
   "property": "C55",
   "status": "proved",
   "theorems": [
    "C55_valid"
   ],
   "note": ""
  },
  {
   "property": "C56",
   "status": "proved",
   "theorems": [
    "C56_text"
   ],
   "note": "Up to the order of the two rows of a root."
  },
  {
   "property": "C57",
   "status": "proved",
   "theorems": [
    "C57_selection",
    "C57_covers"
   ],
   "note": ""
  },
  {
   "property": "C58",
   "status": "partial",
   "theorems": [
    "C58_throws_partial",
    "C58_only_math",
    "C58_well_formed_partial",
    "C58_symbols",
    "C58_refuted"
   ],
   "note": "Throws exactly if a sub- or superscript without parts is looked at; well-formed exactly if there is no table without cells; both refuted in full by such elements. Symbols and cells proved."
  },
  {
   "property": "C59",
   "status": "partial",
   "theorems": [
    "C59_text_partial",
    "C59_order_partial",
    "C59_exact",
    "C59_refuted"
   ],
   "note": "Proved for documents without mstyle and without text in annotations; refuted by mstyle, whose content is dropped without an error. C59_exact: for all MathML without errors exactly the symbols and their order."
  },
  {
   "property": "C60",
   "status": "partial",
   "theorems": [
    "C60_redraw_partial",
    "C60_events_partial",
    "C60_exact",
    "C60_always",
    "C60_refuted"
   ],
   "note": "Proved for every event that redraws and does not throw, and for all sequences without throwing events and without drags or double clicks that leave a completely typed token. C60_exact: for all sequences without throwing events, the screen shows the document that the last drawing event left, so it is up to date exactly if the document has not changed since (for documents of single characters). C60_always: for all sequences whatsoever the screen shows a document that the editor had. Refuted in general: such a drag changes the document without a redraw, and a throwing renderer leaves the screen as it was."
  },
  {
   "property": "C61",
   "status": "partial",
   "theorems": [
    "C61_total_partial",
    "C61_tidy_partial",
    "C61_exact",
    "C61_refuted"
   ],
   "note": "Proved for all sequences that avoid the operations known to panic and the documents that cannot be drawn (first theorem), or contain no spaces and only fractions and roots with two cells (second theorem, no hypothesis on drawing). C61_exact: after such a sequence, the next event with tidy content that leaves no token behind throws exactly if one of its operations does not work, the pasted text cannot be decoded or the attribute cannot be read. Refuted in general."
  },
  {
   "property": "C62",
   "status": "partial",
   "theorems": [
    "C62_survives_partial",
    "C62_exact",
    "C62_forever",
    "C62_refuted",
    "C62_overflow_refuted"
   ],
   "note": "Proved for the same sequences; a panic is for ever (C62_forever). C62_exact: for all sequences with tidy content that leave no token behind, the editor is still there exactly if all operations worked (works of SpecWorks.v, which lists the panics). Refuted in all builds, and with shorter sequences in builds with overflow checks, such as that of this repository."
  },
  {
   "property": "C63",
   "status": "partial",
   "theorems": [
    "C63_exact",
    "C63_replaces_partial",
    "C63_refuted"
   ],
   "note": "Exactly when: C63_exact shows, for every reached element in the page whose screen shows its document, that the document is replaced and shown if both ends of the caret are in the root row and not behind the end of the new formula, and that the editor is lost in all other cases. So the statement is refuted for the other carets (C63_refuted)."
  },
  {
   "property": "C64",
   "status": "partial",
   "theorems": [
    "C64_refuted"
   ],
   "note": "False for every formula that is loaded into a new element: undo always gives the empty document."
  },
  {
   "property": "C65",
   "status": "proved",
   "theorems": [
    "C65_queue"
   ],
   "note": ""
  },
  {
   "property": "C66",
   "status": "proved",
   "theorems": [
    "C66_reachable",
    "C66_used"
   ],
   "note": "For every sequence of events; moreover only the operations that the element uses (no selecting with Shift, no select all, no popup) lead to the state."
  },
  {
   "property": "C67",
   "status": "proved",
   "theorems": [
    "C67_formulas",
    "C67_brackets",
    "C67_unambiguous",
    "C67_spaces"
   ],
   "note": "All formulas of the grammar in SpecFormula.v, which covers all rules of the default collections except the negation, the typed caret and operands beside each other (C68). What is assumed of is_xid_start and is_xid_continue: they hold of no operator, bracket, quote or space, and no name begins with a digit. Names beginning with lim are not part of the grammar (C68), and a limit whose operand begins with sup or inf has a space or a script after lim."
  },
  {
   "property": "C68",
   "status": "partial",
   "theorems": [
    "C68_not_refuted",
    "C68_names_refuted",
    "C68_caret_refuted",
    "C68_juxtaposition_refuted"
   ],
   "note": "False of the model: ¬a is an infix operator with a missing operand, ^ takes no operand to its right, operands beside each other lack an operator that binds less than all others, and names beginning with lim are split. Every other name is read as one name by C67."
  },
  {
   "property": "C69",
   "status": "proved",
   "theorems": [
    "C69_selected",
    "C69_copied",
    "C69_typed",
    "C69_removed",
    "C69_pasted"
   ],
   "note": "Select all on every editor, with copying, typing, removing and pasting afterwards; typing, removing and pasting for documents that are not empty."
  },
  {
   "property": "C70",
   "status": "proved",
   "theorems": [
    "C70_structure",
    "C70_same",
    "C70_different"
   ],
   "note": "For every document that can be drawn (C50) and all classes of letters without the no-break space and the dotted square, which stand for empty places. Different documents made of single characters and the containers of the constructors are drawn differently."
  },
  {
   "property": "C71",
   "status": "partial",
   "theorems": [
    "C71_join",
    "C71_selections",
    "C71_rectangle",
    "C71_segment_partial",
    "C71_segment_short",
    "C71_segment_refuted",
    "C71_cells",
    "C71_selection"
   ],
   "note": "Over rational numbers, without rounding. Joining, distances to rectangles, joined selections and the rectangles of selections are exact. False: segments shorter than 0.0032 count as their first end; C71_segment_short says so for all of them."
  },
  {
   "property": "C72",
   "status": "partial",
   "theorems": [
    "C72_closest_partial",
    "C72_hit",
    "C72_positions_partial",
    "C72_positions",
    "C72_drawn",
    "C72_outside",
    "C72_boxes",
    "C72_back",
    "C72_every",
    "C72_refuted"
   ],
   "note": "Proved: the position is the closest of all positions in the element that was hit and in all rows inside of it; for clicks outside of the drawing, of all positions; C72_positions and C72_drawn say for all documents which positions a drawing has, and that every position of the document is drawn in its row; C72_back and C72_every say that every position is given by some click, unless it is inside a word like lim or a row is a script alone. False in full: a click on a tall parenthesis next to a fraction."
  },
  {
   "property": "C73",
   "status": "partial",
   "theorems": [
    "C73_insert",
    "C73_remove",
    "C73_take_while",
    "C73_skip_while_partial",
    "C73_skip_while_exact",
    "C73_skip_while_refuted",
    "C73_zip",
    "C73_range",
    "C73_equal",
    "C73_default",
    "C73_group",
    "C73_memoize_partial",
    "C73_memoize_refuted"
   ],
   "note": "Proved for binary insertion, remove, takeWhile, zip, range, equality, default entries and grouping. skipWhile is refuted if all elements satisfy the predicate (C73_skip_while_exact: then and only then, and the array is returned), memoizing if the number of arguments varies, is zero or the first call has only undefined."
  },
  {
   "property": "C74",
   "status": "partial",
   "theorems": [
    "C74_read",
    "C74_one_meaning",
    "C74_all_documents_partial",
    "C74_exact",
    "C74_characters",
    "C74_space_refuted"
   ],
   "note": "Reading gives the meaning and the meaning is unique, without restrictions. That every document can be written is false: white space at the beginning or end of a row or beside a container is read as nothing (refuted). C74_exact and C74_characters say exactly which documents can be read."
  },
  {
   "property": "C75",
   "status": "partial",
   "theorems": [
    "C75_copy",
    "C75_cut",
    "C75_cut_paste_partial",
    "C75_cut_paste_refuted"
   ],
   "note": "Copying and cutting in full. Pasting what was cut: missing is content nested more than 20 deep, for which it is false (refuted by a run), and tables wider than 2^32-1 columns."
  },
  {
   "property": "C76",
   "status": "partial",
   "theorems": [
    "C76_always",
    "C76_selection",
    "C76_one_step",
    "C76_redo_selection",
    "C76_redo_selection_refuted",
    "C76_undone_partial",
    "C76_typing"
   ],
   "note": "C76_always is for all states and events, also those whose handlers fail; C76_selection adds the selection after typing, pasting and setting the attribute. C76_one_step: if one step was recorded from a valid caret, the undo key does not lose the editor. Redo gives back the selection after typing and pasting (C76_redo_selection), but not always (C76_redo_selection_refuted). Missing is only that the editor is not lost while undoing several steps (see C62), which C76_undone_partial gives for runs in which nothing known to fail happens. Typing is exact in all states."
  },
  {
   "property": "C77",
   "status": "partial",
   "theorems": [
    "C77_drag_partial",
    "C77_type_partial",
    "C77_drag_refuted"
   ],
   "note": "Missing: completely typed tokens before the caret or where the button is pressed (refuted by a run), rows that are a script and nothing else, and runs with events that are known to fail (C61, C62)."
  },
  {
   "property": "C78",
   "status": "partial",
   "theorems": [
    "C78_longest",
    "C78_empty",
    "C78_offset_partial",
    "C78_offset_exact",
    "C78_offset_refuted"
   ],
   "note": "The result is the longest match (the last one of several). Where parsing goes on: only if the last parser is the one taken or ends at the same place (C78_offset_exact); refuted otherwise."
  },
  {
   "property": "C79",
   "status": "proved",
   "theorems": [
    "C79_nothing_done",
    "C79_popup",
    "C79_opened",
    "C79_declined",
    "C79_history",
    "C79_paste",
    "C79_select"
   ],
   "note": ""
  },
  {
   "property": "C80",
   "status": "proved",
   "theorems": [
    "C80_drawn",
    "C80_picture"
   ],
   "note": "For the formulas of C67; documents that are not such formulas are covered by C50, C55, C56 and C70."
  },
  {
   "property": "C81",
   "status": "partial",
   "theorems": [
    "C81_grow_partial",
    "C81_exact",
    "C81_refuted"
   ],
   "note": "False of the model: the brackets of f(a/b) are drawn without the attribute, because the renderer of operators does not pass options on to its children. Proved for all formulas without function application, and that it is false for all others (C81_exact)."
  },
  {
   "property": "C82",
   "status": "proved",
   "theorems": [
    "C82_json",
    "C82_unique",
    "C82_nodes",
    "C82_paste"
   ],
   "note": "The grammar is in SpecJson.v. Values of unknown fields are held to the same grammar and depth, which serde_json does not do when it skips them."
  },
  {
   "property": "C83",
   "status": "partial",
   "theorems": [
    "C83_ignored",
    "C83_refuted"
   ],
   "note": "False: the version is not looked at (C83_ignored for all versions, C83_refuted with a text)."
  },
  {
   "property": "C84",
   "status": "proved",
   "theorems": [
    "C84_calls",
    "C84_memory"
   ],
   "note": "For all states of the element with an editor; the calls are given as a function of the event, the screen and what is remembered."
  },
  {
   "property": "C85",
   "status": "proved",
   "theorems": [
    "C85_released"
   ],
   "note": "For all sequences of events, whether or not their handlers throw."
  },
  {
   "property": "C86",
   "status": "partial",
   "theorems": [
    "C86_counted",
    "C86_refuted",
    "C86_brackets",
    "C86_brackets_typed",
    "C86_bound",
    "C86_partial",
    "C86_formula",
    "C86_steady_partial",
    "C86_formula_refuted"
   ],
   "note": "Refuted: no polynomial bounds the calls; exactly 3^n for n opening brackets, which can be typed. Proved: at most 9^size for every document; at most 2*size+1 for every document without opening brackets and without scripts after infix operators, however fractions, roots, tables and scripts are nested; and the exact number for every formula as it is taught, which is linear unless an infix operator with scripts follows a waiting operator, and exponential for nested ones (C86_formula_refuted). Look-ahead is counted in chumsky's check mode (containers are not entered), and the parse is proved to be the one of the editor."
  },
  {
   "property": "C87",
   "status": "proved",
   "theorems": [
    "C87_default",
    "C87_any"
   ],
   "note": "For all histories of the library and all lists of modules; the condition for drawing is the one of C50."
  },
  {
   "property": "C88",
   "status": "partial",
   "theorems": [
    "C88_used",
    "C88_order",
    "C88_letters_needed",
    "C88_completions",
    "C88_popup",
    "C88_session_partial",
    "C88_refuted"
   ],
   "note": "Trees do not depend on the order, on repetitions or on unused modules if the letters do not start other tokens (needed: C88_letters_needed). Completions are the same up to order in general, and in the same order, also over whole sessions, if no symbol is empty; refuted with an empty symbol."
  },
  {
   "property": "C89",
   "status": "partial",
   "theorems": [
    "C89_exact",
    "C89_taken",
    "C89_refuted"
   ],
   "note": "Refuted: the exact condition is that every object is given once and was not given away, so the objects in MathModules that the default parser took can never be used again."
  },
  {
   "property": "C90",
   "status": "proved",
   "theorems": [
    "C90_row",
    "C90_cells",
    "C90_total",
    "C90_direction_refuted"
   ],
   "note": "Over rational numbers. What the browser measures is a parameter; that an absolute element is put at its offset from its containing element, plus its margin, is assumed. Letters written from right to left are outside the statement: C90_direction_refuted."
  },
  {
   "property": "C91",
   "status": "partial",
   "theorems": [
    "C91_read_partial",
    "C91_exactly",
    "C91_refuted",
    "C91_space_refuted",
    "C91_text_refuted"
   ],
   "note": "The full statement is false: C91_refuted (a fraction is read with two more symbols and two complaints), C91_space_refuted, C91_text_refuted. C91_read_partial says exactly what is read for documents without spaces, quotes and unknown symbols; C91_exactly: these are read as they were if and only if they contain no container."
  },
  {
   "property": "C92",
   "status": "partial",
   "theorems": [
    "C92_page",
    "C92_undo_refuted",
    "C92_table_refuted"
   ],
   "note": "Proved for all pages (C92_page), with what undoing does. Refuted: undoing twice removes the formula; a table without cells leaves an editor that does not work. Simplified: writing and parsing HTML gives the same elements."
  },
  {
   "property": "C93",
   "status": "partial",
   "theorems": [
    "C93_dissolves_partial",
    "C93_moves_partial",
    "C93_token",
    "C93_token_dissolves_partial",
    "C93_token_elsewhere",
    "C93_refuted",
    "C93_underflows"
   ],
   "note": "Next to a symbol: C14_symbol_removed. With a completely typed token in front of the caret Delete that only moves has the three outcomes of C28_exact (C93_token); dissolving a container ignores the token or panics (C93_token_dissolves_partial), except in a row of another container of a different index: there the code looks for the token at a wrong place and panics, corrects the text there, or dissolves the container as it should, exactly when said in C93_token_elsewhere. So the statement is false: Delete at the end of one fraction can correct a word in another (C93_refuted). With overflow checks Backspace in a first cell that does not dissolve panics (C93_underflows), and so do both keys at the ends of the document (C44_edge_partial)."
  },
  {
   "property": "C94",
   "status": "proved",
   "theorems": [
    "C94_empties",
    "C94_two_cells_refuted"
   ],
   "note": "For every environment whose rules are ASCII (the default rules are), in both profiles. C94_two_cells_refuted shows that the condition on scripts is needed."
  },
  {
   "property": "C95",
   "status": "proved",
   "theorems": [
    "C95_text_field"
   ],
   "note": "Refinement to a text field with undo. Hypotheses: rules of ASCII letters (the built-in ones are), no empty symbols typed, and no completely typed token is left (what happens then is C28_exact). The field says nothing about Backspace and Delete at the ends of the row and about leaving the row."
  },
  {
   "property": "C96",
   "status": "proved",
   "theorems": [
    "C96_text_field",
    "C96_new",
    "C96_click",
    "C96_cut_nothing"
   ],
   "note": "a refinement of a text field with waiting keys, mouse button and clipboard; new content set from outside and pasted containers leave the field"
  },
  {
   "property": "C97",
   "status": "proved",
   "theorems": [
    "C97_marked"
   ],
   "note": "Exact: which elements are marked, for all documents that can be drawn. That the script of a row that is a script as a whole counts as a row is the cause of the wrong clicks of C54."
  },
  {
   "property": "C98",
   "status": "proved",
   "theorems": [
    "C98_rules"
   ],
   "note": "All operations but those on the list of suggestions, all states and rules."
  },
  {
   "property": "C99",
   "status": "proved",
   "theorems": [
    "C99_typed",
    "C99_loaded"
   ],
   "note": "C99_typed: formulas made of symbols, typed by keys in any portions with corrections by Backspace into a new element, with timers at any time. C99_loaded: all conventional formulas that can be drawn, set as any MathML that means them, if the caret is where it can be in the new document. Spelled and conventional are the grammar of C67, picture is that of C80."
  }
 ]
}
