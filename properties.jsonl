{"id": "C01", "title": "Position comparison is a total order that agrees with reading order", "statement": "Comparing caret positions (`<`, `<=`, `cmp`, `==`) is a total order on positions: it is reflexive, antisymmetric with respect to `==`, transitive and total; and for two positions of one document, `a < b` exactly when `a` comes before `b` when the document is read from left to right, entering each container between the offset in front of it and the offset behind it, cell by cell.", "quantifier": "for all pairs and triples of positions, of every nesting depth, in every document", "why_tests_cant": "The comparison mixes path components and offsets of positions at different depths; infinitely many depth combinations and transitivity over triples cannot be enumerated.", "anchors": ["aftermath-core/input_tree/src/row.rs: RowIndices::cmp_indices_and_offset", "aftermath-core/input_tree/src/focus/row_position.rs: Ord/PartialOrd/PartialEq for InputRowPosition"]}
{"id": "C02", "title": "The range spanning two positions is the smallest row range containing both", "statement": "`InputTree::range_from_positions(start, end)` never panics for positions of the tree; the returned range lies on a row of the tree with in-bounds offsets, contains both positions, keeps the direction (swapping the arguments swaps start and end), and every other row range of the document that contains both positions contains it too.", "quantifier": "for all documents and all pairs of valid positions in them", "why_tests_cant": "Positions can be at any two nesting depths and in any relative order; tests only sample a few shapes.", "anchors": ["aftermath-core/input_tree/src/input_tree.rs: InputTree::range_from_positions", "aftermath-core/input_tree/src/row.rs: RowIndices::get_shared", "aftermath-core/input_tree/src/focus/row_range.rs: InputRowRange::new, contains"]}
{"id": "C03", "title": "A row insertion inserts exactly the given nodes and changes nothing else", "statement": "Applying an insert edit at a valid position makes the addressed row equal to its old prefix, then the given nodes, then its old suffix; every row that is not an ancestor-or-self of the addressed row and does not lie to the right of the insertion point keeps its content under the same path, and rows to the right keep their content under the path shifted by the number of inserted nodes. It panics exactly if the position is not in the document.", "quantifier": "for all documents, all positions and all inserted node lists", "why_tests_cant": "The frame condition speaks about every other row of an arbitrary tree.", "anchors": ["aftermath-core/input_tree/src/input_tree.rs: Editable for InputTree (apply_edit)", "aftermath-core/input_tree/src/editing/basic_edit.rs: RowEdit"]}
{"id": "C04", "title": "A row deletion deletes exactly the addressed nodes and changes nothing else", "statement": "Applying a delete edit of n nodes at a valid position removes precisely the n nodes to the right of that position and leaves all other nodes untouched; it panics exactly if the position is not in the document or fewer than n nodes follow it.", "quantifier": "for all documents, all positions and all deletion lengths", "why_tests_cant": "Same as C03: unbounded trees and a frame condition over all other rows.", "anchors": ["aftermath-core/input_tree/src/input_tree.rs: Editable for InputTree (apply_edit)"]}
{"id": "C05", "title": "Edit lists are invertible", "statement": "For every list of row edits produced by `remove_range`, `insert_at_position` and `replace_range` against the current document, applying the list and afterwards the inverses in reverse order restores the document exactly; applying the list again afterwards gives the same result as the first time.", "quantifier": "for all documents, all ranges/positions and all sequences of such edits", "why_tests_cant": "The claim is an algebraic law over unbounded edit sequences.", "anchors": ["aftermath-core/input_tree/src/editing/basic_edit.rs: BasicEdit, Invertible", "aftermath-core/input_tree/src/editing/editable.rs: apply_edits", "aftermath-core/caret/src/primitive/caret_edit.rs: CaretEdit::inverse"]}
{"id": "C06", "title": "Inserting rows or columns into a table puts every cell where it belongs", "statement": "A grid insert edit of rows (columns) at index k of a table enlarges the table by the given rows (columns); cells before k stay, the inserted cells appear at k, cells from k on move down (right) by the inserted amount, and no other part of the document changes.", "quantifier": "for all documents, tables of every size, all insertion indices within the table and all inserted grids of matching size", "why_tests_cant": "Correctness of the flat-array arithmetic must hold for every width, height and index.", "anchors": ["aftermath-core/input_tree/src/input_tree.rs: Editable for InputTree (apply_edit, Grid branch)", "aftermath-core/input_tree/src/editing/basic_edit.rs: GridEdit::new_grid_size", "aftermath-core/input_tree/src/grid.rs"]}
{"id": "C07", "title": "Deleting rows or columns from a table removes exactly those, and undoes the insertion", "statement": "A grid delete edit of rows (columns) at index k removes exactly those rows (columns) of the table; in particular applying a grid insert edit and then its inverse restores the document.", "quantifier": "for all documents, tables of every size, all indices and sizes", "why_tests_cant": "Inverse law over all grids; the existing tests have no deletion of a grid row or column.", "anchors": ["aftermath-core/input_tree/src/input_tree.rs:123-136: Editable for InputTree (apply_edit, Grid Delete branches)", "aftermath-core/input_tree/src/editing/basic_edit.rs: Invertible for GridEdit"]}
{"id": "C08", "title": "Tracked positions and ranges follow their content through edits", "statement": "When an edit is applied to the document and the same edit is applied to a tracked position or range, the tracked position is still valid in the new document and still sits between the same neighbouring nodes (or at the start of the deleted region if its surroundings were deleted); positions in other rows keep denoting the same row.", "quantifier": "for all documents, all row edits valid for them and all valid positions, at every depth relative to the edit", "why_tests_cant": "Needs every relative placement of edit row and tracked row; the tests only cover edits in the same row.", "anchors": ["aftermath-core/input_tree/src/focus/row_range.rs: Editable for MinimalInputRowRange", "aftermath-core/input_tree/src/focus/row_position.rs: Editable for MinimalInputRowPosition"]}
{"id": "C09", "title": "Right moves to the next caret position, Left to the previous one", "statement": "Moving a collapsed caret Right goes to the immediately following caret position of the document in reading order (and nowhere only at the very end); Left goes to the immediately preceding one (and nowhere only at the very start). Hence Left undoes Right and vice versa.", "quantifier": "for all well-formed documents and all caret positions", "why_tests_cant": "A successor property over arbitrary nested documents.", "anchors": ["aftermath-core/caret/src/primitive/movement.rs: NavigationSettings::move_caret_range, move_horizontal_into, move_horizontal_beyond_edge"]}
{"id": "C10", "title": "Pressing Right repeatedly visits every caret position exactly once", "statement": "Starting at the document start, repeatedly moving Right visits every valid caret position of the document exactly once, in reading order, and stops at the document end; the number of steps is the number of valid positions minus one. Symmetrically for Left.", "quantifier": "for all well-formed documents", "why_tests_cant": "A reachability/termination statement over all documents.", "anchors": ["aftermath-core/caret/src/primitive/movement.rs: NavigationSettings::move_caret_range"]}
{"id": "C11", "title": "Arrow keys never panic and always land on a valid position", "statement": "For every well-formed document and valid caret, moving in any of the four directions by character does not panic and yields a valid position of the same document (or reports that no movement is possible).", "quantifier": "for all well-formed documents, valid positions/ranges, directions, and both overflow-check settings of the build", "why_tests_cant": "Panic freedom over all shapes, including first/last cells and the root row.", "anchors": ["aftermath-core/caret/src/primitive/movement.rs", "aftermath-core/input_tree/src/focus.rs: index_in_parent, child_at, parent"]}
{"id": "C12", "title": "Up and Down move by one line of the innermost container that has one", "statement": "Moving Up (Down) from a position goes: out of the enclosing superscript (subscript) to the position in front of it; otherwise to the cell directly above (below) in the same column of the innermost enclosing container that has such a cell, at its end (start); containers without such a cell are left towards their parent; if no enclosing container qualifies the caret does not move. The search always terminates.", "quantifier": "for all well-formed documents and positions of any depth", "why_tests_cant": "The search climbs arbitrarily many levels.", "anchors": ["aftermath-core/caret/src/primitive/movement.rs: move_vertical", "aftermath-core/input_tree/src/grid/index2d.rs: add_checked, sub_checked"]}
{"id": "C13", "title": "Typing replaces the selection by exactly the typed symbols", "statement": "`insert_at_caret(symbols)` with a row selection replaces exactly the selected nodes by one symbol node per string in order, leaves the rest of the document unchanged, and leaves a collapsed caret directly behind the inserted symbols.", "quantifier": "for all editor states with a valid caret whose selection is a row selection, and all symbol lists", "why_tests_cant": "Unbounded documents/selections; frame condition.", "anchors": ["aftermath-core/caret/src/math_editor.rs: insert_at_caret, insert_nodes_at_caret", "aftermath-core/caret/src/primitive/primitive_edit.rs: insert_at_range"]}
{"id": "C14", "title": "Backspace and Delete never lose more than one symbol", "statement": "With a collapsed caret, Backspace (Delete) either removes exactly the symbol to the left (right) of the caret, or keeps the sequence of all symbols of the document unchanged (only unwrapping a container around them or moving the caret). Repeating Backspace therefore can never silently discard the content of a container.", "quantifier": "for all well-formed documents, caret positions and both directions", "why_tests_cant": "Quantifies over every container variant and every nested content.", "anchors": ["aftermath-core/caret/src/primitive/primitive_edit.rs: remove_at_caret, remove_at_caret_position, flatten_node"]}
{"id": "C15", "title": "Deleting a selection removes exactly the selected nodes", "statement": "With a non-collapsed row selection, every remove operation removes exactly the selected nodes, keeps everything else, and leaves a collapsed caret where the selection began.", "quantifier": "for all editor states with a non-collapsed row selection, all remove modes", "why_tests_cant": "Unbounded documents; selections spanning nesting levels get expanded to a common row.", "anchors": ["aftermath-core/caret/src/primitive/primitive_edit.rs: remove_at_caret", "aftermath-core/caret/src/caret.rs: CaretSelection::from_positions", "aftermath-core/input_tree/src/editing/basic_edit.rs: remove_range"]}
{"id": "C16", "title": "Undo restores document and caret of the state before the action", "statement": "After any non-panicking user action in any reachable editor state, calling undo as many times as the action recorded undo steps (0, 1 or 2) does not panic and brings back exactly the document, and if at least one step was recorded exactly the caret, from before the action.", "quantifier": "for all operation histories and all next actions", "why_tests_cant": "Must hold after every history of edits, undos and redos.", "anchors": ["aftermath-core/caret/src/math_editor.rs: undo, apply_action", "aftermath-core/caret/src/undo_redo_manager.rs", "aftermath-core/caret/src/editor_action_builder.rs: finish", "aftermath-core/caret/src/primitive/caret_edit.rs"]}
{"id": "C17", "title": "Undo/redo behave like a linear document history", "statement": "Every run of editor operations behaves, as far as the document is concerned, like a textbook history with a past, a present and a future: undo/redo move one document back/forward, report None exactly if there is nothing to move to, and never panic; any other operation leaves the history alone or appends new documents to the past and discards the future.", "quantifier": "for all finite sequences of public editor operations", "why_tests_cant": "A refinement over unbounded histories.", "anchors": ["aftermath-core/caret/src/math_editor.rs: undo, redo, apply_action", "aftermath-core/caret/src/undo_redo_manager.rs: UndoRedoManager", "aftermath-core/caret/src/editor_action_builder.rs: finish"]}
{"id": "C18", "title": "Redo after undo returns to the same document", "statement": "In every reachable state, a successful undo followed by redo gives back the same document, and a successful redo followed by undo does too; neither panics. Undoing everything returns to the empty document.", "quantifier": "for all operation histories", "why_tests_cant": "Same: unbounded histories, inverse edits must stay applicable after arbitrary interleavings.", "anchors": ["aftermath-core/caret/src/math_editor.rs: undo, redo", "aftermath-core/caret/src/undo_redo_manager.rs"]}
{"id": "C19", "title": "The caret always denotes a valid place in the document", "statement": "After every public editor operation, both ends of the caret are valid positions of the current document, so that asking for the caret or moving it never panics.", "quantifier": "for all operation sequences with valid click positions and well-formed inserted nodes", "why_tests_cant": "Invariant over unbounded histories, including autocomplete and undo/redo interplay.", "anchors": ["aftermath-core/caret/src/math_editor.rs: MathEditor (all public operations), splice_at_range", "aftermath-core/caret/src/editor_action_builder.rs: finish"]}
{"id": "C20", "title": "No editor operation panics on well-formed content", "statement": "Starting from a new editor, no sequence of public operations with valid click positions and well-formed inserted nodes panics.", "quantifier": "for all operation sequences, for the default rule set, both overflow-check settings", "why_tests_cant": "Panic freedom over all histories.", "anchors": ["aftermath-core/caret/src/math_editor.rs: MathEditor", "aftermath-core/caret/src/autocomplete.rs", "aftermath-core/parser/src/autocomplete.rs: AutocompleteMatcher::matches"]}
{"id": "C21", "title": "The syntax tree shown always belongs to the current document", "statement": "`get_syntax_tree` always returns the parse result of the current document, whatever operations happened since the last parse (the cache is never stale).", "quantifier": "for all operation sequences interleaving edits, undo/redo, splices and syntax tree requests", "why_tests_cant": "Cache coherence over unbounded histories.", "anchors": ["aftermath-core/caret/src/math_editor.rs: get_syntax_tree, apply_action", "aftermath-core/caret/src/editor_action_builder.rs: finish"]}
{"id": "C22", "title": "A selection is a table selection exactly when both ends are in different cells of one table", "statement": "The selection reported for two valid positions is a grid selection exactly if both lie in (possibly nested below) different cells of the same table and in no deeper common row; then it names that table. Otherwise it is the row range of C02. Computing it never panics.", "quantifier": "for all documents and pairs of valid positions", "why_tests_cant": "All relative placements of two positions in arbitrary documents.", "anchors": ["aftermath-core/caret/src/caret.rs: CaretSelection::from_positions", "aftermath-core/input_tree/src/focus/grid_range.rs"]}
{"id": "C23", "title": "A table selection is the bounding rectangle of its two cells", "statement": "For a grid selection, `top_left_index` and `bottom_right_index` are the componentwise minimum and maximum of the two cells containing the caret ends, so the selection does not depend on the drag direction and its corners are ordered.", "quantifier": "for all tables and pairs of cells", "why_tests_cant": "All grid sizes and cell pairs.", "anchors": ["aftermath-core/input_tree/src/grid/grid_view.rs: GridRectangle::from_indices_inclusive, start_index, end_index_inclusive", "aftermath-core/input_tree/src/focus/grid_range.rs: top_left_index, bottom_right_index"]}
{"id": "C24", "title": "Every suggested completion really matches the input before the caret", "statement": "For every match returned by the autocomplete matcher, the last `input_match_length` nodes before the caret are symbols and their concatenation is exactly the first `rule_match_length` bytes of the rule's text; a match is complete exactly if that is the entire text.", "quantifier": "for all rules, inputs, caret positions and minimum lengths", "why_tests_cant": "Arbitrary strings and symbol segmentations, repeated letters, overlapping occurrences.", "anchors": ["aftermath-core/parser/src/autocomplete.rs: AutocompleteRule::matches, indices_of, is_complete_match"]}
{"id": "C25", "title": "No possible completion is missed", "statement": "If the last k nodes before the caret are non-empty symbols whose concatenation is a non-empty prefix of a rule's text and k is at least the requested minimum, the matcher reports a match for that rule with `input_match_length` k.", "quantifier": "for all rules, inputs, caret positions, minimum lengths and k", "why_tests_cant": "Completeness of a search over all strings.", "anchors": ["aftermath-core/parser/src/autocomplete.rs: AutocompleteRule::matches, AutocompleteRules::matches"]}
{"id": "C26", "title": "The autocomplete popup always has a valid, stable selection", "statement": "Whenever the popup is shown its selected index is within the list; entries are ordered by matched length; moving the selection changes it by at most one and never leaves the list; the chosen rule stays selected while it is still among the matches.", "quantifier": "for all match lists, previous selections and movement sequences", "why_tests_cant": "Arbitrary lists and interleavings.", "anchors": ["aftermath-core/caret/src/autocomplete.rs: AutocompleteResults", "aftermath-core/caret/src/math_editor.rs: AutocompleteState::get_autocomplete, move_in_autocomplete"]}
{"id": "C27", "title": "Accepting a completion replaces exactly the matched text by the rule's result", "statement": "`finish_autocomplete(true)` with an open popup replaces exactly the matched symbols in front of the caret by the selected rule's result, changes nothing else, can be undone in one step, and leaves the caret at a valid position.", "quantifier": "for all editor states with an open popup and all rule sets", "why_tests_cant": "All rules/results/nesting; caret invariant.", "anchors": ["aftermath-core/caret/src/math_editor.rs: finish_autocomplete, splice_at_range", "aftermath-core/caret/src/autocomplete.rs: get_caret_range"]}
{"id": "C28", "title": "Leaving a completely typed token applies its autocorrection", "statement": "If the text in front of a collapsed caret completely matches the selected rule and an arrow key moves the caret out of it, the matched text is replaced by the rule's result, wherever in the row the token starts, without a panic; otherwise the movement changes nothing in the document.", "quantifier": "for all documents, rules and caret movements", "why_tests_cant": "Depends on token position and length in an arbitrary document.", "anchors": ["aftermath-core/caret/src/math_editor.rs: start_autocorrect, apply_autocorrect", "aftermath-core/caret/src/autocomplete.rs: AutocorrectActionBuilder::finish"]}
{"id": "C29", "title": "Copy then paste inserts an exact copy of the selection", "statement": "The text produced by copy deserializes to exactly the selected nodes, so pasting it inserts an identical copy.", "quantifier": "for all documents and row selections (all symbol strings, all nesting)", "why_tests_cant": "Round trip over arbitrary trees and strings.", "anchors": ["aftermath-core/serialization/src/lib.rs: serialize_input_nodes, deserialize_input_nodes", "aftermath-core/caret/src/math_editor.rs: copy, paste"]}
{"id": "C30", "title": "Pasting arbitrary text is rejected or leaves a well-formed document", "statement": "Pasting any text either returns an error and leaves the document unchanged, or inserts nodes such that the document stays well-formed (every container has a positive width and a whole number of rows), so that later operations do not panic.", "quantifier": "for all pasted texts", "why_tests_cant": "The input space is all strings.", "anchors": ["aftermath-core/serialization/src/lib.rs: deserialize_input_nodes", "aftermath-core/input_tree/src/grid.rs: GridVec (derived Deserialize), from_one_dimensional", "aftermath-core/caret/src/math_editor.rs: paste"]}
{"id": "C31", "title": "The printed form of a document is unambiguous", "statement": "Two well-formed documents with the same `to_string()` are equal: a document can be recovered from its printed form, whatever characters its symbols contain.", "quantifier": "for all pairs of documents", "why_tests_cant": "Injectivity over all trees and strings (quotes, backslashes, parentheses inside symbols).", "anchors": ["aftermath-core/input_tree/src/row.rs: Display for InputRow", "aftermath-core/input_tree/src/node.rs: Display for InputNode", "aftermath-core/input_tree/src/grid.rs: Display for GridVec", "aftermath-core/input_tree/src/print_helpers.rs: write_with_escaped_double_quotes"]}
{"id": "C32", "title": "Node names and node ids correspond one to one", "statement": "In a name map, registering a name returns an id that stays the same forever, equal names get equal ids and different names different ids; looking up by name and by id are inverse to each other.", "quantifier": "for all sequences of registrations", "why_tests_cant": "Invariant over all insertion sequences.", "anchors": ["aftermath-core/parser/src/syntax_tree/node_type_id.rs: SyntaxNodeNameMap"]}
{"id": "C33", "title": "The syntax tree covers the input without gaps or overlaps and loses no character", "statement": "In every syntax tree returned by the parser the range of a node is tiled by the ranges of its children in order, the root covers the whole row, and the leaves read from left to right spell exactly the symbols of the input; nested rows are covered in the same way.", "quantifier": "for all well-formed documents", "why_tests_cant": "Structural property of the output for all inputs, including erroneous ones.", "anchors": ["aftermath-core/parser/src/parser/pratt_parser.rs", "aftermath-core/parser/src/math_parser.rs", "aftermath-core/parser/src/syntax_tree/syntax_node.rs: SyntaxNode::new", "aftermath-core/parser/src/rule_collection.rs"]}
{"id": "C34", "title": "Parsing always succeeds", "statement": "`MathParser::parse` terminates and does not panic on any well-formed document, with the default modules; syntax errors become error nodes.", "quantifier": "for all well-formed documents", "why_tests_cant": "Totality over all inputs including unbalanced brackets, dangling operators, unknown characters.", "anchors": ["aftermath-core/parser/src/parser.rs: MathParser::parse", "aftermath-core/parser/src/parser/pratt_parser.rs: pratt_parse, parse_unknown"]}
{"id": "C35", "title": "Operator precedence and associativity are respected", "statement": "The tree produced for an operator expression is the one prescribed by the binding powers: an operand of an operator is never an operator expression that binds weaker on that side; left-associative chains nest to the left, right-associative chains to the right; and printing a tree that respects the binding powers and parsing it gives the tree back.", "quantifier": "for all operator tables and all expressions", "why_tests_cant": "All operator combinations and chain lengths.", "anchors": ["aftermath-core/parser/src/parser/pratt_parser.rs: pratt_parse, BindingPower::strength_left, strength_right"]}
{"id": "C36", "title": "Walking down and up the document is consistent", "statement": "For every valid path, walking down from the root gives a focus whose reported indices are that path and whose row is the row stored there; going to a child and back to the parent returns an equal focus; converting a position or range to its minimal form and back gives the same position or range.", "quantifier": "for all documents and paths", "why_tests_cant": "All depths; the focus hands its path back and forth between levels.", "anchors": ["aftermath-core/input_tree/src/focus.rs: InputFocusRow, InputFocusNode", "aftermath-core/input_tree/src/focus/row_position.rs: to_minimal, from_minimal", "aftermath-core/input_tree/src/focus/row_range.rs: to_minimal, from_minimal"]}
{"id": "C37", "title": "Linear and two-dimensional grid indices correspond one to one", "statement": "For a grid of positive width, converting a linear cell index to (x, y) and back is the identity, `get` returns the stored cell for exactly the in-range indices, and `set` changes exactly one cell.", "quantifier": "for all grids and indices", "why_tests_cant": "Arithmetic over all sizes.", "anchors": ["aftermath-core/input_tree/src/grid/index2d.rs: Index2D", "aftermath-core/input_tree/src/grid.rs: GridVec::get, get_mut, set"]}
{"id": "C38", "title": "A grid view shows exactly the cells of its rectangle", "statement": "A view of the rectangle spanned by two cells has the width and height of that rectangle, and `get` returns exactly the cells inside it.", "quantifier": "for all grids and rectangles", "why_tests_cant": "All sizes and rectangles.", "anchors": ["aftermath-core/input_tree/src/grid/grid_view.rs: GridView, GridRectangle"]}
{"id": "C39", "title": "Shift+arrow keeps extending or shrinking the selection", "statement": "Extending the selection with Shift+Left (Shift+Right) changes the selected range as long as its moving end is not at the start (end) of the document; repeating it eventually reaches the start (end).", "quantifier": "for all documents, carets and numbers of key presses", "why_tests_cant": "A progress property over all documents.", "anchors": ["aftermath-core/caret/src/math_editor.rs: select_with_caret", "aftermath-core/caret/src/caret.rs: CaretSelection::from_positions"]}
{"id": "C40", "title": "Operations that change nothing do not touch the undo history", "statement": "If an operation leaves the document unchanged, it leaves what undo and redo will do unchanged (in particular it does not discard the redo history).", "quantifier": "for all editor states and operations", "why_tests_cant": "All states/operations.", "anchors": ["aftermath-core/caret/src/editor_action_builder.rs: finish", "aftermath-core/caret/src/primitive/primitive_edit.rs: remove_at_caret, insert_at_range", "aftermath-core/caret/src/undo_redo_manager.rs: push"]}
{"id": "C41", "title": "Moving and selecting never changes the document", "statement": "If no autocorrection is pending, move_caret, select_with_caret, select_all, start/extend/finish_selection, get_caret, get_autocomplete, copy and get_syntax_tree leave the document and the undo/redo history unchanged.", "quantifier": "for all editor states and arguments", "why_tests_cant": "All states.", "anchors": ["aftermath-core/caret/src/math_editor.rs"]}
{"id": "C42", "title": "Splicing a range replaces exactly that range", "statement": "`splice_at_range(range, values)` for a valid range replaces exactly the nodes in the range by the given nodes, changes nothing else in the document, and records one undo step that restores the previous document.", "quantifier": "for all documents, ranges (forwards or backwards) and node lists", "why_tests_cant": "Frame condition over arbitrary documents.", "anchors": ["aftermath-core/caret/src/math_editor.rs: splice_at_range", "aftermath-core/input_tree/src/editing/basic_edit.rs: replace_range"]}
{"id": "C43", "title": "Every row of the document can be found in the syntax tree", "statement": "For every row of a well-formed document, descending through the syntax tree by the row's indices (choosing the child whose range contains the element, then its n-th new row) reaches a node that covers that row; containers keep their grid size.", "quantifier": "for all well-formed documents and rows in them", "why_tests_cant": "Rendering and hit-testing rely on this for every document; all nestings and operator contexts.", "anchors": ["aftermath-core/parser/src/syntax_tree/syntax_node.rs: SyntaxNodes::NewRows", "aftermath-core/parser/src/rule_collections/built_in_rules.rs", "src/core/index.ts: getNodeWithRowIndices"]}
{"id": "C44", "title": "Deleting in front of an empty document part does nothing", "statement": "Backspace at the very start and Delete at the very end of the document (with a collapsed caret) leave document, caret and history unchanged and do not panic.", "quantifier": "for all documents, both overflow-check settings", "why_tests_cant": "All documents; build-profile dependent arithmetic.", "anchors": ["aftermath-core/caret/src/primitive/primitive_edit.rs: remove_at_caret_position", "aftermath-core/input_tree/src/focus.rs: index_in_parent"]}
{"id": "C45", "title": "The undo/redo manager is a faithful stack pair", "statement": "After any sequence of push/undo/redo calls, undo returns the inverse of the most recent not-undone action, redo returns the most recently undone action, push discards all redoable actions, and can_undo/can_redo tell whether undo/redo return something.", "quantifier": "for all action types and call sequences", "why_tests_cant": "All sequences.", "anchors": ["aftermath-core/caret/src/undo_redo_manager.rs: UndoRedoManager"]}
{"id": "C46", "title": "Table layout survives editing of cells", "statement": "Row edits never change the number of rows and columns of any container other than those inside inserted or deleted nodes: a well-formed document stays well-formed under any sequence of row edits with well-formed nodes.", "quantifier": "for all documents and edit sequences", "why_tests_cant": "Invariant over all sequences.", "anchors": ["aftermath-core/input_tree/src/input_tree.rs: apply_edit", "aftermath-core/input_tree/src/grid.rs: GridVec"]}
{"id": "C47", "title": "An arrow key with a selection continues at the selection's edge", "statement": "Pressing Left or Up with a non-empty row selection moves from the left end of the selection and Right or Down from its right end, exactly as a caret at that end would move; if that end has no further position in this direction the selection collapses to the end. The result is always a collapsed caret.", "quantifier": "for all documents, non-empty row selections and directions", "why_tests_cant": "All nestings of both ends of a selection in arbitrary documents.", "anchors": ["aftermath-core/caret/src/primitive/movement.rs: move_caret, move_caret_range"]}
{"id": "C48", "title": "Up and Down reach every entry of the autocomplete popup", "statement": "From any state with an open popup, pressing Down k times selects the entry k places further down (at most the last one), and Up k times the entry k places further up (at most the first one).", "quantifier": "for all editor states, rule sets and numbers of key presses", "why_tests_cant": "Depends on which rules match how often at arbitrary inputs.", "anchors": ["aftermath-core/caret/src/math_editor.rs: move_in_autocomplete, AutocompleteState::get_autocomplete", "aftermath-core/caret/src/autocomplete.rs: move_selection"]}
{"id": "C49", "title": "A completely typed rule is offered by the popup", "statement": "If the symbols in front of a collapsed caret are the characters of a rule's text, the popup is open and contains a complete match of that rule covering exactly these symbols.", "quantifier": "for all documents, caret positions and rules of the rule set", "why_tests_cant": "All documents, positions and rules.", "anchors": ["aftermath-core/caret/src/math_editor.rs: get_autocomplete", "aftermath-core/parser/src/autocomplete.rs: AutocompleteRule::matches", "aftermath-core/parser/src/rule_collections: get_autocomplete_rules"]}
{"id": "C50", "title": "Every document can be drawn", "statement": "For every document whose fractions and roots have two cells, parsing it with the default modules and rendering the syntax tree to MathML succeeds: no assertion of the renderer fails and nothing is thrown.", "quantifier": "for all documents and classifications of characters", "why_tests_cant": "All nestings of containers and all rows; the failing assertion needs a particular neighbour of a particular container.", "anchors": ["src/mathml/renderer.ts: MathMLRenderer.render, renderAll", "src/mathml/renderer/*.ts", "aftermath-core/parser/src/parser/pratt_parser.rs"]}
{"id": "C51", "title": "Every name in a syntax tree has a renderer", "statement": "Whatever modules are used, as long as they contain the built-in rules and the renderer could be constructed, every node of a syntax tree has a renderer; the modules of the editor meet this.", "quantifier": "for all modules, documents and nodes of their syntax trees", "why_tests_cant": "All trees that any grammar can produce.", "anchors": ["src/mathml/renderer.ts: constructor, getRenderer", "aftermath-core/parser/src/rule_collections/built_in_rules.rs"]}
{"id": "C52", "title": "The rendered element of every row is found", "statement": "For every row of the document, getElement with the indices of this row gives the element that was made from the syntax tree of exactly this row.", "quantifier": "for all documents and row indices", "why_tests_cant": "All paths into all documents.", "anchors": ["src/mathml/render-result.ts: getElement, getChildWithContainerIndex"]}
{"id": "C53", "title": "The caret can be drawn everywhere, and at a different place for each position", "statement": "For every row and every offset in it getCaretPosition gives a place, and different offsets in a row are drawn at different places.", "quantifier": "for all documents, rows and offsets", "why_tests_cant": "All documents and positions.", "anchors": ["src/mathml/render-result.ts: getViewportSelection", "src/mathml/renderer/*.ts: getCaretPosition"]}
{"id": "C54", "title": "A click gives a position in the document", "statement": "Wherever a click hits and however large the elements are, getLayoutPosition ends with row indices of a row of the document and an offset in this row.", "quantifier": "for all documents, clicked points and sizes of elements", "why_tests_cant": "All documents and all layouts of a browser.", "anchors": ["src/mathml/render-result.ts: getLayoutElement, getLayoutPosition"]}
{"id": "C55", "title": "What is drawn is valid MathML", "statement": "In the DOM that is made from a syntax tree, mfrac, mroot, msub and msup have exactly two children, tables consist of non-empty rows of equal length with cells of one child, and text occurs only in elements for text.", "quantifier": "for all syntax trees that are rendered", "why_tests_cant": "All syntax trees.", "anchors": ["src/mathml/renderer/*.ts: getElements", "src/mathml/renderer.ts"]}
{"id": "C56", "title": "What is drawn shows the text of the document", "statement": "The texts in the DOM are those of the document, nothing is lost, and nothing is added but placeholders.", "quantifier": "for all documents that are drawn", "why_tests_cant": "All documents.", "anchors": ["src/mathml/renderer/*.ts: getElements", "src/mathml/render-result.ts"]}
{"id": "C57", "title": "Every selection within a row can be drawn", "statement": "getViewportSelection does not throw for any two offsets of a row. For a non-empty selection, the elements that give it its height lie in the drawing of the row from left to right without overlap, each has a part of the selection, one not wholly selected is a leaf, and together they draw every selected node.", "quantifier": "for all documents, rows and pairs of offsets", "why_tests_cant": "All documents and selections.", "anchors": ["src/mathml/render-result.ts: getViewportSelection"]}
{"id": "C58", "title": "Reading MathML gives a well-formed document", "statement": "fromElement does not throw for any math element, and the document it returns is well-formed: grids have a positive width and full rows, symbols are not empty, fractions and roots have two cells.", "quantifier": "for all DOM trees, whatever normalization and segmentation do to texts", "why_tests_cant": "All nestings of all elements; the failures need elements without children.", "anchors": ["src/mathml/parsing.ts: fromElement, toMathLayout, expectNChildren, wrapInRow"]}
{"id": "C59", "title": "Reading MathML loses no text silently", "statement": "If fromElement reports no error, the text of all token elements is in the document, in the same order, and nothing is added but quotes around strings and the index of square roots.", "quantifier": "for all DOM trees that are read without errors", "why_tests_cant": "All nestings of all elements.", "anchors": ["src/mathml/parsing.ts: fromElement, toMathLayout"]}
{"id": "C60", "title": "The screen shows the current document", "statement": "After every event that the element handles, the elements and the caret on the screen are those that are made from the current document and the current caret.", "quantifier": "for all sequences of events of the custom element", "why_tests_cant": "All interleavings of keys, input, clipboard, pointer and attribute events, over all documents.", "anchors": ["src/component/math-editor.ts: updateInput, renderCarets, addInputEventListeners"]}
{"id": "C61", "title": "No event handler throws", "statement": "Starting with a new element, no sequence of events makes an event handler throw.", "quantifier": "for all sequences of events", "why_tests_cant": "All sequences of events; the failures need a particular document.", "anchors": ["src/component/math-editor.ts", "src/mathml/*.ts", "aftermath-core/web/src/math_editor.rs"]}
{"id": "C62", "title": "The editor survives every event", "statement": "No sequence of events makes the Rust editor panic: after each of them there is still a usable editor with a well-formed document and a caret in it.", "quantifier": "for all sequences of events", "why_tests_cant": "A panic leaves the wasm object locked for ever; which sequences lead to one depends on the whole history.", "anchors": ["src/component/math-editor.ts", "aftermath-core/web/src/math_editor.rs", "aftermath-core/caret/src/math_editor.rs"]}
{"id": "C63", "title": "Setting the attribute replaces the document", "statement": "Setting the attribute mathml to MathML that can be read replaces the document by what was read, wherever the caret is, and the screen shows it.", "quantifier": "for all reached elements and MathML values", "why_tests_cant": "All former documents and caret positions.", "anchors": ["src/component/math-editor.ts: attributeChangedCallback"]}
{"id": "C64", "title": "Undo does not take away the loaded formula", "statement": "Undo immediately after a formula was loaded leaves the loaded formula as it is.", "quantifier": "for all formulas", "why_tests_cant": "Holds or fails for all formulas at once, including those of any depth.", "anchors": ["src/component/math-editor.ts: connectedCallback, attributeChangedCallback", "aftermath-core/caret/src/undo_redo_manager.rs"]}
{"id": "C65", "title": "Queued input is handled in order and exactly once", "statement": "However many input events come before the timers run, after the timers every input has been handled exactly once and in the order of the events, even if the handling of some of them throws.", "quantifier": "for all lists of input events and states", "why_tests_cant": "All numbers of queued tasks and all throwing subsets.", "anchors": ["src/component/math-editor.ts: TaskQueue, beforeinput"]}
{"id": "C66", "title": "The element uses the editor only through its operations", "statement": "The editor in every element that is reached by events is one that is reachable by the public operations, so everything that is proved of reachable editors holds in the element.", "quantifier": "for all sequences of events", "why_tests_cant": "All sequences of events.", "anchors": ["src/component/math-editor.ts", "aftermath-core/web/src/math_editor.rs"]}
{"id": "C67", "title": "Formulas are read the way they are written", "statement": "Every formula made of names, numbers, constants, strings, brackets, fractions, roots, tables, the infix operators, signs, sums, integrals, limits, factorials, function application, powers and indices, with any number of scripts at operators and any number of spaces after tokens, written with the usual precedence (equations, then comparisons and tuples, then sums and logic, then products, then signs, then what follows an operand; chains nest to the left), is parsed to exactly the tree of the formula. No two such formulas are written the same way. Formulas that only differ in spaces have the same tree except for offsets and the spaces themselves.", "quantifier": "for all formulas and all classes of letters that contain no operator", "why_tests_cant": "Formulas nest without a bound and every pair of operators interacts; tests check a handful of sentences.", "anchors": ["aftermath-core/parser/src/rule_collections/*.rs", "aftermath-core/parser/src/parser/pratt_parser.rs", "aftermath-core/parser/src/math_parser.rs"]}
{"id": "C68", "title": "Negations, typed powers, products without an operator and all names are read the way they are written", "statement": "The negation of an operand is read as a prefix operator, a typed caret between two operands as a power, two operands beside each other bind more tightly than a sum, and every sequence of letters is read as one name.", "quantifier": "for all operands and names", "why_tests_cant": "Needs the operator tables and the precedence of the alternatives to agree for all operands.", "anchors": ["aftermath-core/parser/src/rule_collections/logic_rules.rs:59-66", "aftermath-core/parser/src/rule_collections/arithmetic_rules.rs", "aftermath-core/parser/src/rule_collections/calculus_rules.rs:45-77"]}
{"id": "C69", "title": "Select all selects everything", "statement": "After select all the selection covers the whole document; copying gives the text of the whole document, typing replaces all of it (and undo brings it back), removing leaves an empty document, and pasting what was copied over everything of another document makes that document the same.", "quantifier": "for all documents, carets and histories", "why_tests_cant": "The caret may be anywhere in arbitrarily nested documents; tests check single ones.", "anchors": ["aftermath-core/caret/src/math_editor.rs:171-182", "aftermath-core/caret/src/math_editor.rs:235-262"]}
{"id": "C70", "title": "What is drawn shows which document it is", "statement": "Somebody who reads the MathML elements of the drawing (fractions, roots with their index second, scripts on their base, tables with their lines) sees exactly the structure and the symbols of the document. Two different documents of single characters are never drawn the same way.", "quantifier": "for all documents that can be drawn", "why_tests_cant": "Needs every renderer to agree with every rule of the grammar at any depth; snapshot tests show single drawings.", "anchors": ["src/rendering/**/*.ts", "aftermath-core/parser/src/rule_collections/*.rs"]}
{"id": "C71", "title": "Rectangles and distances are what their names say", "statement": "joinRectangles gives the smallest rectangle that contains both, distanceToRectangle is the distance to the nearest point of the rectangle and 0 exactly inside of it, distanceToSegment is the distance to the nearest point of the segment, and the rectangle of a selection spans exactly what is selected.", "quantifier": "for all points, rectangles and segments", "why_tests_cant": "Uncountably many inputs; tests check single ones.", "anchors": ["src/rendering/viewport-coordinate.ts", "src/mathml/render-result.ts: getViewportSelection", "src/component/math-editor.ts: renderCarets"]}
{"id": "C72", "title": "A click gives the closest caret position", "statement": "The position that getLayoutPosition returns is drawn at least as close to the click as every other caret position of the document. Skipping elements whose bounds are farther away loses nothing.", "quantifier": "for all documents, all layouts in which elements are in the bounds of the elements they are in, and all clicks", "why_tests_cant": "All layouts and all points; correctness of the pruning needs an invariant of the search.", "anchors": ["src/mathml/render-result.ts: getLayoutElement, getLayoutPosition"]}
{"id": "C73", "title": "The helpers for arrays and maps do what their names say", "statement": "getBinaryInsertIndex finds an element or the place where it belongs in a sorted array; remove, takeWhile, skipWhile, zip, range, shallow equality, default entries of maps, grouping and memoizing satisfy their specifications.", "quantifier": "for all arrays, maps, predicates, orders and sequences of calls", "why_tests_cant": "Arrays of any length, any order and any sequence of calls of a memoized function.", "anchors": ["src/utils/array-utils.ts", "src/utils/map-utils.ts", "src/utils/memoize.ts"]}
{"id": "C74", "title": "MathML is read as what it means", "statement": "A MathML formula is read as the document that it means according to the description of MathML (fractions, roots with radicand and index, sub- and superscripts, limits below and above, tables with lines of different lengths, tokens, strings, semantics), without errors. No formula means two documents, and every document that the editor makes can be written as MathML.", "quantifier": "for all formulas, all documents, all normalizations and segmentations", "why_tests_cant": "Formulas are trees of any depth and width; the meaning is an inductive relation.", "anchors": ["src/mathml/parsing.ts: fromElement, toMathLayout"]}
{"id": "C75", "title": "Copying, cutting and pasting in the page", "statement": "Copying puts the selected nodes on the clipboard and changes nothing else. Cutting puts the same there, removes exactly these nodes and puts the caret where they were. Pasting what was cut gives back the document, with the caret behind what was selected.", "quantifier": "for all states of the component with a selection in a row, all renderers, normalizations and segmentations", "why_tests_cant": "Documents and selections of any size and depth, in any state of the component, also when drawing throws.", "anchors": ["src/component/math-editor.ts", "src/component/input-handler-element.ts", "caret/src/math_editor.rs: copy, paste"]}
{"id": "C76", "title": "Undo and redo keys in the page", "statement": "After any event the undo key, pressed at most as often as the event recorded steps, gives back the document before the event, and the redo key pressed as often the document after it. After typing, pasting and setting the attribute, the selection is given back, too. Typed text is exactly one step: undo gives back document and selection, redo the typed text.", "quantifier": "for all states of the page and all events other than the undo and redo keys, including events whose handlers fail, as long as the editor is not lost (C62)", "why_tests_cant": "Unbounded sequences of events of all kinds, including several queued inputs and autocorrections.", "anchors": ["src/component/math-editor.ts", "caret/src/math_editor.rs: undo, redo"]}
{"id": "C77", "title": "Clicking and dragging selects", "statement": "Pressing the mouse button, moving the mouse along any path and releasing the button selects from the first to the last position, shows this selection and changes nothing else; afterwards moving the mouse does nothing. Typing after a drag within a row replaces exactly what is between the two positions, typing after a click inserts there.", "quantifier": "for all reachable states of the component, all points and paths, all distances measured by the browser, all typed texts", "why_tests_cant": "Paths of any length over any document; the browser's geometry is arbitrary.", "anchors": ["src/component/math-editor.ts: pointer handlers", "src/rendering/render-result.ts", "caret/src/math_editor.rs: start_selection, extend_selection, finish_selection"]}
{"id": "C78", "title": "The greedy choice takes the longest match", "statement": "Of several parsers, the greedy choice gives the result of the one with the longest match, fails only if all fail, and parsing goes on where this match ends. A choice between no parsers cannot be made.", "quantifier": "for all lists of parsers and all offsets", "why_tests_cant": "Any number of parsers with any results.", "anchors": ["parser/src/parser/greedy_choice.rs"]}
{"id": "C79", "title": "The answers of the editor are right", "statement": "An operation that answers None or an error has changed nothing but the remembered completion. Opening the popup, moving in it and accepting succeed exactly when a rule is matched by two or more symbols before a collapsed caret; declining does nothing. Undo and redo succeed exactly when there is something to undo or redo, pasting exactly when the text can be read. Shift+Left and Shift+Right fail exactly at the edge of the document.", "quantifier": "for all editor states, rule sets and operations", "why_tests_cant": "All documents, rule sets and carets.", "anchors": ["aftermath-core/caret/src/math_editor.rs: open_autocomplete, finish_autocomplete, move_in_autocomplete, undo, redo, paste, select_with_caret"]}
{"id": "C80", "title": "Formulas are drawn as the MathML of the formula", "statement": "A conventionally written formula (as in C67) can be drawn exactly if its fractions and roots have two rows and no script is followed by a space, and then the elements that are drawn are exactly those of the formula: letters and constants in mi, numbers in mn, strings in mtext, operators in mo, scripts in msub and msup, fractions in mfrac, the radicand before the index in mroot, the lines of tables in mtr, spaces in mspace, and everything with several parts in an mrow, with exactly the brackets around a formula stretching.", "quantifier": "for all conventionally written formulas, numbers of spaces and classes of letters", "why_tests_cant": "Formulas nest without a bound; the drawing depends on the parser, the table of renderers and the options passed down through the tree.", "anchors": ["src/mathml/renderer.ts:47-295", "src/mathml/renderer/*.ts", "aftermath-core/parser/src/rule_collections/*.rs"]}
{"id": "C81", "title": "Brackets grow with their content", "statement": "Every bracket of a formula that is drawn has the attribute that makes it grow with its content.", "quantifier": "for all conventionally written formulas", "why_tests_cant": "Needs all ways in which brackets come into a drawing.", "anchors": ["src/mathml/renderer.ts:63-77", "src/mathml/renderer.ts:135-138", "src/mathml/renderer/rendered-symbol-element.ts:14-70"]}
{"id": "C82", "title": "Exactly the JSON texts of nodes can be pasted", "statement": "A text is read as a JSON value exactly if it is one by the grammar of RFC 8259 with at most 127 arrays and objects around each other, and as that value. It can be pasted as nodes exactly if that value is a record with a version of 32 bits and nodes: records are objects with every field once, or arrays; nodes are objects with the name of the variant. Pasting is answered accordingly.", "quantifier": "for all texts, all sizes of usize and all states of the editor", "why_tests_cant": "Texts nest without a bound; that nothing else is read quantifies over all texts.", "anchors": ["aftermath-core/serialization/src/lib.rs:15-56", "aftermath-core/input_tree/src/node.rs:13-50", "aftermath-core/caret/src/math_editor.rs"]}
{"id": "C83", "title": "Text of another version is not taken for one of this version", "statement": "Pasting a text whose version is not the one that the editor writes does not read its data as if it were of that version.", "quantifier": "for all versions and data", "why_tests_cant": "Quantifies over all versions and nodes.", "anchors": ["aftermath-core/serialization/src/lib.rs:15-19", "aftermath-core/serialization/src/lib.rs:45-50"]}
{"id": "C84", "title": "Every event makes exactly the right calls", "statement": "What a handler of the element asks of the editor is determined by the event and by what is shown and remembered: for keys, queued input, the clipboard, the pointer, the mouse and the attribute it is a fixed list of operations with their arguments, in order, with the drawing after them. If nothing is thrown all of them are made; otherwise some first ones are made, or one of them panics and the editor is lost. What is remembered besides (button, connection, clipboard, queue) changes only as the event says, even if something is thrown.", "quantifier": "for all states of the element, all events and all documents", "why_tests_cant": "All states of the element and all ways in which a handler can be interrupted.", "anchors": ["src/component/math-editor.ts:38-43", "src/component/math-editor.ts:143-335"]}
{"id": "C85", "title": "The pointer selects only while its button is held", "statement": "After any events, if the primary button has not been pressed, or has been released since it was last pressed, moving the pointer and mouse presses that are reported again do nothing at all.", "quantifier": "for all sequences of events", "why_tests_cant": "All sequences of events, including those whose handlers throw.", "anchors": ["src/component/math-editor.ts:234-300"]}
{"id": "C86", "title": "Parsing takes polynomially many calls", "statement": "The number of calls of the recursive parser while a document is parsed is bounded by a polynomial in the size of the document.", "quantifier": "for all well-formed documents", "why_tests_cant": "A growth rate is about all sizes; every test has one.", "anchors": ["aftermath-core/parser/src/parser/pratt_parser.rs:215-246", "aftermath-core/parser/src/parser/pratt_parser.rs:278-382", "aftermath-core/parser/src/parser/pratt_parser.rs:603-620"]}
{"id": "C87", "title": "Any selection of modules gives a working parser", "statement": "A parser made of any modules in any order, whatever modules and parsers were made before, parses every well-formed document without losing any of it, all names in the tree have renderers, and documents that the default parser's condition allows are drawn.", "quantifier": "for all histories of making modules and parsers, all lists of modules and all well-formed documents", "why_tests_cant": "All subsets, orders and repetitions of modules with all documents.", "anchors": ["aftermath-core/web/src/math_parser.rs:37-123", "aftermath-core/parser/src/parse_modules.rs:7-67", "src/core/index.ts:24-83"]}
{"id": "C88", "title": "The order of the modules does not matter", "statement": "Two parsers made of the same modules in different orders give the same trees and the same completions, in whole sessions; modules of which nothing occurs in a document do not matter to its tree.", "quantifier": "for all lists of modules, all documents and all sessions", "why_tests_cant": "All orders and all documents; the code says that the order is important.", "anchors": ["aftermath-core/parser/src/parse_modules.rs:48-53", "aftermath-core/parser/src/parser.rs:24-40", "aftermath-core/parser/src/math_parser.rs:56-256"]}
{"id": "C89", "title": "Modules can be used for several parsers", "statement": "A module object from which a parser was made can be used to make other parsers.", "quantifier": "for all histories of making modules and parsers", "why_tests_cant": "That something is never possible again is about all continuations.", "anchors": ["src/core/index.ts:27-45", "src/core/index.ts:72-82", "aftermath-core/web/src/math_parser.rs:54-56"]}
{"id": "C90", "title": "The caret and the selection are put where the editor has them", "statement": "Wherever the editor is on the page, once a document is drawn its caret can be put on the screen: if what comes later in a row is drawn further to the right, the bar is at the moving end of the selection and ends a tenth of its height below the base line, it is hidden only if its height is not positive or cells are selected; there is no rectangle if nothing is selected, and otherwise exactly one, which reaches from one end to the other, covers elements that draw all that is selected and is no higher than these, or which is the smallest one that contains the first and the last selected cell.", "quantifier": "for all documents that can be drawn, all rows and selections, all positions of the containing element and all geometries that the browser may measure", "why_tests_cant": "The geometry comes from the browser and there are infinitely many documents; a test sees single screenshots.", "anchors": ["src/component/math-editor.ts:365-428", "src/component/caret/single-caret-element.ts:4-68", "src/mathml/render-result.ts:19-87", "src/component/caret/caret-styles.css:18-29"]}
{"id": "C91", "title": "What is drawn can be read back", "statement": "The MathML that the editor draws for a document is, when it is read as the formula of a page, the same document, and nothing in it is reported as an error.", "quantifier": "for all documents that can be drawn", "why_tests_cant": "There are infinitely many documents, and the drawing and the reading are never run on one another's results by the tests.", "anchors": ["src/mathml/renderer/rendered-rows-element.ts:25-26", "src/mathml/renderer/rendered-table-element.ts:20-21", "src/mathml/renderer/rendered-root-element.ts:25-26", "src/mathml/parsing.ts:8-14"]}
{"id": "C92", "title": "Loading the editor replaces the marked formulas of a page", "statement": "When the editor has been loaded, every formula of the page that has the attribute data-editor and is not in another such formula has been replaced by an editor that is in the page, has exactly this formula as its document, shows it and has the caret in front of it; a formula that cannot be read leaves an empty editor; all other nodes of the page are what and where they were; and there is nothing to undo.", "quantifier": "for all pages whose elements are distinct", "why_tests_cant": "There are infinitely many pages, formulas may be anywhere in them and in one another, and no test loads main.ts.", "anchors": ["src/main.ts:12-16", "src/component/math-editor.ts:299-331", "src/utils/dom-utils.ts:1-5"]}
{"id": "C93", "title": "What Backspace and Delete do at a container", "statement": "Without a selection and not next to a symbol: Backspace at the start of a script, Delete in front of a script, Backspace at the start of the second cell and Delete at the end of the first cell of a fraction or root, and Backspace in the first and Delete in the last cell of a container without any content replace the container by its content and leave the caret between the same symbols; at every other place the caret goes to the neighbouring position and nothing else changes.", "quantifier": "for all documents and caret positions", "why_tests_cant": "There are infinitely many documents; every kind of container, number of cells, emptiness of the cells and place of the caret is a case of its own.", "anchors": ["aftermath-core/caret/src/primitive/primitive_edit.rs:67-176"]}
{"id": "C94", "title": "Holding Backspace or Delete empties the document", "statement": "From the end of the document pressing Backspace, and from its start pressing Delete, again and again leads to the empty document without a panic, with fewer presses than the document has caret positions.", "quantifier": "for all documents without empty symbols in which every script has one cell", "why_tests_cant": "It is a statement about executions of any length from any of infinitely many documents.", "anchors": ["aftermath-core/caret/src/primitive/primitive_edit.rs:44-176", "aftermath-core/caret/src/math_editor.rs:107-134"]}
{"id": "C95", "title": "In a row of symbols the editor is a text field", "statement": "As long as the caret stays in one row that contains only symbols, wherever in a document that row is, the editor behaves exactly like a plain text field: typing replaces the selection, Backspace and Delete remove the selection or one symbol, arrow keys move by one symbol (from the end of the selection if there is one), Up and Down in the row of the document only end the selection, Shift extends the selection, clicks and drags set its ends, Backspace and Delete with nothing to remove do nothing at the ends of the document unless overflows are checked, and undo and redo restore text and selection as they were before and after each change; the rest of the document never changes and nothing panics, as long as no completely typed token is left.", "quantifier": "for all documents without empty symbols, rows of symbols in them, selections, and finite sequences of these operations", "why_tests_cant": "It relates executions of any length, with undo and redo interleaved, to an independent specification.", "anchors": ["aftermath-core/caret/src/math_editor.rs:65-233", "aftermath-core/caret/src/primitive/primitive_edit.rs:26-176", "aftermath-core/caret/src/undo_redo_manager.rs:3-62"]}
{"id": "C96", "title": "A page with a row of symbols is a text field", "statement": "As long as the document is a row of symbols, the whole element behaves exactly like a plain text field under any sequence of browser events: keys typed before the timer wait in order, keyboard shortcuts, mouse presses, drags, double clicks, copy, cut and paste, undo and redo do to text, selection, clipboard and waiting keys what they do in a text field, where a click means the offset drawn nearest to it; no handler throws, and afterwards the formula and the caret on the screen are up to date, as long as no completely typed token is left.", "quantifier": "for all settings of the identifier tables, states of the element that show a row of symbols and are up to date, and finite sequences of events", "why_tests_cant": "It relates event sequences of any length, with timers, dragging and undo interleaved, to an independent specification.", "anchors": ["src/component/math-editor.ts:60-330", "aftermath-core/caret/src/math_editor.rs:65-233"]}
{"id": "C97", "title": "The view for debugging marks the rows", "statement": "debugRenderRows, which runs after every change in development builds, never throws. It marks every element that draws a row of a container, and nothing else except the scripts of rows that are scripts as a whole.", "quantifier": "for all documents that can be drawn", "why_tests_cant": "All documents; whether an element has a row index depends on an option that is passed down through the renderer.", "anchors": ["src/component/math-editor.ts: renderCarets, debugRenderRows", "src/mathml/renderer.ts: rowIndexOverride"]}
{"id": "C98", "title": "Rules only ever add one replacement to an operation", "statement": "Every operation other than those on the list of suggestions does what it does in an editor without rules: it returns the same and puts the caret at the same place, with the same selection mode. After that at most one range is replaced by the result of one of the rules, in an undo step of its own; undoing it gives the document and the caret of the editor without rules.", "quantifier": "for all editor states, operations and rules", "why_tests_cant": "All states, all operations and all rule sets; compares two runs of the editor.", "anchors": ["aftermath-core/caret/src/math_editor.rs: start_autocorrect, apply_autocorrect, splice_at_range", "aftermath-core/caret/src/undo_redo_manager.rs: push"]}
{"id": "C99", "title": "What is typed is what is seen", "statement": "If a formula is typed into a new editor on the page, key by key and with mistakes corrected by Backspace, or if MathML that means it is set, then the element ends up with the syntax tree of that formula and shows exactly its picture: every tag, attribute and text. When typing, no handler fails and the caret is behind the formula.", "quantifier": "for all formulas of the grammar, all ways of portioning the keys and placing the timers, all corrections, and all MathML with that meaning", "why_tests_cant": "Unbounded formulas, key sequences and interleavings of events and timers; spans the page, the editor, the parser and the renderer.", "anchors": ["src/component/math-editor.ts: attributeChangedCallback, the beforeinput handler, renderInput", "aftermath-core/caret/src/math_editor.rs: insert_at_caret, remove_at_caret, splice_at_range", "aftermath-core/parser/src/parser.rs", "src/mathml/renderer.ts", "src/mathml/parsing.ts"]}
{"id": "C100", "title": "A document is made of what was typed, pasted and loaded, and of what the rules make of it", "statement": "Every symbol and every container of a document, however deeply nested, satisfies any condition that the typed symbols, the pasted and loaded nodes and the results of the rules satisfy. No operation, undo and redo included, brings in anything else. If no symbol is empty, rules of a single character need not be considered, since they are never applied. On a page this holds whatever handlers throw.", "quantifier": "for all conditions on symbols and containers, all rule sets, all sequences of operations and all sequences of events", "why_tests_cant": "An invariant of all reachable states and of all documents in the history, for an arbitrary predicate.", "anchors": ["aftermath-core/caret/src/math_editor.rs", "aftermath-core/caret/src/undo_redo_manager.rs", "aftermath-core/parser/src/autocomplete.rs: matches", "src/component/math-editor.ts"]}
{"id": "C101", "title": "Every formula that can be drawn can be entered with the keyboard and the mouse", "statement": "For every document that the element draws there is a sequence of key presses, clicks and drags on an empty element, without pasting, after which it is the document of the element.", "quantifier": "for all documents that can be drawn", "why_tests_cant": "That something cannot be entered is a statement about all event sequences.", "anchors": ["aftermath-core/parser/src/rule_collections/built_in_rules.rs: get_autocomplete_rules", "aftermath-core/parser/src/rule_collections/arithmetic_rules.rs: get_autocomplete_rules", "aftermath-core/caret/src/math_editor.rs: get_autocomplete", "src/component/math-editor.ts"]}
{"id": "C102", "title": "Every selection can be made with the mouse, and every stretch of a row replaced", "statement": "For every two positions of the document there are two points such that dragging from the first to the second selects what is between the positions and changes nothing else, wherever the mouse is in between. If the positions are in the same row, typing afterwards replaces exactly that stretch of the row by what is typed.", "quantifier": "for all reachable pages, all pairs of positions, all paths of the mouse and all typed text", "why_tests_cant": "An existence statement about all layouts and points, for every pair of positions of every reachable document.", "anchors": ["src/component/math-editor.ts: the pointer handlers and the beforeinput handler", "src/mathml/render-result.ts: getLayoutPosition", "aftermath-core/caret/src/math_editor.rs: start_selection, extend_selection, finish_selection, insert_at_caret"]}
{"id": "C103", "title": "Of what is typed, only what remains counts", "statement": "If something is typed in any portions and mistakes are deleted with Backspace, never deleting more than what was typed, then the document and the caret are the same as if only the remaining text had been typed at once. If nothing remains and nothing was selected, the document and the caret are as before. A symbol that was deleted with Backspace can be typed again. The same holds in a page, in whichever portions the keys come, whenever the timers fire, and even if drawing fails in between.", "quantifier": "for all documents without empty symbols, all carets and selections within a row, all rule sets of ASCII tokens and all sequences of typing and Backspace", "why_tests_cant": "Unbounded sequences of operations at arbitrary places of arbitrary documents, with tokens of the rules coming and going at the caret.", "anchors": ["aftermath-core/caret/src/math_editor.rs: insert_at_caret, remove_at_caret, apply_autocorrect", "aftermath-core/caret/src/primitive/primitive_edit.rs"]}
{"id": "C104", "title": "Every row is read and drawn on its own", "statement": "How a row is read depends only on its symbols and on the kind and size of its containers, not on what is inside of them. If a row anywhere in the document is replaced by another one, the syntax tree changes only there: the tree of the row is the result of parsing the row alone, and everything else in the tree stays. The same holds for the elements that are drawn, and a document stays drawable exactly if the new row can be drawn on its own.", "quantifier": "for all well-formed documents, all rows in them and all replacements; all modules with nonempty tokens and a rule for every container", "why_tests_cant": "Quantifies over all pairs of documents that differ in one row at any depth, and over all grammars.", "anchors": ["aftermath-core/parser/src/parser.rs: MathParser::parse", "aftermath-core/parser/src/parser/pratt_parser.rs", "src/mathml/renderer.ts"]}
