# Formal model of aftermath-editor's core

The subject is the Rust workspace `/repo/aftermath-core` (crates `input_tree`, `caret`, `parser`,
`serialization`) and the TypeScript in `/repo/src` that reads MathML, finds rows in syntax trees, draws them as
MathML, turns clicks into caret positions and connects all of this in a custom element.  Everything is modelled in Rocq/Coq 8.16.1 under `rocq/theories`
(logical name `Verif`).

## Modelling conventions

* `usize` is `nat`.  Additions and multiplications are not allowed to overflow in the model (all operands are
  lengths of vectors, bounded by `isize::MAX`, or small sums of them).  **Subtractions are modelled**: `usub cfg a b`
  panics if `overflow_checks cfg = true` (debug/test profile) and yields the value `None` = "wrapped around" if
  it is `false` (release profile).  A wrapped value is larger than any vector length, so a checked lookup with it
  misses; this is the only fact used about it.
* A panic is the explicit value `Panic kind`; `kind` distinguishes assertion, `expect`/`unwrap`, slice bounds,
  arithmetic overflow, division by zero, `todo!()` and (model only) exhausted recursion fuel.
  Every theorem that says "does not panic" also excludes exhausted fuel.
* `&mut self` functions return the new value.  `Option`/`Result` stay data.  Lifetimes, `Rc`, `Arc`, `Box` vanish.
* `String` is the list of its Unicode scalar values (`list N`); byte lengths are computed with the UTF-8 length
  of each scalar (`Str.v`).
* Two build profiles are covered by quantifying over `cfg`.  The repository builds its web package with
  `wasm-pack build --dev` (`package.json`), so the profile with overflow checks is the one that is used.
* A failing `assert` or a `TypeError` in TypeScript is `throw`, that is `Panic PAssert`.

## Files

Model (each definition cites the lines it models):

| file | models |
|------|--------|
| `Base.v` | panics, `usize` subtraction, slices/splices of `Vec` |
| `Str.v` | `String`, UTF-8 length, byte slicing, `find`, `ends_with` |
| `Grid.v` | `input_tree/src/grid.rs`, `grid/index2d.rs`, `grid/grid_view.rs` |
| `Node.v` | `input_tree/src/node.rs`, `row.rs`, `direction.rs` (trees, indices, position order) |
| `Focus.v` | `input_tree/src/focus.rs`, `focus/row_position.rs`, `focus/row_range.rs`, `focus/grid_range.rs` |
| `Edit.v` | `input_tree/src/editing/*.rs`, `input_tree.rs`, the `Editable` impls |
| `Caret.v` | `caret/src/caret.rs`, `primitive/movement.rs`, `primitive/primitive_edit.rs`, `primitive/caret_edit.rs`, `undo_redo_manager.rs` |
| `Autocomplete.v` | `parser/src/autocomplete.rs`, `matches` of `parser/src/parser.rs`, `caret/src/autocomplete.rs`, `AutocompleteState` |
| `Rules.v` | the autocomplete rules of `parser/src/rule_collections/*.rs` |
| `Editor.v` | `caret/src/editor_action_builder.rs`, `math_editor.rs` as a state machine over its public operations |
| `Print.v` | the `Display` impls of documents |
| `NameMap.v` | `parser/src/syntax_tree/node_type_id.rs` |
| `Json.v` | `serialization/src/lib.rs` with the JSON text of serde/serde_json 1.0.107 |
| `Syntax.v`, `SyntaxPrint.v` | `parser/src/syntax_tree/*.rs` |
| `Pratt.v` | `parser/src/parser/pratt_parser.rs`, `math_parser.rs`, `make_parser.rs`, `parser_extensions.rs`, `rule_collection.rs`, token parsers |
| `Grammar.v` | the parse rules of `parser/src/rule_collections/*.rs` |
| `SyntaxFind.v` | finding rows in a syntax tree, `src/core/index.ts` |
| `Render.v` | `src/mathml/renderer.ts`, the elements in `src/mathml/renderer/*.ts` and the DOM they create |
| `FromMathML.v` | `src/mathml/parsing.ts` |
| `Layout.v` | `src/mathml/render-result.ts` and the `getCaretPosition` methods; what the browser measures is a parameter |
| `Viewport.v` | `src/rendering/viewport-coordinate.ts`, the rectangles of selections in `src/mathml/render-result.ts` and `src/component/math-editor.ts`, `src/rendering/rendered-selection.ts`, with rational numbers |
| `Utils.v` | `src/utils/array-utils.ts`, `map-utils.ts` and `memoize.ts` (most of which nothing calls) |
| `Greedy.v` | `parser/src/parser/greedy_choice.rs` (which nothing calls) |
| `Modules.v` | `web/src/math_parser.rs`, `parser/src/parse_modules.rs`, the modules and the default parser of `src/core/index.ts` |
| `Component.v` | `src/component/math-editor.ts` with the calls into `web/src/math_editor.rs`, as a state machine over events |

`Spec*.v` are small independent specifications used in theorem statements.  `*Facts.v` and `*Proofs.v` contain
proofs; `ComponentCheck.v` decides a sufficient condition for the hypotheses of C61.  `Samples.v` has concrete documents.  `Props*.v` contain nothing but the property theorems, with
`Print Assumptions` beneath and an example beside each that meets the hypotheses:

| file | properties |
|------|-----------|
| `PropsTree.v` | C01-C05, C36, C37, C46 |
| `PropsEdit.v` | C06-C08 |
| `PropsMove.v` | C09-C12, C22, C23, C38, C47 |
| `PropsEditor.v` | C13-C18, C21, C27, C28, C40-C42, C44, C45 |
| `PropsSafety.v` | C19, C20 |
| `PropsAuto.v` | C24-C26, C48, C49 |
| `PropsPaste.v`, `PropsText.v` | C29-C32 |
| `PropsParse.v` | C33-C35, C43 |
| `PropsSelect.v` | C39 |
| `PropsRender.v` | C50-C57 |
| `SpecCover.v`, `CoverFacts.v`, `PropsCover.v` | C57: which elements a selection is drawn over |
| `PropsImport.v` | C58, C59 |
| `PropsComponent.v` | C60-C66 |
| `PropsFormula.v` | C67, C68 |
| `SpecPicture.v`, `PictureFacts.v`, `PropsPicture.v` | C80, C81 |
| `SpecJson.v`, `JsonGrammarFacts.v`, `PropsJson.v` | C82, C83 |
| `SpecEvent.v`, `EventFacts.v`, `PropsEvent.v` | C66, C84, C85 |
| `Cost.v`, `CostFacts.v`, `CostCases.v`, `CostBound.v`, `CostLinear.v`, `PropsCost.v`, `SpecEffort.v`, `FormulaCost.v`, `PropsEffort.v` | C86 |
| `Modules.v`, `SpecModules.v`, `ModulesFacts.v`, `LibraryFacts.v`, `ModulePopup.v`, `PropsModules.v` | C87–C89 |
| `PropsAll.v` | C69 |
| `PropsSight.v` | C70 |
| `PropsView.v` | C71, C72 |
| `Overlay.v`, `PropsOverlay.v` | C90 |
| `SpecReread.v`, `RereadFacts.v`, `PropsReread.v` | C91 |
| `Startup.v`, `SpecStartup.v`, `DemoPage.v`, `StartupFacts.v`, `PropsStartup.v` | C92 |
| `SpecRemove.v`, `RemoveFacts.v`, `HoldFacts.v`, `PropsRemove.v` | C93, C94 |
| `SpecField.v`, `FieldFacts.v`, `PropsField.v` | C95 |
| `SpecPageField.v`, `PageFieldFacts.v`, `PropsPageField.v` | C96 |
| `SpecStray.v`, `StrayFacts.v`, `PropsStray.v` | C54, C72: which row a click gives, for all documents |
| `DebugView.v`, `PropsDebug.v` | C97 |
| `SpecPopup.v`, `PopupExact.v`, `PropsPopup.v` | C48: where the arrow keys lead in the list of suggestions |
| `SpecPlain.v`, `PlainFacts.v`, `PropsPlain.v` | C98; C16: which caret undo restores; C40: what is recorded without a change; C13, C14: exactly when typing works and what deleting does |
| `SpecExact.v`, `ExactFacts.v`, `PropsExact.v` | C23, C38, C49: exactly when they hold |
| `SpecTyped.v`, `PropsTyped.v` | C99 |
| `SpecWorks.v`, `PropsWorks.v` | C20: exactly which operations panic |
| `SpecSurvive.v`, `PropsSurvive.v` | C61, C62: exactly when a handler throws and when the editor is lost |
| `SpecLost.v`, `PropsLost.v` | C19: a caret that is not in the document, and the caret in a page |
| `SpecContent.v`, `ContentFacts.v`, `PropsContent.v` | C100 and C101: what documents are made of, and what cannot be entered |
| `HitFacts.v`, `PropsHit.v` | C72: which positions a click can give |
| `SpecEnter.v`, `EnterFacts.v`, `EnterSteps.v`, `PropsEnter.v`, `EnterPage.v`, `PropsEnterPage.v` | C101: exactly which documents can be entered |
| `SpecTokenEnd.v`, `TokenEnd.v`, `PropsDrawn.v` | C50: exactly which documents can be drawn |
| `PropsMouse.v` | C102: selecting and replacing with the mouse |
| `SpecNet.v`, `PropsNet.v`, `PropsNetPage.v` | C103: typing and Backspace |
| `SpecLocal.v`, `LocalFacts.v`, `LocalDraw.v`, `PropsLocal.v` | C104: rows are read and drawn on their own |
| `PropsUndoPage.v`, `PropsUndoCaret.v` | C76 for all states and events: undo and redo keys after handlers that failed or not; selections |
| `SpecScreen.v`, `ScreenFacts.v`, `PropsScreen.v` | C60: what is on the screen, for all sequences of events |
| `SpecPlace.v`, `PlaceFacts.v`, `PropsPlace.v` | C53: which caret positions are drawn at the same place |
| `SpecLeave.v`, `LeaveFacts.v`, `PropsLeave.v` | C28, C42, C93: every case of leaving a completely typed token, and of splicing |
| `Conformance.v` | the tests of the repository, run on the model: checks of the model, not of the properties |
| `PropsUtils.v` | C73 |
| `PropsMathML.v` | C74 |
| `PropsPage.v` | C75-C77 |
| `PropsGreedy.v` | C78 |
| `SpecAnswer.v`, `AnswerFacts.v`, `PropsAnswer.v` | C79 |

## Plan per property

Status is kept in `MANIFEST.json`; a name ending in `_refuted` proves that the full statement is false of the
model (with a concrete witness) and is a finding about the code; `_partial` is the strongest part proved.

| id | model | proof idea |
|----|-------|-----------|
| C01 | `cmp_indices_and_offset` | map positions to flattened keys, lexicographic order; enumeration `all_positions` of a document is strictly sorted |
| C02 | `range_from_positions` on foci | characterise by longest common prefix; minimality by order reasoning |
| C03, C04 | `apply_edit` (row edits) | path induction; frame lemmas for all other rows |
| C05 | edit lists, `inverse` | path induction, then list induction |
| C06 | grid insert | cell-wise (`nth_error`) characterisation of the flat array construction; exact condition for success by inverting the edit (`GridExact.v`) |
| C07 | grid delete (the lazily dropped `skip`) | refuted: every non-empty delete panics; deleting no rows is the only one that is carried out |
| C08 | `Editable` for positions/ranges | same row and unrelated rows: case analysis; nested rows: refuted (`len() - 1`), and the exact condition under which they are tracked (`C08_nested_exact_partial`) |
| C09, C10 | movement on foci | refine to paths; successor in `all_positions`; induction over the enumeration |
| C11 | movement | refine to paths; debug profile refuted (first cell, Left) |
| C12 | `move_vertical` | fuel = depth; relational spec climbing the ancestors |
| C13, C15, C42 | editor operations | compose edit facts |
| C14 | `remove_at_caret_position` | leaf-symbol sequence is preserved by every flatten/move branch |
| C16, C17, C18 | editor state machine + undo manager | invariant: undo/redo stacks are chains of invertible edits between documents; simulation by a history zipper |
| C19, C20 | editor state machine | refuted by concrete runs; partial: invariant for all runs without firing autocorrection/splice |
| C21 | parse cache | invariant over runs |
| C22, C23 | `CaretSelection::from_positions`, `GridRectangle` | case analysis; C23 refuted for non-ordered corners, proved for ordered ones |
| C24, C25 | matcher over byte-measured strings | induction over the backward walk; multi-byte last symbol refuted; `MatchExact.v`: exactly which matches are reported, in which order, and exactly when the search panics |
| C26 | popup state | list reasoning, stable sort |
| C27, C28 | editor | document part proved; caret part refuted. `C28_exact`: for arrow keys, clicks and Delete, which tokens are kept, corrected, or make the code panic |
| C29, C30 | JSON values and text | round trip by induction over trees; recursion limit and unvalidated grids refuted |
| C31 | printer | left-inverse parser |
| C32, C45 | name map, undo manager | invariants over call sequences |
| C33, C34, C35, C43 | parser | fuelled parser over the token list; invariants on result trees; round trip for precedence |
| C36, C37, C38 | focus, grids | canonical foci; div/mod arithmetic; C38 refuted |
| C39, C40, C44 | editor | refuted with witnesses; partial/positive parts |
| C41, C46 | editor, edits | case analysis / invariant |
| C47 | `move_caret_range` | case analysis over the two ends |
| C48, C49 | popup | positions in the list of matches; refuted if a rule matches twice, and for one-character rules. `C48_keys`: each key goes one entry further and then to the first entry of the same rule; `C48_exact`: so exactly the entries before the first repetition can be selected |
| C50, C51 | `render`, `make_renderers` | a derivation of parsed trees rule by rule (`ShapeFacts.v`), induction over it; a space next to a script refutes C50; an unknown token is one that no rule reads, which gives the exact condition on spaces (`SpacesFacts.v`); C50_all: a token takes all spaces after it, so a script starts with spaces exactly if no token ends before them (`TokenEnd.v`) |
| C52, C53, C57 | `get_element`, `get_caret_position`, `selection_elements` | elements mirror the tree (`mirror`), the tree tiles the row; exactly the positions inside of a "lim", "limsup" or "liminf" share a place |
| C54 | `get_layout_position` for arbitrary distances | every element on the stack of the search is located in the document; a nested script refutes it. C54_exact says for all documents what is given instead: `drawn_row` reads off the drawing in which row a place is, without row indices, and `reported` repeats the index of every row on the way that is a script as a whole and whose script is entered. Every element of a drawing is the element of a row, lies in a row, or is the script of such a row (`part`); descending keeps this |
| C55, C56 | `get_elements` | induction over the tree that is rendered |
| C58, C59 | `from_element` over DOM trees | one view per kind of element (`view` in `ImportFacts.v`), induction over the elements that are kept; an empty script, an empty table and mstyle refute them; `shown` in `SpecImport.v` lists the symbols of any MathML, and C59_exact says that they are those of the document |
| C60-C63 | event handlers over component and editor | a handler returns the component also when it throws; invariant "healthy" (editor sound, screen up to date, tree and elements mirror the document) kept by every event, using C19/C20's invariant for the editor and C50, C52, C54, C57 for the screen; C60_exact and C60_always keep the document of the last drawing along with the run (`ScreenFacts.v`); C63_exact decides for every caret whether the attribute can be set, from the edits of the splice and the conversion of the caret |
| C64 | undo after loading | the splice is the only edit in the history |
| C65 | task queue | induction over the tasks |
| C66 | event handlers | every handler is a sequence of operations; induction over the events |
| C67 | the default grammar on written formulas | `SpecFormula.v` defines formulas, how they are written, precedence levels and trees without reference to binding powers; the tokens of a written formula by induction, then completeness of the parser (C35). `squeeze` removes the spaces of a formula and `bare` those of a tree, for the claim that spaces do not matter |
| C68 | the same grammar | refuted: `¬` is declared as an infix operator, `^` as a postfix operator, a missing operator binds less than all others, and `lim` takes the beginning of a name |
| C69 | `select_all` with copy, paste, typing and removing | the range is computed; then C13, C15, C16 and C29 |
| C70 | parser, renderers and the DOM | `SpecSight.v` reads a DOM back without reference to the renderers; mutual induction over the shape of the parser's trees (`ShapeFacts.v`): every part of a row is seen as its outline |
| C71 | `ViewportMath` and the rectangles of selections, over rational numbers | linear and quadratic arithmetic; the projection on a segment minimizes a quadratic function. Floating point rounding is not modelled |
| C72 | `getLayoutElement`, `getLayoutPosition` | invariant of the search: nothing that was skipped is closer, because what is in an element is in its bounds; `SpecClick.v` defines the positions of a drawing. Refuted for positions outside of the element that was hit. `PropsHit.v`: every position of a document without rows that are a script alone is given by some click |
| C73 | helpers for arrays, maps and memoizing | induction over the arrays and calls; `===` is a parameter that decides equality. Refuted for `skipWhile` on arrays whose elements all satisfy the predicate and for memoized functions that are called with different numbers of arguments, none, or only `undefined` |
| C74 | `fromElement` of `src/mathml/parsing.ts` | `SpecMathML.v` defines what MathML means as an inductive relation, without reference to the reader; mutual induction over it. That every document can be written: induction over the document. Exactly which ones can be read (`written`): induction over what is kept of an element, and for single characters the row is cut into its longest texts |
| C75 | copy, cut and paste handlers with the clipboard | C29 and the exactness of cutting and pasting, followed through the handlers, for all renderers (a renderer that throws does not change the document). Refuted for content nested more than 20 deep |
| C76 | all event handlers with the keys for undo and redo | every handler adds at most its number of steps to the undo stack, and the stack recovers the document (invariant of C17 seen from the state before the event); typing is exactly one step. `C76_always` is for all states and events, failing ones too: the document lies between the recorded steps to undo and to redo, and every press moves one step; its only exception is that the editor is lost (C62). `C76_selection`: after typing, pasting and setting the attribute the selection comes back, too, as the first step was recorded with it |
| C77 | pointer handlers | invariant of a drag: document unchanged, caret from the first hit position to the current one; then typing as in C76. Refuted for drags from behind completely typed tokens |
| C78 | `greedy_choice.rs` (not called by anything) | a parser is a function from the offset to a result and the offset after it; induction over the attempts. Refuted: the input is not where the match ends |
| C79 | `step` and the operations it calls | case analysis of the operations; a lookup of completions finds one exactly when the rule set has a match at a collapsed caret |
| C80 | parser, renderers and the DOM | `SpecPicture.v` gives the MathML of a formula without reference to syntax trees or renderers; induction over the formula for the tree of C67: a node is drawn exactly under a condition, and as exactly these elements |
| C81 | the same | refuted for the brackets of function application; otherwise induction over the picture of C80; C81_exact: all brackets grow exactly if no function is applied |
| C82 | the reader of JSON and the derived `Deserialize` | `SpecJson.v` gives the grammar as inductive relations; soundness by induction over the fuel, completeness by mutual induction over the derivation, for every text that may follow |
| C83 | the same | refuted: the version is read but not used (there is a TODO); proved for all versions |
| C84 | event handlers over component and editor | `SpecEvent.v` lists the calls of every event; a handler "does" a list of calls if it makes all of them, or throws after some first ones, or loses the editor in one; handlers in a row do the calls in a row. Induction over the queue for the timer |
| C85 | pointer handlers | C84 for the remembered button; induction over the events |
| C86 | the parser with a counter of its recursive calls (`Cost.v`), in which questions whether something can be parsed run in the check mode of chumsky (closures of `map` are not run, so containers cost nothing there, but brackets do), proved to give the same results on well-formed documents | refuted: the number of calls for n opening brackets is computed exactly by induction (3^n), and powers exceed polynomials; proved: at most 9^size for all documents (induction over the size, every attempt at a place costs at most the bound for what follows it), at most 2·size+1 for documents without opening brackets and without scripts of infix operators (every call is paid by the part of the document it consumes); for formulas as they are taught (C67) the exact number, by induction over the formula (`C86_formula`): linear where no infix operator with scripts follows a waiting operator (`C86_steady_partial`), exponential otherwise (`C86_formula_refuted`) |
| C87 | the modules as a list of rules each; the library as a list of objects that lose their pointer when passed by value | the names added by any modules are those of the default parser, so the renderers are the same; coverage as for the default grammar, since only the rules for containers in the built-in module are used |
| C88 | parsers for lists of modules; `begins` says with what the token of a rule begins | trees: congruence of the whole parser in its attempts of rules; a choice among rules of which at most one succeeds only depends on the set of rules, and a finite check shows that rules of different modules begin differently; completions: at most one module matches, since no beginning of a rule of one module is at the end of a beginning of a rule of another; refuted with an empty symbol |
| C89 | `take_object` | exact condition by induction over the arguments; objects without pointer stay so: refuted for all module objects that the default parser took |
| C90 | `Overlay.v`: the styles that are set on the elements of a caret, and what the browser makes of them; the measured points, bounds and sizes are parameters | C57 gives the elements under a selection, C71 the rectangles; the containing element cancels out; refuted for geometries in which later things are drawn further to the left |
| C91 | `Render.v` followed by `FromMathML.v`; the elements of the drawing as elements of a page (`as_xml`) | refuted: what is read is, by induction over the shape of the tree and of the drawing, the document with a symbol "Error" around every container (`C91_read_partial`, for documents without spaces, texts and unknown symbols, of characters that the browser neither changes nor joins); so exactly the documents without containers are read as they were; spaces and texts are refuted by computation |
| C92 | `Startup.v`: main.ts, a page as a tree of elements, texts and editors; writing and parsing HTML gives the same elements | by induction over the page: elements that are not there are not replaced, elements stay where they are; the editor of a formula by an invariant of the component that holds even when drawing throws; tested on index.html; refuted in that the formula can be undone, and for empty tables |
| C93 | no new model: `remove_at_caret_position` of `Caret.v`; `dissolves` lists the places where a container is replaced by its content | the decision at the edge of a cell is compared with `dissolves` in both directions; elsewhere the move is a step in the list of positions (C10). Refuted: Delete dissolving a nested container with a completely typed token in front of the caret looks for the token at a wrong place (C08) and can correct a word there; `C93_token_elsewhere` says exactly where it looks and what follows; subtractions underflow with overflow checks |
| C94 | the same | invariant: there is nothing behind (in front of) the caret except empty cells; every press makes the number of positions on the other side smaller, by C14 and C93; refuted for a script with two cells |
| C95 | no new model; `SpecField.v` is a text field: a text, two offsets, and lists of what can be undone and redone | refinement: every operation of the editor does what the field does, for any sequence of operations; the document is the old one with the text of the field in the row; the stacks of the editor are those of the field. Where a completely typed token is left, C28 says what happens instead |
| C96 | no new model; `SpecPageField.v` adds to the text field the keys that wait for the timer, the mouse button and the clipboard, and says what every event does to them | refinement by induction over the events, from C95 for the operations, C60 for the screen and the placing of clicks in the drawing; a click means the offset that the drawing of the text alone gives (`click`), which always exists |
| C97 | `debugRenderRows` as a function from elements to the paths of the marked ones; a text node has no `classList` and throws | induction on the size of elements for what is marked, then the classification of elements from C54 (`part`) for which ones have a row index |
| C98 | the editor with the rules of the environment and with none | both runs side by side, operation by operation: what is remembered of a rule does not matter without rules, and what follows the operation is one splice (C42) |
| C99 | nothing new: the element (C62, C96), the editor, the parser (C67), the renderer (C80) and MathML (C74) together | keys by the text field of C96, whose text is the formula; MathML by C74 and the exact condition of C63; the tree by C67 and the picture by C80 |
| C100 | nothing new: the editor and the element | an invariant over the document and all documents in the undo history, for an arbitrary predicate on symbols and containers; no hypotheses about the caret or about panics. A rule that is due has two symbols in the document (C49), so one-character rules do not count if there are no empty symbols |
| C101 | nothing new: C100 with the default rules | the statement is false: fractions, subscripts and superscripts only have one-character rules. What is proved is exactly which documents can be entered: `EnterFacts.v` builds a document from its parts, innermost rows last, using only clicks, the right arrow, typing and Backspace; `EnterSteps.v` shows that the editor does those steps, `EnterPage.v` that the events of a page do |
| C102 | nothing new: C72 (every position can be clicked) with C77 (what a drag does) | the statement is false inside of the words lim, limsup and liminf: their inner positions are drawn at the same place, and the first of them wins (`C102_refuted`). It is proved for all other positions of documents in which no row of a container is a script as a whole, when no completely typed token ends at the caret or at the first position |
| C103 | nothing new: the text that remains is computed by `net` from the operations alone | induction over the operations; the invariant is that the selection of the beginning has been replaced by the text so far and that the caret is behind it. Typing and deleting a symbol do not apply rules (C13, C14), and the matcher does not fail in documents without empty symbols. In a page, keys and timers in any order are the tasks in the order of the keys, since a timer runs some of those that wait and leaves the others, whatever is thrown |
| C104 | nothing new: `alike`, `same_outline`, `tree_replaced` and `drawing_replaced` compare documents, trees and elements without parsing or drawing | induction over the derivation of the parser: two rows that agree up to the insides of their containers are read in lock-step. Then induction over the path of the replaced row, with the fact that the tree of a row is the parse of the row alone (C43). For drawing, the class of an element and the options of its children depend on the name of the node only. Whether a node can be drawn depends neither on its place nor, apart from being rows or not, on its kind (`C104_drawable`). |

## Trusted base

* Coq's kernel (8.16.1) and its virtual machine (`vm_compute` in witnesses and in checks of finite tables).
* No axioms.  `Print Assumptions` beneath each of the property theorems prints "Closed under the global
  context", for every one of them.  `coqchk` additionally lists seven parameters of `Coq.ssr.ssrunder.Under_rel`,
  which belong to a sealed module of the standard library that is loaded but not used by any theorem.
* The model is hand-written from the text of the Rust and TypeScript; each definition cites the lines it
  models.  No tool relates the two; `test_*` examples in `PropsParse.v` replay the parser tests of the repository
  and some examples elsewhere do the same for other tests.
* External code that is modelled by hand or taken as a parameter: `std` (`Vec`, slices, `str::find`, stable `sort`,
  `HashMap` as an association list), serde and serde_json (the text they write for a list of nodes, reading it
  with a recursion limit of 128; values of unknown fields are only checked for their syntax), chumsky's combinators as far as
  they are used (`repeated`, `choice`, `then`, `rewind`, `recursive`; errors are only counted), the `unicode-ident`
  predicates (arbitrary predicates `xid_start`, `xid_continue`), Unicode normalization and segmentation in the
  browser (arbitrary functions `normalize`, `segment`).
* What a browser measures is a parameter: theorems about clicks hold for all distances (C72: if elements are in the
  bounds of the elements they are in).  Coordinates are rational numbers without rounding (C71).

Not modelled: in `web/` everything but the operations of the editor that are passed on (a panic in one of them
leaves the object borrowed, so that all later calls throw) and the making of parsers (wasm-bindgen's passing of objects by value is modelled by hand), in `src/component` the logging, evaluation, memory exhaustion, stack
overflow, overflow of `usize` additions, logging, and running time other than the number of calls of `pratt_parse` (C86).

## Wrong programs

`seeded/LOG.jsonl` lists edits of the model that a realistic bug would make. How to read it:

- Each edit was made in a scratch copy. Every lemma whose proof then broke was admitted there, and the build repeated until it went through.
- `theorems_failed` lists the theorems and examples that broke themselves or rest on a lemma admitted this way.
- So a listed theorem is one whose proof no longer goes through. It was not shown that its statement became false: a proof can break although what it proves stays true.
- Whether one of the listed theorems really says the claim was judged by reading the statements. It was not checked by refuting them in the edited model, except where an entry says so or an `Example` that computes is listed.
- Most runs built only the property files nearest to the edit, so a theorem that is missing from a list may not have been built.
- `theorems_tightened` names what was added or strengthened because of the edit.

## Findings

Statements that turned out false of the model, each with a theorem `..._refuted` or a proved exact condition:

1. Deleting rows or columns of a grid always panics (C07). Inserting columns behind the last one panics in debug builds and tears the
   lines of the table apart in release builds (C06). Only tests make such edits.
2. Positions inside a container are not tracked correctly through edits of an enclosing row (C08).
3. Left at the start of a first cell underflows with overflow checks (C11); `index_in_parent` at the root underflows (C44).
4. Backspace and Delete next to a completely typed token, and Delete at the end of a numerator "sum", panic (C19, C20).
5. `splice_at_range` and `apply_autocorrect` set a wrong caret (C27, C28), which can leave the document (C19).
6. Moving by words or lines, and editing or copying while cells of a table are selected, reach `todo!()` (C20).
7. Pasted grids are not validated (C30); deep documents cannot be pasted back (C29).
8. Empty edits are recorded for undo (C40); Shift and an arrow key can get stuck next to a container, exactly where `C39_container` says (C39).
9. Multi-byte characters shift the range of a match (C24, C25); the popup cannot select the second of two entries of one
   rule (C48) and never offers one-character rules (C49).
10. More than 2^32 names wrap around (C32).
11. A space after a sub- or superscript makes the renderer throw, and so do spaces before one at the start of a row, after an opening bracket or after an unknown symbol (C50).
12. In "lim" two caret positions are drawn at the same place (C53).
13. A click into the script of a row that is a script as a whole, within any container (x^(y^2), but also the numerator y^2), gives a position whose row index is repeated (C54_exact, C54_wrong). Usually it does not exist, and the editor panics afterwards. Sometimes it is a position elsewhere in the document (C54_elsewhere): clicking the 2 puts the caret in another row.
14. Reading MathML throws on `<msub></msub>`, gives a grid of width 0 for `<mtable></mtable>` (C58), and drops the
    content of `mstyle` without an error (C59).
15. After a panic the element ignores everything for ever (C62).  With overflow checks, as this repository builds it, Backspace
    or Delete in an empty editor suffices, or Left at the start of a numerator.
16. A drag out of a completely typed token changes the document but not the screen; a renderer that throws leaves
    an outdated screen, and clicks on it give positions that do not exist (C60, C62).
17. Pasting text that is not in the clipboard format throws (C61).
18. Setting the attribute `mathml` while the caret is nested or beyond the end of the new formula kills the
    editor, in all these cases and no others (C63).
19. Undo after loading a formula always removes the formula (C64).
20. `¬a` is read as an infix operator with a missing operand, `a^b` lacks an operator, `1+2x` is `1+2` followed by `x`, and `limit` is the limit of `it` (C68).
21. A click on a symbol only considers the two positions of that symbol, even if one in the numerator next to it is closer (C72).
22. The distance to a segment that is shorter than 0.0032 is that to its first end (C71).
23. `skipWhile` gives the whole array instead of nothing if all elements satisfy the predicate; a function memoized by `memoize` gives
    `undefined` without arguments and the result of the last call when called with its first arguments only (C73). Nothing calls them.
24. A space at the beginning or end of a row or beside a container cannot be imported from MathML: it is read as nothing (C74).
25. Content nested more than 20 deep that is cut cannot be pasted (C75); only undo brings it back.
26. The greedy choice returns the longest match, but parsing goes on where the last parser stopped (C78). Nothing calls it.
27. Dragging out of a container from behind a completely typed token replaces the token (C77).
28. The brackets of a function application do not grow with its argument, unlike brackets around a formula (C81).
29. A text with any other version number is pasted as if it were of version 1 (C83).
30. Every `(` that is typed and not yet closed trebles the calls of the parser (20 of them need 3.5 thousand million) (C86): each
    place is parsed for the questions whether something can be parsed there, and then again. A complete formula is parsed in as many steps as it has parts, except that the scripts of an infix
    operator are read again for every operator before it that is waiting for its operand: `-x =` with a subscript of the same form doubles them.
31. The module objects that `MathModules` exports cannot be used for any parser: `DefaultParser` has taken their pointers, so
    `makeMathParserWith([MathModules.Core])` throws (C89).
32. With an empty symbol in the document, the order of the modules decides which completion is selected (C88); otherwise, contrary to
    the comment in `parse_modules.rs`, the order of the modules is not important.
33. In letters that are written from right to left the bar is at the wrong end of the selection (C90).
34. The MathML that the editor draws cannot be read by the editor: every fraction, root, script and table is read with a symbol "Error" on
    both sides, because the elements that measure the base line (`mphantom`) are not known to the import; spaces are read as "Error" and
    texts get a second pair of quotes (C91).
35. Loading a page puts every formula into its editor twice (`setAttribute`, then `replaceWith` calls `connectedCallback`). The first undo
    does nothing that can be seen, the second removes the formula. A formula that cannot be read leaves an empty editor without a caret, one with
    an empty table an editor that does not work. On the demo page of the repository the 5 in the tenth formula is lost (C92).
36. A script with more than one cell (which can be pasted) is unwrapped by Backspace with the caret in front of its content instead of
    behind it, so that Backspace does not go on (C94).
37. Delete that dissolves a container inside another one looks for the token in front of the caret at a wrong place, and can correct a
    word in another formula part than the one that is edited (C93).
38. Cutting with nothing selected replaces the clipboard by an empty list of nodes and takes a step of undo that changes nothing (C96, `C96_cut_nothing`).
39. After the attribute is set, undo and redo do not give back the caret: the step records another caret than the one that is set (C76, `C76_redo_selection_refuted`).
