(** Model of src/mathml/renderer.ts and of the elements in src/mathml/renderer/*.ts. A
    failing [assert] or a [TypeError] throws, which is [Panic PAssert] here. *)
From Coq Require Import String.
From Verif Require Import Base Str Grid Node NameMap Syntax Pratt Grammar.
Open Scope list_scope.
Open Scope nat_scope.
Set Implicit Arguments.

(** Model of [throw]: a failing assert, src/utils/assert.ts:3-7 *)
Definition throw {A} : Res A := Panic PAssert.
Section Map.
Context {A B : Type}.
Variable f : nat -> A -> Res B.
(** [l.map((x, k) => f(k, x))] where [f] can throw, model of [Array.map]. *)
Fixpoint mapi_res (k : nat) (l : list A) : Res (list B) :=
  match l with
  | [] => Ok []
  | x :: l => y <- f k x ;; r <- mapi_res (S k) l ;; Ok (y :: r)
  end.
End Map.

(** mathml-spec.ts:1-32; the tags that are used by the renderer *)
Inductive Tag := Tmi | Tmn | Tmo | Tmspace | Tmtext | Tmerror | Tmrow | Tmfrac | Tmroot | Tmsub | Tmsup | Tmtable | Tmtr | Tmtd | Tmphantom.
(** mathml-spec.ts:40-72; [ToDo] is the string that is different from any number *)
Inductive Expected := AnyNumber | Exactly (n : nat) | ToDo.
(** mathml-spec.ts:40-72 *)
Definition expected_children (t : Tag) : Expected :=
  match t with
  | Tmfrac | Tmroot | Tmsub | Tmsup => Exactly 2
  | Tmrow | Tmerror | Tmtable | Tmtr | Tmtd => AnyNumber
  | Tmi | Tmn | Tmo | Tmspace | Tmtext | Tmphantom => ToDo
  end.
(** rendered-element.ts:38-43 *)
Definition right_number (t : Tag) (n : nat) : bool :=
  match expected_children t with AnyNumber => true | Exactly k => k =? n | ToDo => false end.

(** The classes of src/mathml/renderer/, with the fields [syntaxTree], [rowIndex] and the
    children of [element]. Elements for text have no children. The constructors cite the files. *)
Inductive ElementClass :=
| SimpleContainer (tag : Tag)             (* rendered-container-element.ts:12-56 *)
| RowsContainer (tag : Tag)               (* rendered-rows-element.ts:12-73 *)
| RootElement                             (* rendered-root-element.ts:12-79 *)
| TableElement                            (* rendered-table-element.ts:8-85 *)
| TextElement (tag : Tag)                 (* rendered-text-element.ts:14-51 *)
| SymbolElement (tag : Tag) (stretchy : bool)   (* rendered-symbol-element.ts:14-70 *)
| MissingElement                          (* rendered-missing.ts:9-40 *)
| NothingElement.                         (* rendered-nothing.ts:9-38 *)
(** rendering/render-result.ts:65-98: the interface [RenderedElement] *)
Inductive Element := mkElement (class : ElementClass) (tree : SyntaxNode) (row_index : option RowIndex) (children : list Element).
(** Model only *)
Definition el_class (x : Element) : ElementClass := match x with mkElement c _ _ _ => c end.
(** rendering/render-result.ts:69 *)
Definition el_tree (x : Element) : SyntaxNode := match x with mkElement _ t _ _ => t end.
(** rendering/render-result.ts:71 *)
Definition el_row_index (x : Element) : option RowIndex := match x with mkElement _ _ r _ => r end.
(** rendering/render-result.ts:81 *)
Definition get_children (x : Element) : list Element := match x with mkElement _ _ _ c => c end.

(** rendering/render-result.ts:10-13. The override is always the function of
    renderer.ts:88-91 or 98-101, which ignores its second argument and takes the row index of the
    sub- or superscript; only that one is stored. *)
Record Options := mkOptions { opt_stretchy : bool; opt_override : option (option RowIndex) }.
(** renderer.ts:288: the default of the options *)
Definition no_options : Options := mkOptions false None.

(** The functions that are registered in renderer.ts:47-207. *)
Inductive Renderer :=
| RenderNothing | RenderText (tag : Tag) | RenderWhitespaces | RenderOperator | RenderRows (tag : Tag)
| RenderScript (tag : Tag) | RenderRoot | RenderTable | RenderMissing | RenderSimple (stretchy : bool).
(** renderer.ts:217-277: [rendererCollection] *)
Definition renderers_of (part : string) (names : list string) (r : Renderer) : list (PathIdentifier * Renderer) :=
  map (fun name => ([lit part; lit name], r)) names.
(** renderer.ts:47-207 *)
Definition renderer_table : list (PathIdentifier * Renderer) :=
  renderers_of "BuiltIn" ["Nothing"%string] RenderNothing ++
  renderers_of "BuiltIn" ["Whitespace"%string] (RenderText Tmspace) ++
  renderers_of "BuiltIn" ["Whitespaces"%string] RenderWhitespaces ++
  renderers_of "BuiltIn" ["Operator"%string] RenderOperator ++
  renderers_of "BuiltIn" ["Fraction"%string] (RenderRows Tmfrac) ++
  renderers_of "BuiltIn" ["Sup"%string] (RenderScript Tmsup) ++
  renderers_of "BuiltIn" ["Sub"%string] (RenderScript Tmsub) ++
  renderers_of "BuiltIn" ["Root"%string] RenderRoot ++
  renderers_of "BuiltIn" ["Table"%string] RenderTable ++
  renderers_of "Error" ["MissingToken"%string] RenderMissing ++
  renderers_of "Error" ["UnknownToken"%string] (RenderText Tmerror) ++
  renderers_of "Error" ["MissingOperator"%string] (RenderSimple false) ++
  renderers_of "Core" ["Variable"%string] (RenderText Tmi) ++
  renderers_of "Core" ["RoundBrackets"%string] (RenderSimple true) ++
  renderers_of "Arithmetic" ["Number"%string] (RenderText Tmn) ++
  renderers_of "Arithmetic" ["Add"; "Subtract"; "Multiply"; "Divide"; "Exponent"; "Factorial"]%string (RenderSimple false) ++
  renderers_of "Calculus" ["Infinity"%string] (RenderText Tmi) ++
  renderers_of "Calculus" ["Lim"; "LimSup"; "LimInf"]%string (RenderSimple false) ++
  renderers_of "Calculus" ["Integral"; "Sum"]%string (RenderSimple false) ++
  renderers_of "Comparison" ["Equals"; "GreaterThan"; "LessThan"; "GreaterThanOrEquals"; "LessThanOrEquals"]%string (RenderSimple false) ++
  renderers_of "Collections" ["Tuple"%string] (RenderSimple false) ++
  renderers_of "Function" ["FunctionApplication"%string] (RenderSimple false) ++
  renderers_of "String" ["String"%string] (RenderText Tmtext) ++
  renderers_of "Logic" ["True"; "False"]%string (RenderText Tmi) ++
  renderers_of "Logic" ["And"; "Or"; "Not"; "Equivalent"; "Implies"]%string (RenderSimple false).

(** The map from names to renderers; names stand for their ids (C32), and paths for the
    strings that [joinPathIdentifier] makes of them. renderer.ts:29-36. *)
Definition Renderers := HashMap PathIdentifier Renderer.
(** renderer.ts:290 *)
Definition get_renderer (rs : Renderers) (name : PathIdentifier) : option Renderer := hm_get path_eqb rs name.
(** renderer.ts:220-251: a renderer without a name id is skipped *)
Definition add_renderer (names : list PathIdentifier) (rs : Renderers) (entry : PathIdentifier * Renderer) : Res Renderers :=
  if existsb (path_eqb (fst entry)) names
  then match get_renderer rs (fst entry) with
       | Some _ => throw
       | None => Ok (hm_insert path_eqb rs (fst entry) (snd entry))
       end
  else Ok rs.
(** renderer.ts:47-207: the calls of [add] *)
Fixpoint add_renderers (names : list PathIdentifier) (rs : Renderers) (l : list (PathIdentifier * Renderer)) : Res Renderers :=
  match l with
  | [] => Ok rs
  | x :: l => rs <- add_renderer names rs x ;; add_renderers names rs l
  end.
(** renderer.ts:40-212; [names] are the names in the name map *)
Definition make_renderers (names : list PathIdentifier) : Res Renderers :=
  rs <- add_renderers names [] renderer_table ;;
  _ <- assert_ (forallb (fun name => match get_renderer rs name with Some _ => true | None => false end) names) ;;
  Ok rs.

(** parse_module.rs:33-42: the name that a rule registers *)
Definition rule_name (r : ParseRule) : PathIdentifier :=
  match r with NameOnly n | RAtom n _ | RPrefix n _ _ | RLeftInfix n _ _ | RRightInfix n _ _ | RPostfix n _ _ => n end.
(** parse_modules.rs:24-26: [with_rule_name] for every rule *)
Definition grammar_names (g : Grammar) : list PathIdentifier := map rule_name (g_rules g).

(** src/core/index.ts:100-102: [hasSyntaxNodeChildren(_, "NewRows")] *)
Definition is_new_rows (n : option SyntaxNode) : bool :=
  match n with Some (mkSyntax _ (NewRows _) _ _) => true | _ => false end.
Section Render.
Variable rs : Renderers.
(** renderer.ts:285-295 and the registered functions, with the constructors of the elements *)
Fixpoint render (n : SyntaxNode) (row_index : option RowIndex) (o : Options) {struct n} : Res Element :=
  match n with
  | mkSyntax name c s e =>
      (* rendered-container-element.ts:25 *)
      let render_children := fun o =>
        match c with
        | Children l => mapi_res (fun _ c => render c None o) 0 l
        | NewRows _ | Leaf _ _ => throw
        end in
      (* rendered-rows-element.ts:31, rendered-root-element.ts:31, rendered-table-element.ts:25-27 *)
      let render_rows :=
        match c with
        | NewRows (mkGrid l _) => mapi_res (fun j c => render c (Some (s, j)) no_options) 0 l
        | Children _ | Leaf _ _ => throw
        end in
      (* rendered-container-element.ts:15-28 *)
      let simple_container := fun tag o =>
        l <- render_children o ;;
        _ <- assert_ (0 <? List.length l) ;;
        _ <- assert_ (right_number tag (List.length l)) ;;
        Ok (mkElement (SimpleContainer tag) n row_index l) in
      (* rendered-rows-element.ts:17-35, rendered-root-element.ts:17-41; the number of
         children is compared with the one of [tag] *)
      let rows_container := fun class tag (row_index : option RowIndex) =>
        _ <- assert_ (S s =? e) ;;
        l <- render_rows ;;
        _ <- assert_ (0 <? List.length l) ;;
        _ <- assert_ (right_number tag (List.length l)) ;;
        Ok (mkElement class n row_index l) in
      match get_renderer rs name with
      | None => throw
      | Some RenderNothing =>
          match c with
          | Children [] => _ <- assert_ (s =? e) ;; Ok (mkElement NothingElement n row_index [])
          | _ => throw
          end
      | Some RenderMissing =>
          match c with
          | Children [] => _ <- assert_ (s =? e) ;; Ok (mkElement MissingElement n row_index [])
          | _ => throw
          end
      | Some (RenderText tag) =>
          match c with Leaf _ _ => Ok (mkElement (TextElement tag) n row_index []) | _ => throw end
      | Some RenderWhitespaces => simple_container Tmrow o
      | Some RenderOperator =>
          match c with
          | Leaf _ _ => Ok (mkElement (SymbolElement Tmo (opt_stretchy o)) n row_index [])
          | Children _ => simple_container Tmrow no_options
          | NewRows _ =>
              match opt_override o with
              | Some row_index => rows_container (RowsContainer Tmrow) Tmrow row_index
              | None => throw
              end
          end
      | Some (RenderRows tag) => rows_container (RowsContainer tag) tag row_index
      | Some (RenderScript tag) =>
          match c with
          | Children l =>
              _ <- assert_ (is_new_rows (nth_error l 1)) ;;
              simple_container tag (mkOptions false (Some row_index))
          | _ => throw
          end
      | Some RenderRoot => rows_container RootElement Tmroot row_index
      | Some RenderTable =>
          match c with
          | NewRows (mkGrid l w) =>
              _ <- assert_ (0 <? List.length l) ;;
              (* rendered-table-element.ts:28-43: does not end for a width of 0; there is one
                 mtr for every started row *)
              _ <- (if w =? 0 then Panic PFuel else assert_ ((List.length l + (w - 1)) / w =? List.length l / w)) ;;
              rows_container TableElement Tmtable row_index
          | _ => throw
          end
      | Some (RenderSimple stretchy) => simple_container Tmrow (mkOptions stretchy None)
      end
  end.
(** renderer.ts:280-283 *)
Definition render_all (n : SyntaxNode) : Res Element := render n None no_options.
End Render.

(** * The DOM *)
(** A MathML element with its tag, the attribute "stretchy" and children, or a text node. Model of the DOM. *)
Inductive Dom :=
| DomElement (tag : Tag) (stretchy : bool) (children : list Dom)
| DomText (text : str).
(** rendered-element.ts:54-60 *)
Definition create_math_element (tag : Tag) (children : list Dom) : Dom := DomElement tag false children.
(** rendered-element.ts:66-72 *)
Definition wrap_in_mrow (l : list Dom) : Dom := match l with [x] => x | _ => create_math_element Tmrow l end.
(** rendered-table-element.ts:30-38: slices of a given length *)
Fixpoint table_rows (fuel w : nat) (l : list Dom) : list Dom :=
  match fuel, l with
  | 0, _ | _, [] => []
  | S fuel, _ => create_math_element Tmtr (map (fun x => create_math_element Tmtd [x]) (firstn w l)) :: table_rows fuel w (skipn w l)
  end.
(** rendered-element.ts:77-79 *)
Definition placeholder : str := [11034%N].
(** rendered-missing.ts:17 *)
Definition missing_text : str := [160%N; 160%N].
(** rendered-leaf.ts:13-15 *)
Definition leaf_symbols (n : SyntaxNode) : list str := match syn_children n with Leaf _ l => l | _ => [] end.
(** The DOM nodes made by the constructors; [getElements] of the elements; rendered-container-element.ts:50-52, rendered-rows-element.ts:65-68, rendered-root-element.ts:71-74, rendered-table-element.ts:77-80 *)
Fixpoint get_elements (x : Element) : list Dom :=
  match x with
  | mkElement class tree _ children =>
      let child_elements := map (fun x => wrap_in_mrow (get_elements x)) children in
      let with_readers := fun x => [create_math_element Tmphantom []; x; create_math_element Tmphantom []] in
      match class with
      | SimpleContainer tag => [create_math_element tag child_elements]
      | RowsContainer tag => with_readers (create_math_element tag child_elements)
      | RootElement => with_readers (create_math_element Tmroot (rev child_elements))
      | TableElement =>
          with_readers (create_math_element Tmtable
            match syn_children tree with NewRows g => table_rows (List.length child_elements) (gwidth g) child_elements | _ => [] end)
      | TextElement tag => [create_math_element tag (map DomText (leaf_symbols tree))]
      | SymbolElement tag stretchy => [DomElement tag stretchy (map DomText (leaf_symbols tree))]
      | MissingElement => [create_math_element Tmi [DomText missing_text]]
      | NothingElement => [create_math_element Tmi [DomText placeholder]]
      end
  end.
