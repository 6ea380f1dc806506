(** Model of src/mathml/render-result.ts and of the [getCaretPosition] of the elements in
    src/mathml/renderer/*.ts. What the browser measures is left open: a caret position is a
    [Spot], and distances are given by functions. *)
From Verif Require Import Base Str Grid Node NameMap Syntax SyntaxFind Render.
Set Implicit Arguments.

(** * Caret positions *)
(** A spot of an element: its left or right edge, the left edge of one of its text nodes, the
    right edge of its last text node, the middle, or one of the baseline readers. Model of what [getCaretPosition] measures, rendering/render-result.ts:83-87. *)
Inductive Spot := AtLeft | AtRight | AtText (k : nat) | AtLastText | AtMiddle | AtStartReader | AtEndReader.
(** The element is given by the indices of the children on the way from the root. Model only. *)
Definition Place := (list nat * Spot)%type.
(** rendered-leaf.ts:16-31: a leaf without text nodes throws a [TypeError] *)
Definition leaf_spot (symbols : list str) (start offset : nat) : Res Spot :=
  if length symbols =? 0 then throw
  else if length symbols <=? offset - start then Ok AtLastText else Ok (AtText (offset - start)).
(** [syntaxTree.range.start <= offset && offset <= syntaxTree.range.end]; src/core/index.ts:107-115: [offsetInRange] *)
Definition offset_in_range (n : SyntaxNode) (offset : nat) : bool := (fst (syn_range n) <=? offset) && (offset <=? snd (syn_range n)).
(** rendering/render-result.ts:83-87; the branches cite the files *)
Fixpoint get_caret_position (x : Element) (path : list nat) (offset : nat) : Res Place :=
  match x with
  | mkElement class tree _ children =>
      let start := fst (syn_range tree) in
      let end_ := snd (syn_range tree) in
      match class with
      | SimpleContainer _ =>
          (* rendered-container-element.ts:37-48 *)
          _ <- assert_ (offset_in_range tree offset) ;;
          (fix go k l :=
             match l with
             | [] => throw
             | c :: l => if offset_in_range (el_tree c) offset then get_caret_position c (path ++ [k]) offset else go (S k) l
             end) 0 children
      | RowsContainer _ | RootElement | TableElement =>
          (* rendered-rows-element.ts:44-63, rendered-root-element.ts:50-69, rendered-table-element.ts:56-75 *)
          _ <- assert_ (offset_in_range tree offset) ;;
          if offset =? start then Ok (path, AtStartReader)
          else if offset =? end_ then Ok (path, AtEndReader)
          else throw
      | TextElement _ =>
          (* rendered-text-element.ts:29-44; the baseline is that of a text node *)
          _ <- assert_ (offset_in_range tree offset) ;;
          text <- leaf_spot (leaf_symbols tree) start offset ;;
          Ok (path, if offset <=? start then AtLeft else if end_ <=? offset then AtRight else text)
      | SymbolElement _ _ =>
          (* rendered-symbol-element.ts:43-63 *)
          _ <- assert_ (offset_in_range tree offset) ;;
          if offset <=? start then Ok (path, AtLeft)
          else if end_ <=? offset then Ok (path, AtRight)
          else text <- leaf_spot (leaf_symbols tree) start offset ;; Ok (path, text)
      | MissingElement | NothingElement =>
          (* rendered-missing.ts:27-33, rendered-nothing.ts:24-31 *)
          _ <- assert_ (offset =? start) ;;
          Ok (path, AtMiddle)
      end
  end.

(** * Finding elements *)
(** mathml/render-result.ts:238-254 *)
Fixpoint get_child_with_container_index (x : Element) (k : nat) : Element :=
  match x with
  | mkElement _ tree _ children =>
      match syn_children tree with
      | Children _ =>
          (fix go l :=
             match l with
             | [] => x
             | c :: l => if in_range (el_tree c) k then get_child_with_container_index c k else go l
             end) children
      | _ => x
      end
  end.
(** mathml/render-result.ts:97 *)
Definition has_row (j : nat) (x : Element) : bool := match el_row_index x with Some (_, j') => j' =? j | None => false end.
(** mathml/render-result.ts:89-102 *)
Fixpoint get_element (x : Element) (indices : RowIndices) : Res Element :=
  match indices with
  | [] => Ok x
  | (k, j) :: indices =>
      _ <- assert_ (in_range (el_tree x) k) ;;
      match List.find (has_row j) (get_children (get_child_with_container_index x k)) with
      | Some c => get_element c indices
      | None => throw
      end
  end.

(** * Clicking *)
(** An element, where it is, and the indices that the search has collected; mathml/render-result.ts:9-12 *)
Definition Candidate := (Element * list nat * RowIndices)%type.
(** row-indices.ts:18-21 *)
Definition add_row_index (indices : RowIndices) (i : option RowIndex) : RowIndices :=
  match i with Some i => indices ++ [i] | None => indices end.
Section Click.
(** [distanceToRectangle(position, element.getBounds())] and [distanceToPoint(position, _)]
    for the position that was clicked. Only the order of distances and being 0 matters, so
    natural numbers can stand for them. *)
Variable to_bounds : list nat -> nat.
Variable to_place : Place -> nat.
(** mathml/render-result.ts:108-123 *)
Fixpoint layout_element_containing (x : Element) (path : list nat) (indices : RowIndices) : option Candidate :=
  if 0 <? to_bounds path then None
  else
    match (fix go k l :=
             match l with
             | [] => None
             | c :: l =>
                 match layout_element_containing c (path ++ [k]) (add_row_index indices (el_row_index c)) with
                 | Some v => Some v
                 | None => go (S k) l
                 end
             end) 0 (get_children x) with
    | Some v => Some v
    | None => Some (x, path, indices)
    end.
(** mathml/render-result.ts:107-131 *)
Definition get_layout_element (root : Element) : Candidate :=
  match layout_element_containing root [] [] with Some v => v | None => (root, [], []) end.
(** mathml/render-result.ts:204-214: the offsets from [i] on, [n] of them *)
Fixpoint closest_position_in_row (x : Element) (path : list nat) (i n : nat) (closest : option (nat * nat)) : Res (option (nat * nat)) :=
  match n with
  | 0 => Ok closest
  | S n =>
      p <- get_caret_position x path i ;;
      let d := to_place p in
      closest_position_in_row x path (S i) n
        match closest with
        | Some (_, d') => if d <? d' then Some (i, d) else closest
        | None => Some (i, d)
        end
  end.
(** mathml/render-result.ts:192-217 *)
Definition get_closest_position_in_row (x : Element) (path : list nat) : Res (option (nat * nat)) :=
  let (s, e) := syn_range (el_tree x) in closest_position_in_row x path s (S e - s) None.
(** mathml/render-result.ts:222-225 with the paths of the elements *)
Fixpoint get_new_rows_children (x : Element) (path : list nat) : list (Element * list nat) :=
  (fix go k l :=
     match l with
     | [] => []
     | c :: l =>
         match el_row_index c with
         | Some _ => [(c, path ++ [k])]
         | None => get_new_rows_children c (path ++ [k])
         end ++ go (S k) l
     end) 0 (get_children x).
(** mathml/render-result.ts:155-189; the first of [roots] is the last one of the array. The closest
    position comes with its distance. *)
Fixpoint layout_position_loop (fuel : nat) (roots : list Candidate) (closest : option (RowIndices * nat * nat)) : Res (option (RowIndices * nat * nat)) :=
  match roots with
  | [] => Ok closest
  | (x, path, indices) :: roots =>
      match fuel with
      | 0 => Panic PFuel
      | S fuel =>
          if match closest with Some (_, d) => d <? to_bounds path | None => false end
          then layout_position_loop fuel roots closest
          else
            o <- get_closest_position_in_row x path ;;
            match o with
            | None => layout_position_loop fuel roots closest
            | Some (offset, d) =>
                let closest := match closest with Some (_, d') => if d <? d' then Some (indices, offset, d) else closest | None => Some (indices, offset, d) end in
                layout_position_loop fuel
                  (rev (map (fun '(c, path) => (c, path, add_row_index indices (el_row_index c))) (get_new_rows_children x path)) ++ roots) closest
            end
      end
  end.
(** The number of elements; Model only *)
Fixpoint element_size (x : Element) : nat := S (list_sum (map element_size (get_children x))).
(** mathml/render-result.ts:133-229 *)
Definition get_layout_position (root : Element) : Res (RowIndices * nat) :=
  o <- layout_position_loop (element_size root) [get_layout_element root] None ;;
  match o with
  | Some (indices, offset, _) => Ok (indices, offset)
  | None => throw
  end.
End Click.

(** * Selections *)
(** mathml/render-result.ts:37-65: the elements whose bounds are joined; the height of none is
    infinite *)
Section Selection.
Variable selection_left selection_right : nat.
(** mathml/render-result.ts:37-65 *)
Fixpoint selection_elements (x : Element) (path : list nat) : list (list nat) :=
  match x with
  | mkElement _ tree _ children =>
      let (s, e) := syn_range tree in
      if (selection_right <=? s) || (e <=? selection_left) then []
      else if negb ((selection_left <=? s) && (e <=? selection_right)) && (0 <? length children)
      then
        (fix go k l :=
           match l with
           | [] => []
           | c :: l => selection_elements c (path ++ [k]) ++ go (S k) l
           end) 0 children
      else [path]
  end.
End Selection.
(** mathml/render-result.ts:19-80: the places of both ends, and what gives the height: elements, or
    the place of the caret for an empty selection *)
Definition get_viewport_selection (root : Element) (indices : RowIndices) (start end_ : nat) : Res (Place * Place * list (list nat)) :=
  x <- get_element root indices ;;
  _ <- get_caret_position x [] 0 ;;
  a <- get_caret_position x [] start ;;
  b <- get_caret_position x [] end_ ;;
  Ok (a, b, if start =? end_ then [] else selection_elements (Nat.min start end_) (Nat.max start end_) x []).
