(** Model of src/mathml/parsing.ts: reading MathML into a document. *)
From Coq Require Import String.
From Verif Require Import Base Str Grid Node Render.
Open Scope list_scope.
Open Scope nat_scope.
Set Implicit Arguments.

(** An XML node: text, or an element with [tagName.toLowerCase()] and its child nodes. Model of
    the DOM; attributes are not looked at. *)
Inductive Xml := XmlText (text : str) | XmlElement (tag : str) (nodes : list Xml).
Section Elements.
Context {A : Type}.
Variable f : Xml -> A.
(** [f] of the elements in [element.children], which leaves out text nodes. Model of the DOM. *)
Fixpoint on_elements (nodes : list Xml) : list A :=
  match nodes with
  | [] => []
  | XmlText _ :: nodes => on_elements nodes
  | x :: nodes => f x :: on_elements nodes
  end.
End Elements.
(** [element.textContent], model of the DOM *)
Fixpoint text_content (x : Xml) : str :=
  match x with
  | XmlText s => s
  | XmlElement _ nodes => concat (map text_content nodes)
  end.
(** The characters that [String.trim] removes. Model of JavaScript. *)
Definition js_space (c : N) : bool :=
  existsb (N.eqb c) [9; 10; 11; 12; 13; 32; 160; 5760; 8232; 8233; 8239; 8287; 12288; 65279]%N || ((8192 <=? c) && (c <=? 8202))%N.
(** Model of JavaScript *)
Fixpoint trim_start (s : str) : str :=
  match s with
  | [] => []
  | c :: s' => if js_space c then trim_start s' else s
  end.
(** [String.trim], model of JavaScript *)
Definition trim (s : str) : str := rev (trim_start (rev (trim_start s))).

(** parsing.ts:153, 169, 176: the messages of the errors *)
Inductive ImportError :=
| UnexpectedChildren                        (* parsing.ts:153 *)
| UnknownElement (tag : str)                (* parsing.ts:169 *)
| ExpectedChildren (n : nat) (tag : str).   (* parsing.ts:176 *)
(** The types of parsing.ts:78: [InputRow | InputNode], and that or an array of it *)
Inductive Item := ItemRow (row : InputRow) | ItemNode (node : InputNode).
(** parsing.ts:78 *)
Inductive MathLayout := One (i : Item) | Many (l : list Item).

(** Reading throws, or gives a result and pushes errors to the array. Model only. *)
Definition Reading (A : Type) := Res (A * list ImportError).
(** Model only *)
Definition read {A} (a : A) : Reading A := Ok (a, []).
(** Model only: one after the other *)
Definition reading {A B} (r : Reading A) (f : A -> Reading B) : Reading B :=
  ' (a, e) <- r ;; ' (b, e') <- f a ;; Ok (b, e ++ e').
Notation "x <~ e1 ;; e2" := (reading e1 (fun x => e2)) (at level 61, e1 at next level, right associativity).
(** [l.map(f)] where every call can throw or push errors; model of [Array.map] *)
Fixpoint read_all {A} (l : list (Reading A)) : Reading (list A) :=
  match l with
  | [] => read []
  | r :: l => a <~ r ;; l <~ read_all l ;; read (a :: l)
  end.

(** [Array.isArray(v) ? v : [v]], parsing.ts:106-108 *)
Definition as_array (l : MathLayout) : list Item := match l with One i => [i] | Many l => l end.
(** parsing.ts:216-222: the values of an item *)
Definition item_values (i : Item) : InputRow := match i with ItemRow row => row | ItemNode node => [node] end.
(** parsing.ts:204-224 *)
Definition wrap_in_row (l : MathLayout) : InputRow := flat_map item_values (as_array l).
(** parsing.ts:200-202: [tagIs] *)
Definition tag_is (tag : str) (names : list string) : bool := existsb (fun name => str_eqb tag (lit name)) names.

Section Import.
(** [String.normalize("NFD")] and the segments of [Intl.Segmenter] (or the code points if it is
    missing); what is needed of them are hypotheses of the theorems. *)
Variable normalize : str -> str.
Variable segment : str -> list str.
(** parsing.ts:15-19 *)
Definition xml_symbol (s : str) : InputNode := Symbol (normalize s).
(** parsing.ts:182-195; [unicodeSplit(getText(element)).map((v) => symbol(v))] *)
Definition text_symbols (x : Xml) : list Item := map (fun s => ItemNode (xml_symbol s)) (segment (trim (text_content x))).
(** parsing.ts:174-180: [expectNChildren], otherwise [r] is evaluated *)
Definition expect_children (tag : str) (children n : nat) (r : Reading MathLayout) : Reading MathLayout :=
  if children =? n then r else Ok (One (ItemNode (xml_symbol (lit "Error"))), [ExpectedChildren n tag]).
(** parsing.ts:20-74: a container with cells *)
Definition xml_container (v : InputNodeVariant) (cells : list InputRow) (width : nat) : Item := ItemNode (Container v (mkGrid cells width)).
(** parsing.ts:159-163: cell [i] of a row, an empty one if there is none *)
Fixpoint table_line (width : nat) (cells : list (Reading MathLayout)) : list (Reading InputRow) :=
  match width with
  | 0 => []
  | S width =>
      match cells with
      | [] => read [] :: table_line width []
      | c :: cells => (l <~ c ;; read (wrap_in_row l)) :: table_line width cells
      end
  end.
(** parsing.ts:78-172. All children are read here, but only those that the code reads matter:
    one that does not exist is [undefined], of which [toMathLayout] throws a [TypeError]. *)
Fixpoint to_math_layout (x : Xml) : Reading MathLayout :=
  match x with
  | XmlText _ => throw
  | XmlElement tag nodes =>
      let children := on_elements to_math_layout nodes in
      let count := List.length children in
      let child := fun k => nth k children throw in
      let row := fun k => l <~ child k ;; read (wrap_in_row l) in
      let flat := l <~ read_all children ;; read (wrap_in_row (Many (flat_map as_array l))) in
      let script := fun v row => xml_container v [row] 1 in
      if tag_is tag ["math"; "mrow"; "mtd"]%string then r <~ flat ;; read (One (ItemRow r))
      else if tag_is tag ["semantics"]%string && (0 <? count) then child 0
      else if tag_is tag ["mtext"; "ms"]%string then
        let quote := ItemNode (xml_symbol [34%N]) in read (Many ([quote] ++ text_symbols x ++ [quote]))
      else if tag_is tag ["mi"; "mn"]%string then read (Many (text_symbols x))
      else if tag_is tag ["mo"]%string then read (Many (text_symbols x))
      else if tag_is tag ["mfrac"]%string then
        expect_children tag count 2
          (cells <~ read_all (map (fun c => l <~ c ;; read (wrap_in_row l)) children) ;; read (One (xml_container Fraction cells 1)))
      else if tag_is tag ["msqrt"]%string then r <~ flat ;; read (One (xml_container RootV [[xml_symbol (lit "2")]; r] 2))
      else if tag_is tag ["mroot"]%string then
        expect_children tag count 2 (b <~ row 1 ;; a <~ row 0 ;; read (One (xml_container RootV [b; a] 2)))
      else if tag_is tag ["msub"]%string then
        base <~ child 0 ;; expect_children tag count 2 (b <~ row 1 ;; read (Many (as_array base ++ [script Sub b])))
      else if tag_is tag ["msup"]%string then
        base <~ child 0 ;; expect_children tag count 2 (b <~ row 1 ;; read (Many (as_array base ++ [script Sup b])))
      else if tag_is tag ["msubsup"]%string then
        base <~ child 0 ;; expect_children tag count 3 (b <~ row 1 ;; c <~ row 2 ;; read (Many (as_array base ++ [script Sub b; script Sup c])))
      else if tag_is tag ["munder"]%string then
        expect_children tag count 2 (a <~ row 0 ;; b <~ row 1 ;; read (Many (map ItemNode a ++ [script Sub b])))
      else if tag_is tag ["mover"]%string then
        expect_children tag count 2 (a <~ row 0 ;; b <~ row 1 ;; read (Many (map ItemNode a ++ [script Sup b])))
      else if tag_is tag ["munderover"]%string then
        expect_children tag count 3 (a <~ row 0 ;; b <~ row 1 ;; c <~ row 2 ;; read (Many (map ItemNode a ++ [script Sub b; script Sup c])))
      else if tag_is tag ["mtable"]%string then
        if forallb (fun b => b) (on_elements (fun c => match c with
             | XmlElement tag cells => tag_is tag ["mtr"%string] && forallb (fun b => b) (on_elements (fun cc => match cc with XmlElement tag _ => tag_is tag ["mtd"%string] | XmlText _ => false end) cells)
             | XmlText _ => false end) nodes)
        then
          let lines := on_elements (fun c => match c with XmlElement _ cells => on_elements to_math_layout cells | XmlText _ => [] end) nodes in
          let width := fold_left Nat.max (map (@List.length _) lines) 0 in
          cells <~ read_all (flat_map (table_line width) lines) ;; read (One (xml_container Table cells width))
        else Ok (One (ItemNode (xml_symbol (lit "Error"))), [UnexpectedChildren])
      else if tag_is tag ["mstyle"]%string then read (Many [])
      else Ok (One (ItemNode (xml_symbol (lit "Error"))), [UnknownElement tag])
  end.
(** parsing.ts:8-14 *)
Definition from_element (x : Xml) : Res (InputRow * list ImportError) :=
  match x with
  | XmlElement tag _ =>
      _ <- assert_ (tag_is tag ["math"%string]) ;;
      ' (root, errors) <- to_math_layout x ;;
      match root with
      | One (ItemRow row) => Ok (row, errors)
      | _ => throw
      end
  | XmlText _ => throw
  end.
End Import.
