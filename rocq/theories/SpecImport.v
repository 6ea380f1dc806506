(** Specifications about reading MathML. *)
From Coq Require Import String.
From Verif Require Import Base Str Grid Node FromMathML.
Open Scope list_scope.
Open Scope nat_scope.
Set Implicit Arguments.

Definition is_element (x : Xml) : bool := match x with XmlElement _ _ => true | XmlText _ => false end.
(** The child elements *)
Definition elements (nodes : list Xml) : list Xml := filter is_element nodes.
Definition tag_in (tag : str) (names : list string) : Prop := exists name, In name names /\ tag = lit name.
(** The number of parts of MathML elements with a fixed number of them *)
Inductive parts : str -> nat -> Prop :=
| two_parts tag : tag_in tag ["mfrac"; "mroot"; "msub"; "msup"; "munder"; "mover"]%string -> parts tag 2
| three_parts tag : tag_in tag ["msubsup"; "munderover"]%string -> parts tag 3.
(** The children of a table are rows, their children are cells. *)
Definition table_shape (nodes : list Xml) : Prop :=
  forall line, In line (elements nodes) -> exists cells, line = XmlElement (lit "mtr") cells /\
  forall cell, In cell (elements cells) -> exists content, cell = XmlElement (lit "mtd") content.
(** The descendants whose content becomes part of the document: in elements with a wrong number
    of parts, tables of something else, mstyle and unknown elements there are none. *)
Inductive kept_child : Xml -> Xml -> Prop :=
| kept_row tag nodes c : tag_in tag ["math"; "mrow"; "mtd"; "msqrt"]%string -> In c (elements nodes) -> kept_child (XmlElement tag nodes) c
| kept_semantics nodes c l : elements nodes = c :: l -> kept_child (XmlElement (lit "semantics") nodes) c
| kept_part tag nodes c n : parts tag n -> List.length (elements nodes) = n -> In c (elements nodes) -> kept_child (XmlElement tag nodes) c
| kept_cell nodes t cells c : table_shape nodes -> In (XmlElement t cells) (elements nodes) -> In c (elements cells) ->
    kept_child (XmlElement (lit "mtable") nodes) c.
Inductive kept : Xml -> Xml -> Prop :=
| kept_self x : kept x x
| kept_below x c y : kept_child x c -> kept c y -> kept x y.
(** The first part of a sub- or superscript is looked at even if the number of parts is wrong. *)
Definition script_tags : list string := ["msub"; "msup"; "msubsup"]%string.
Inductive looked_at : Xml -> Xml -> Prop :=
| looked_self x : looked_at x x
| looked_below x c y : kept_child x c -> looked_at c y -> looked_at x y
| looked_base tag nodes c l y : tag_in tag script_tags -> elements nodes = c :: l -> looked_at c y -> looked_at (XmlElement tag nodes) y.
Definition empty_script (x : Xml) : Prop := exists tag nodes, x = XmlElement tag nodes /\ tag_in tag script_tags /\ elements nodes = [].
(** A table without cells *)
Definition empty_table (x : Xml) : Prop := exists nodes, x = XmlElement (lit "mtable") nodes /\
  forall line, In line (elements nodes) -> exists cells, line = XmlElement (lit "mtr") cells /\ elements cells = [].

(** Elements for text *)
Definition token_tags : list string := ["mi"; "mn"; "mo"; "mtext"; "ms"]%string.
Definition is_token (tag : str) : bool := existsb (fun name => str_eqb tag (lit name)) token_tags.
(** The texts in elements for text, from first to last *)
Fixpoint token_texts (x : Xml) : list str :=
  match x with
  | XmlText _ => []
  | XmlElement tag nodes => if is_token tag then [trim (text_content x)] else flat_map token_texts nodes
  end.
(** An element at any depth *)
Inductive inside : Xml -> Xml -> Prop :=
| inside_self x : inside x x
| inside_below tag nodes c y : In c nodes -> inside c y -> inside (XmlElement tag nodes) y.
(** [c] consists of [a] with elements of [b] in between. *)
Inductive interleaved {A} : list A -> list A -> list A -> Prop :=
| interleaved_nil : interleaved [] [] []
| interleaved_left x a b c : interleaved a b c -> interleaved (x :: a) b (x :: c)
| interleaved_right x a b c : interleaved a b c -> interleaved a (x :: b) (x :: c).

(** The symbols of a formula without errors, from first to last: strings are put in quotes, a
    square root has a 2 in front, the index of a root stands in front of what is under it, of
    several versions of a formula the first counts, and what is in mstyle is left out. *)
Fixpoint shown (segment : str -> list str) (x : Xml) : list str :=
  match x with
  | XmlText _ => []
  | XmlElement tag nodes =>
      let parts := flat_map (fun c => match c with XmlText _ => [] | XmlElement _ _ => [shown segment c] end) nodes in
      if existsb (fun name => str_eqb tag (lit name)) ["mtext"; "ms"]%string then [lit """"] ++ segment (trim (text_content x)) ++ [lit """"]
      else if is_token tag then segment (trim (text_content x))
      else if str_eqb tag (lit "msqrt") then lit "2" :: concat parts
      else if str_eqb tag (lit "mroot") then concat (rev parts)
      else if str_eqb tag (lit "semantics") then hd [] parts
      else if str_eqb tag (lit "mstyle") then []
      else concat parts
  end.
