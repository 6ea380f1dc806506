(** What MathML means: the document that an element stands for, following the description of MathML Core (the second part of
    mroot is the index, the parts after the first one of msubsup are the sub- and the superscript, ...) *)
From Coq Require Import String.
From Verif Require Import Base Str Grid Node SpecSafety FromMathML SpecImport.
Open Scope list_scope.
Open Scope nat_scope.

(** White space and line ends in JavaScript: tab, line feed, vertical tab, form feed, carriage return, space, the byte order
    mark and the other space separators of Unicode, and the line and paragraph separators *)
Definition white : list N :=
  [9; 10; 11; 12; 13; 32; 160; 5760; 8192; 8193; 8194; 8195; 8196; 8197; 8198; 8199; 8200; 8201; 8202; 8232; 8233; 8239; 8287; 12288; 65279]%N.
Definition is_white (c : N) : bool := existsb (N.eqb c) white.
Definition blank_text (s : str) : Prop := forall c, In c s -> is_white c = true.
(** The text does not begin or end with white space. *)
Definition tight_text (s : str) : Prop := (forall c l, s = c :: l -> is_white c = false) /\ (forall c l, s = l ++ [c] -> is_white c = false).
Section Means.
(** How texts are cut into symbols, and how a symbol is normalized *)
Variable normalize : str -> str.
Variable segment : str -> list str.
Definition symbols_of (text : str) : InputRow := map (fun s => Symbol (normalize s)) (segment text).
Definition script (v : InputNodeVariant) (row : InputRow) : InputNode := Container v (mkGrid [row] 1).
Inductive means : Xml -> InputRow -> Prop :=
| means_token tag before text after : tag_in tag ["mi"; "mn"; "mo"]%string -> blank_text before -> blank_text after -> tight_text text ->
    means (XmlElement tag [XmlText (before ++ text ++ after)]) (symbols_of text)
| means_string tag before text after : tag_in tag ["mtext"; "ms"]%string -> blank_text before -> blank_text after -> tight_text text ->
    means (XmlElement tag [XmlText (before ++ text ++ after)]) ([Symbol (normalize [34%N])] ++ symbols_of text ++ [Symbol (normalize [34%N])])
| means_row tag nodes rows : tag_in tag ["math"; "mrow"; "mtd"]%string -> mean_each nodes rows -> means (XmlElement tag nodes) (concat rows)
| means_semantics texts x annotations row : (forall t, In t texts -> exists s, t = XmlText s) -> means x row ->
    means (XmlElement (lit "semantics") (texts ++ x :: annotations)) row
| means_fraction nodes a b : mean_each nodes [a; b] -> means (XmlElement (lit "mfrac") nodes) [Container Fraction (mkGrid [a; b] 1)]
| means_square_root nodes rows : mean_each nodes rows ->
    means (XmlElement (lit "msqrt") nodes) [Container RootV (mkGrid [[Symbol (normalize (lit "2"))]; concat rows] 2)]
| means_root nodes radicand index : mean_each nodes [radicand; index] -> means (XmlElement (lit "mroot") nodes) [Container RootV (mkGrid [index; radicand] 2)]
| means_sub tag nodes base below : tag_in tag ["msub"; "munder"]%string -> mean_each nodes [base; below] -> means (XmlElement tag nodes) (base ++ [script Sub below])
| means_sup tag nodes base above : tag_in tag ["msup"; "mover"]%string -> mean_each nodes [base; above] -> means (XmlElement tag nodes) (base ++ [script Sup above])
| means_sub_sup tag nodes base below above : tag_in tag ["msubsup"; "munderover"]%string -> mean_each nodes [base; below; above] ->
    means (XmlElement tag nodes) (base ++ [script Sub below; script Sup above])
| means_table nodes width lines : mean_lines nodes lines -> (forall line, In line lines -> List.length line <= width) -> (exists line, In line lines /\ List.length line = width) ->
    means (XmlElement (lit "mtable") nodes) [Container Table (mkGrid (flat_map (fun line => line ++ repeat [] (width - List.length line)) lines) width)]
(** The elements one after the other; text between them does not count. *)
with mean_each : list Xml -> list InputRow -> Prop :=
| each_nil : mean_each [] []
| each_text s nodes rows : mean_each nodes rows -> mean_each (XmlText s :: nodes) rows
| each_cons x nodes row rows : means x row -> mean_each nodes rows -> mean_each (x :: nodes) (row :: rows)
(** The lines of a table with their cells *)
with mean_lines : list Xml -> list (list InputRow) -> Prop :=
| lines_nil : mean_lines [] []
| lines_text s nodes lines : mean_lines nodes lines -> mean_lines (XmlText s :: nodes) lines
| lines_cons content nodes line lines : mean_each content line -> (forall c, In c content -> is_element c = true -> exists l, c = XmlElement (lit "mtd") l) ->
    mean_lines nodes lines -> mean_lines (XmlElement (lit "mtr") content :: nodes) (line :: lines).
End Means.
Scheme means_mut := Induction for means Sort Prop
  with mean_each_mut := Induction for mean_each Sort Prop
  with mean_lines_mut := Induction for mean_lines Sort Prop.
Combined Scheme means_mutind from means_mut, mean_each_mut, mean_lines_mut.
(** A symbol that can be written as a text on its own *)
Definition writable (normalize : str -> str) (segment : str -> list str) (s : str) : Prop := tight_text s /\ segment s = [s] /\ normalize s = s.
(** The shapes of containers that MathML has *)
Definition shape (v : InputNodeVariant) (cells w : nat) : Prop :=
  match v with
  | Fraction => cells = 2 /\ w = 1
  | RootV => cells = 2 /\ w = 2
  | Sub | Sup => cells = 1 /\ w = 1
  | Table => True
  end.
(** What can be written as MathML *)
Definition expressible (normalize : str -> str) (segment : str -> list str) (x : Part) : Prop :=
  match x with
  | PartSymbol s => writable normalize segment s
  | PartContainer v cells w => shape v cells w
  end.
(** A row that consists of texts, and of containers of these shapes with such rows *)
Inductive written (normalize : str -> str) (segment : str -> list str) : InputRow -> Prop :=
| written_nil : written normalize segment []
| written_text text row : tight_text text -> written normalize segment row -> written normalize segment (symbols_of normalize segment text ++ row)
| written_container v cells w row : shape v (List.length cells) w -> (forall cell, In cell cells -> written normalize segment cell) -> written normalize segment row ->
    written normalize segment (Container v (mkGrid cells w) :: row).
(** Only white space *)
Definition all_white (row : InputRow) : Prop := forall n, In n row -> exists c, n = Symbol [c] /\ is_white c = true.
(** White space is only between symbols, neither at the beginning or the end of the row nor beside a container. *)
Definition white_inside (row : InputRow) : Prop := forall a c b, row = a ++ Symbol [c] :: b -> is_white c = true ->
  (exists a' d m, a = a' ++ Symbol [d] :: m /\ is_white d = false /\ all_white m) /\
  (exists m d b', b = m ++ Symbol [d] :: b' /\ is_white d = false /\ all_white m).
(** Characters, and containers of the shapes above *)
Definition plain_node (n : InputNode) : Prop :=
  match n with
  | Symbol s => exists c, s = [c]
  | Container v g => shape v (List.length (gvalues g)) (gwidth g)
  end.
