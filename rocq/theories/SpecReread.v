(** What is drawn, read again as if it were the formula of a page. *)
From Coq Require Import String.
From Verif Require Import Base Str Grid Node Syntax Pratt Render FromMathML SpecSafety.
Open Scope list_scope.
Open Scope nat_scope.

(** The elements of the drawing as elements of a page *)
Definition tag_name (t : Tag) : str :=
  lit match t with
  | Tmi => "mi" | Tmn => "mn" | Tmo => "mo" | Tmspace => "mspace" | Tmtext => "mtext" | Tmerror => "merror" | Tmrow => "mrow" | Tmfrac => "mfrac" | Tmroot => "mroot"
  | Tmsub => "msub" | Tmsup => "msup" | Tmtable => "mtable" | Tmtr => "mtr" | Tmtd => "mtd" | Tmphantom => "mphantom"
  end.
Fixpoint as_xml (d : Dom) : Xml :=
  match d with
  | DomElement tag _ l => XmlElement (tag_name tag) (map as_xml l)
  | DomText t => XmlText t
  end.
Definition as_math (l : list Dom) : Xml := XmlElement (lit "math") (map as_xml l).
(** Nothing is drawn as an error. *)
Fixpoint clean (d : Dom) : bool :=
  match d with
  | DomElement Tmerror _ _ => false
  | DomElement _ _ l => forallb clean l
  | DomText _ => true
  end.

(** The document with a symbol "Error" on both sides of every fraction, root and table, and of the contents of every
    script *)
Definition oops : InputNode := Symbol (lit "Error").
Fixpoint noisy (n : InputNode) : InputRow :=
  match n with
  | Symbol s => [Symbol s]
  | Container v (mkGrid cells w) =>
      let rows := map (flat_map noisy) cells in
      match v with
      | Sub | Sup => [Container v (mkGrid [oops :: concat rows ++ [oops]] 1)]
      | Table => [oops; Container v (mkGrid rows w); oops]
      | RootV => [oops; Container v (mkGrid rows 2); oops]
      | Fraction => [oops; Container v (mkGrid rows 1); oops]
      end
  end.
(** Two errors for every container *)
Fixpoint containers (n : InputNode) : nat :=
  match n with
  | Symbol _ => 0
  | Container _ (mkGrid cells _) => S (list_sum (map (fun cell => list_sum (map containers cell)) cells))
  end.
Definition complaints (doc : InputRow) : list ImportError := repeat (UnknownElement (lit "mphantom")) (2 * list_sum (map containers doc)).

(** Characters that are neither spaces nor changed or combined with others by the browser *)
Definition legible (normalize : str -> str) (segment : str -> list str) (plain : N -> Prop) : Prop :=
  (forall c, plain c -> normalize [c] = [c] /\ js_space c = false) /\
  (forall s, Forall plain s -> segment s = map (fun c => [c]) s) /\ normalize (lit "Error") = lit "Error".
(** Documents of such characters, without spaces and quotes *)
Definition bare (plain : N -> Prop) (x : Part) : Prop :=
  match x with
  | PartSymbol s => exists c, s = [c] /\ plain c /\ c <> 32%N /\ c <> 34%N
  | PartContainer _ _ _ => True
  end.
