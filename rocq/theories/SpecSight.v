(** The document that is seen in a drawing. *)
From Verif Require Import Base Str Grid Node Syntax Pratt Render Layout SpecSafety.

(** A document with every symbol taken apart into its characters. Only tables show how many
    columns they have; a root has two, all others one. *)
Definition letters (s : str) : InputRow := map (fun c => Symbol [c]) s.
Fixpoint outline (n : InputNode) : InputRow :=
  match n with
  | Symbol s => letters s
  | Container v (mkGrid cells w) => [Container v (mkGrid (map (flat_map outline) cells) match v with Table => w | RootV => 2 | _ => 1 end)]
  end.
(** What somebody who knows MathML takes the DOM for: mfrac is a fraction, the second child of
    mroot is the index, the children of msub and msup are the base and the script, which is between
    two empty elements. Two non-breaking spaces and a dotted square stand for nothing. *)
Fixpoint seen (d : Dom) : InputRow :=
  match d with
  | DomText t => letters t
  | DomElement tag _ l =>
      match tag with
      | Tmphantom => []
      | Tmi =>
          match l with
          | [DomText t] => if str_eqb t [160%N; 160%N] || str_eqb t [11034%N] then [] else letters t
          | _ => flat_map seen l
          end
      | Tmfrac => [Container Fraction (mkGrid (map seen l) 1)]
      | Tmroot => match l with [radicand; index] => [Container RootV (mkGrid [seen index; seen radicand] 2)] | _ => [] end
      | Tmsub =>
          match l with
          | [base; DomElement Tmrow _ [_; DomElement Tmrow _ cells; _]] => seen base ++ [Container Sub (mkGrid (map seen cells) 1)]
          | _ => []
          end
      | Tmsup =>
          match l with
          | [base; DomElement Tmrow _ [_; DomElement Tmrow _ cells; _]] => seen base ++ [Container Sup (mkGrid (map seen cells) 1)]
          | _ => []
          end
      | Tmtable =>
          [Container Table (mkGrid (flat_map (fun line => match line with DomElement Tmtr _ cells => map seen cells | _ => [] end) l)
             match l with DomElement Tmtr _ cells :: _ => length cells | _ => 0 end)]
      | _ => flat_map seen l
      end
  end.
(** The documents that are made of single characters and of containers with the usual numbers of columns: those
    of the constructors of the containers (node.rs:53-88) *)
Definition usual (x : Part) : Prop :=
  match x with
  | PartSymbol s => length s = 1
  | PartContainer Table _ _ => True
  | PartContainer RootV _ w => w = 2
  | PartContainer _ _ w => w = 1
  end.
