(** How formulas look: the MathML that a formula is expected to be drawn as. *)
From Coq Require Import String.
From Verif Require Import Base Str Grid Node Render SpecFormula.
Open Scope list_scope.
Open Scope nat_scope.

Definition mrow (l : list Dom) : Dom := DomElement Tmrow false l.
Definition phantom : Dom := DomElement Tmphantom false [].
Definition texts (tag : Tag) (stretchy : bool) (l : list str) : Dom := DomElement tag stretchy (map DomText l).
(** What counts as one child *)
Definition one (l : list Dom) : Dom := match l with [d] => d | _ => mrow l end.
(** Between two places for the caret *)
Definition framed (d : Dom) : list Dom := [phantom; d; phantom].
(** With spaces before and after *)
Definition gap (k : nat) : list Dom := match k with 0 => [] | _ => [texts Tmspace false (repeat (lit " ") k)] end.
Definition with_gaps (before : nat) (l : list Dom) (after : nat) : list Dom :=
  match before, after with 0, 0 => l | _, _ => [mrow (gap before ++ one l :: gap after)] end.
Definition mo (stretchy : bool) (s : str) : list Dom := [texts Tmo stretchy [s]].
Definition script_tag (upper : bool) : Tag := if upper then Tmsup else Tmsub.
(** The lines of a table of the given width *)
Definition table_lines (w : nat) (cells : list Dom) : list Dom :=
  map (fun r => DomElement Tmtr false (map (fun d => DomElement Tmtd false [d]) (firstn w (skipn (r * w) cells)))) (seq 0 (length cells / w)).

(** Letters and constants are in mi, numbers in mn, strings in mtext, operators in mo. Brackets around a
    formula stretch, others do not. Everything with several parts is an mrow, scripts are in msub and msup. *)
Fixpoint picture (before : nat) (f : Formula) : list Dom :=
  let script l u b a := [DomElement (script_tag u) false [one l; one (framed (mrow [one (picture b a)]))]] in
  let scripts l s := fold_left (fun l '(u, b, a, after) => script l u b a) s l in
  match f with
  | FAtom a after =>
      with_gaps before
        match a with
        | AVariable s l => [texts Tmi false (s :: l)]
        | ANumber c l d => [texts Tmn false (number_symbols c l d)]
        | AConstant c => [texts Tmi false [[constant_char c]]]
        | AString l => [texts Tmtext false (string_symbols l)]
        | AEmpty => [mrow (mo true (lit "(") ++ mo true (lit ")"))]
        | ABrackets b a => [mrow (mo true (lit "(") ++ one (picture b a) :: mo true (lit ")"))]
        | ACells v w cells =>
            let l := map (fun '(b, a) => one (picture b a)) cells in
            framed match v with
              | Fraction => DomElement Tmfrac false l
              | RootV => DomElement Tmroot false (rev l)
              | _ => DomElement Tmtable false (table_lines w l)
              end
        end after
  | FPrefix op after s a => [mrow [one (scripts (with_gaps before (mo false (prefix_text op)) after) s); one (picture 0 a)]]
  | FInfix a op after s b => [mrow [one (picture before a); one (scripts (with_gaps 0 (mo false [infix_char op]) after) s); one (picture 0 b)]]
  | FPostfix a op after =>
      let call l := [mrow [one (picture before a); one (with_gaps 0 [mrow l] after)]] in
      match op with
      | PFactorial => [mrow [one (picture before a); one (with_gaps 0 (mo false (lit "!")) after)]]
      | PCall => call (mo false (lit "(") ++ mo false (lit ")"))
      | PApply b x => call (mo false (lit "(") ++ one (picture b x) :: mo false (lit ")"))
      | PScript u b x => script (picture before a) u b x
      end
  end.

(** The formulas that can be drawn: fractions and roots have two rows, and there is no space after a script. *)
Fixpoint drawable (f : Formula) : Prop :=
  let scripts := fold_right (fun '(_, _, a, after) rest => (after = 0 /\ drawable a) /\ rest) True in
  match f with
  | FAtom (ABrackets _ a) _ => drawable a
  | FAtom (ACells v _ cells) _ => (v <> Table -> length cells = 2) /\ fold_right (fun '(_, a) rest => drawable a /\ rest) True cells
  | FAtom _ _ => True
  | FPrefix _ _ s a => scripts s /\ drawable a
  | FInfix a _ _ s b => drawable a /\ scripts s /\ drawable b
  | FPostfix a op after => drawable a /\ match op with PApply _ b => drawable b | PScript _ _ b => after = 0 /\ drawable b | _ => True end
  end.
