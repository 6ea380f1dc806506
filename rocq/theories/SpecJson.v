(** The grammar of JSON (RFC 8259), and the JSON values that stand for nodes. *)
From Coq Require Import String.
From Verif Require Import Base Str Grid Node Json.
Open Scope list_scope.
Open Scope nat_scope.

(** ** Texts *)
Definition blank_char (c : N) : Prop := In c [32; 10; 9; 13]%N.
Definition blanks (s : str) : Prop := Forall blank_char s.
(** *** Numbers *)
Definition digit_char (c : N) : Prop := (48 <= c <= 57)%N.
Definition integer_text (s : str) : Prop := exists c l, s = c :: l /\ digit_char c /\ Forall digit_char l /\ (c = 48%N -> l = []).
Definition fraction_text (s : str) : Prop := exists c l, s = 46%N :: c :: l /\ Forall digit_char (c :: l).
Definition exponent_text (s : str) : Prop :=
  exists e sign c l, s = e :: sign ++ c :: l /\ In e [101; 69]%N /\ In sign [[]; [43%N]; [45%N]] /\ Forall digit_char (c :: l).
Definition decimal_value (s : str) : N := fold_left (fun n c => 10 * n + (c - 48))%N s 0%N.
(** Negative numbers, fractions and numbers with exponents are not distinguished. *)
Inductive number_text : str -> json -> Prop :=
| number_natural s : integer_text s -> number_text s (JNum (decimal_value s))
| number_other sign s frac exp : integer_text s -> In sign [[]; [45%N]] -> frac = [] \/ fraction_text frac -> exp = [] \/ exponent_text exp ->
    (sign, frac, exp) <> ([], [], []) -> number_text (sign ++ s ++ frac ++ exp) JOther.
(** *** Strings *)
Definition hex_char (c : N) (v : N) : Prop := (48 <= c <= 57 /\ v = c - 48 \/ 97 <= c <= 102 /\ v = c - 97 + 10 \/ 65 <= c <= 70 /\ v = c - 65 + 10)%N.
Inductive hex4 : str -> N -> Prop :=
| hex4_intro a b c d va vb vc vd : hex_char a va -> hex_char b vb -> hex_char c vc -> hex_char d vd -> hex4 [a; b; c; d] (4096 * va + 256 * vb + 16 * vc + vd)%N.
Inductive char_text : str -> N -> Prop :=
| char_plain c : (32 <= c)%N -> c <> 34%N -> c <> 92%N -> char_text [c] c
| char_escaped e c : In (e, c) [(34, 34); (92, 92); (47, 47); (98, 8); (102, 12); (110, 10); (114, 13); (116, 9)]%N -> char_text [92%N; e] c
| char_hex s n : hex4 s n -> ~ (55296 <= n <= 57343)%N -> char_text (92%N :: 117%N :: s) n
| char_pair s n t m : hex4 s n -> (55296 <= n <= 56319)%N -> hex4 t m -> (56320 <= m <= 57343)%N ->
    char_text (92%N :: 117%N :: s ++ 92%N :: 117%N :: t) (65536 + (n - 55296) * 1024 + (m - 56320))%N.
Inductive chars_text : str -> str -> Prop :=
| chars_nil : chars_text [] []
| chars_cons t c rest s : char_text t c -> chars_text rest s -> chars_text (t ++ rest) (c :: s).
Definition string_text (t s : str) : Prop := exists inner, t = 34%N :: inner ++ [34%N] /\ chars_text inner s.
(** A string in which there may also be halves of surrogate pairs *)
Inductive loose_text : str -> Prop :=
| loose_nil : loose_text []
| loose_char t c rest : char_text t c -> loose_text rest -> loose_text (t ++ rest)
| loose_half s n rest : hex4 s n -> (55296 <= n <= 57343)%N -> loose_text rest -> loose_text (92%N :: 117%N :: s ++ rest).
(** A string, or [None] if it has such halves *)
Inductive quoted_text (t : str) : option str -> Prop :=
| quoted_string s : string_text t s -> quoted_text t (Some s)
| quoted_half inner : t = 34%N :: inner ++ [34%N] -> loose_text inner -> (forall s, ~ string_text t s) -> quoted_text t None.
(** *** Values with at most [d] levels of arrays and objects; more, strings with halves of surrogate pairs and objects with such fields are [JIgnored] *)
Inductive value_text : nat -> str -> json -> Prop :=
| text_null d : value_text d (lit "null") JNull
| text_true d : value_text d (lit "true") (JBool true)
| text_false d : value_text d (lit "false") (JBool false)
| text_number d t j : number_text t j -> value_text d t j
| text_string d t s : quoted_text t s -> value_text d t (match s with Some s => JStr s | None => JIgnored end)
| text_no_elements d a : blanks a -> value_text (S d) (91%N :: a ++ [93%N]) (JArr [])
| text_no_elements_deep a : blanks a -> value_text 0 (91%N :: a ++ [93%N]) JIgnored
| text_elements d t l : elements_text d t l -> value_text (S d) (91%N :: t ++ [93%N]) (JArr l)
| text_elements_deep t l : elements_text 0 t l -> value_text 0 (91%N :: t ++ [93%N]) JIgnored
| text_no_members d a : blanks a -> value_text (S d) (123%N :: a ++ [125%N]) (JObj [])
| text_no_members_deep a : blanks a -> value_text 0 (123%N :: a ++ [125%N]) JIgnored
| text_members d t l : members_text d t l -> value_text (S d) (123%N :: t ++ [125%N]) (match l with Some l => JObj l | None => JIgnored end)
| text_members_deep t l : members_text 0 t l -> value_text 0 (123%N :: t ++ [125%N]) JIgnored
with elements_text : nat -> str -> list json -> Prop :=
| elements_one d a t b j : blanks a -> value_text d t j -> blanks b -> elements_text d (a ++ t ++ b) [j]
| elements_more d a t b j rest l : blanks a -> value_text d t j -> blanks b -> elements_text d rest l -> elements_text d (a ++ t ++ b ++ 44%N :: rest) (j :: l)
with members_text : nat -> str -> option (list (str * json)) -> Prop :=
| members_one d a k key b c t e j : blanks a -> quoted_text k key -> blanks b -> blanks c -> value_text d t j -> blanks e ->
    members_text d (a ++ k ++ b ++ 58%N :: c ++ t ++ e) (option_map (fun key => [(key, j)]) key)
| members_more d a k key b c t e j rest l : blanks a -> quoted_text k key -> blanks b -> blanks c -> value_text d t j -> blanks e -> members_text d rest l ->
    members_text d (a ++ k ++ b ++ 58%N :: c ++ t ++ e ++ 44%N :: rest) (match key, l with Some key, Some l => Some ((key, j) :: l) | _, _ => None end).
(** A text; serde reads 127 levels of what it does not ignore. *)
Definition json_text (s : str) (j : json) : Prop := exists a t b, s = a ++ t ++ b /\ blanks a /\ blanks b /\ value_text 127 t j.

(** ** Values that stand for nodes *)
(** The object has exactly one field of that name. *)
Definition field (name : string) (l : list (str * json)) (j : json) : Prop :=
  exists a b, l = a ++ (lit name, j) :: b /\ ~ In (lit name) (map fst a) /\ ~ In (lit name) (map fst b).
(** Records are objects with one field of every name and possibly others, or arrays with the values of the fields. *)
Definition record1 (a : string) (j x : json) : Prop := j = JArr [x] \/ exists l, j = JObj l /\ field a l x.
Definition record2 (a b : string) (j x y : json) : Prop := j = JArr [x; y] \/ exists l, j = JObj l /\ field a l x /\ field b l y.
Definition variant_json (j : json) (v : InputNodeVariant) : Prop :=
  let name := lit match v with Fraction => "Fraction" | RootV => "Root" | Sup => "Sup" | Sub => "Sub" | Table => "Table" end in
  j = JStr name \/ j = JObj [(name, JNull)].
Inductive node_json (usize_max : N) : json -> InputNode -> Prop :=
| json_symbol s : node_json usize_max (JObj [(lit "Symbol", JStr s)]) (Symbol s)
| json_container jv jg v values rows w cells : variant_json jv v -> record2 "values" "width" jg (JArr values) (JNum w) -> (w <= usize_max)%N ->
    Forall2 (row_json usize_max) values cells -> rows = mkGrid cells (N.to_nat w) -> node_json usize_max (JObj [(lit "Container", JArr [jv; jg])]) (Container v rows)
with row_json (usize_max : N) : json -> InputRow -> Prop :=
| json_row j values row : record1 "values" j (JArr values) -> Forall2 (node_json usize_max) values row -> row_json usize_max j row.
(** The nodes with a version number *)
Definition nodes_json (usize_max : N) (j : json) (nodes : list InputNode) : Prop :=
  exists version values, record2 "version" "data" j (JNum version) (JArr values) /\ (version <= 4294967295)%N /\ Forall2 (node_json usize_max) values nodes.
