(** Model of serialization/src/lib.rs: the JSON text that serde and serde_json 1.0.107 write
    and read for a list of nodes (external code, modelled from its documented behaviour). *)
From Coq Require Import String.
From Verif Require Import Base Str Grid Node Print.
Open Scope list_scope.
Open Scope nat_scope.
Set Implicit Arguments.

(** * Values *)
(** [JOther] is a number that is not a natural number. [JIgnored] is a value that can only be read where it is ignored, as that of
    an unknown field: a string or an object with a field with half a surrogate pair in its text, or an array or object that is nested too deeply. Model of serde_json *)
Inductive json :=
| JNull
| JBool (b : bool)
| JNum (n : N)
| JOther
| JStr (s : str)
| JArr (l : list json)
| JObj (l : list (str * json))
| JIgnored.

(** * Writing: [serde_json::to_string], the compact format *)
(** Model of serde_json *)
Definition hex_digit (n : N) : N := (if n <? 10 then 48 + n else 87 + n)%N.
(** Characters are escaped only when they have to be. Model of serde_json *)
Definition escape_char (c : N) : str :=
  (if c =? 34 then lit "\""" else if c =? 92 then lit "\\"
   else if c =? 8 then lit "\b" else if c =? 9 then lit "\t" else if c =? 10 then lit "\n"
   else if c =? 12 then lit "\f" else if c =? 13 then lit "\r"
   else if c <? 32 then lit "\u00" ++ [hex_digit (c / 16); hex_digit (c mod 16)]
   else [c])%N.
(** Model of serde_json *)
Definition write_string (s : str) : str := lit """" ++ flat_map escape_char s ++ lit """".
(** Elements separated by commas. Model of serde_json *)
Definition write_list {A} (f : A -> str) : list A -> str :=
  fix go l :=
    match l with
    | [] => []
    | [x] => f x
    | x :: l => f x ++ lit "," ++ go l
    end.
(** Model of serde_json *)
Fixpoint write_json (j : json) : str :=
  match j with
  | JNull => lit "null"
  | JBool true => lit "true"
  | JBool false => lit "false"
  | JNum n => print_N n
  | JOther => lit "0.5"
  | JIgnored => lit """\ud800"""
  | JStr s => write_string s
  | JArr l => lit "[" ++ write_list write_json l ++ lit "]"
  | JObj l => lit "{" ++ write_list (fun kv => write_string (fst kv) ++ lit ":" ++ write_json (snd kv)) l ++ lit "}"
  end.

(** * Reading: [serde_json::from_str] *)
(** Model of serde_json *)
Definition is_space (c : N) : bool := ((c =? 32) || (c =? 10) || (c =? 9) || (c =? 13))%N.
(** Model of serde_json *)
Fixpoint skip_space (s : str) : str :=
  match s with
  | c :: s' => if is_space c then skip_space s' else s
  | [] => []
  end.
(** Model of serde_json *)
Definition expect_lit (l s : str) : option str := if starts_with s l then Some (skipn (length l) s) else None.

(** Digits of a number. Model of serde_json *)
Definition digit_of (c : N) : option (Decimal.uint -> Decimal.uint) :=
  match c with
  | 48 => Some Decimal.D0 | 49 => Some Decimal.D1 | 50 => Some Decimal.D2 | 51 => Some Decimal.D3 | 52 => Some Decimal.D4
  | 53 => Some Decimal.D5 | 54 => Some Decimal.D6 | 55 => Some Decimal.D7 | 56 => Some Decimal.D8 | 57 => Some Decimal.D9
  | _ => None
  end%N.
(** Model of serde_json *)
Fixpoint read_digits (s : str) : Decimal.uint * str :=
  match s with
  | c :: s' =>
      match digit_of c with
      | Some d => let (u, r) := read_digits s' in (d u, r)
      | None => (Decimal.Nil, s)
      end
  | [] => (Decimal.Nil, [])
  end.
(** A fraction and an exponent, and whether there is one. Model of serde_json *)
Definition read_fraction (s : str) : option (bool * str) :=
  match s with
  | 46%N :: s' => match read_digits s' with (Decimal.Nil, _) => None | (_, r) => Some (true, r) end
  | _ => Some (false, s)
  end.
(** Model of serde_json *)
Definition read_exponent (s : str) : option (bool * str) :=
  match s with
  | c :: s' =>
      if ((c =? 101) || (c =? 69))%N then
        let s'' := match s' with c' :: r => if ((c' =? 43) || (c' =? 45))%N then r else s' | [] => [] end in
        match read_digits s'' with (Decimal.Nil, _) => None | (_, r) => Some (true, r) end
      else Some (false, s)
  | [] => Some (false, s)
  end.
(** No number starts with a superfluous zero. Model of serde_json *)
Definition valid_integer (u : Decimal.uint) : bool :=
  match u with
  | Decimal.Nil => false
  | Decimal.D0 Decimal.Nil => true
  | Decimal.D0 _ => false
  | _ => true
  end.
(** Model of serde_json *)
Definition read_unsigned (negative : bool) (s : str) : option (json * str) :=
  let (u, r) := read_digits s in
  if negb (valid_integer u) then None else
  match read_fraction r with
  | None => None
  | Some (f, r) =>
      match read_exponent r with
      | None => None
      | Some (e, r) => Some (if negative || f || e then JOther else JNum (N.of_uint u), r)
      end
  end.
(** Model of serde_json *)
Definition read_number (s : str) : option (json * str) :=
  match s with 45%N :: s' => read_unsigned true s' | _ => read_unsigned false s end.

(** Strings. Model of serde_json *)
Definition hex_value (c : N) : option N :=
  (if (48 <=? c) && (c <=? 57) then Some (c - 48)
   else if (97 <=? c) && (c <=? 102) then Some (c - 87)
   else if (65 <=? c) && (c <=? 70) then Some (c - 55)
   else None)%N.
(** Model of serde_json *)
Definition read_hex4 (s : str) : option (N * str) :=
  match s with
  | a :: b :: c :: d :: s =>
      match hex_value a, hex_value b, hex_value c, hex_value d with
      | Some a, Some b, Some c, Some d => Some (((a * 16 + b) * 16 + c) * 16 + d, s)%N
      | _, _, _, _ => None
      end
  | _ => None
  end.
(** The part of an escape sequence after the backslash; two halves of a surrogate pair
    are joined, [Some None] is a half on its own. Model of serde_json ([parse_escape], [ignore_escape]) *)
Definition read_escape (s : str) : option (option N * str) :=
  match s with
  | c :: s =>
      if (c =? 34)%N then Some (Some 34%N, s) else if (c =? 92)%N then Some (Some 92%N, s) else if (c =? 47)%N then Some (Some 47%N, s)
      else if (c =? 98)%N then Some (Some 8%N, s) else if (c =? 102)%N then Some (Some 12%N, s) else if (c =? 110)%N then Some (Some 10%N, s)
      else if (c =? 114)%N then Some (Some 13%N, s) else if (c =? 116)%N then Some (Some 9%N, s)
      else if (c =? 117)%N then
        match read_hex4 s with
        | None => None
        | Some (n, s) =>
            if ((56320 <=? n) && (n <=? 57343))%N then Some (None, s)
            else if ((55296 <=? n) && (n <=? 56319))%N then
              match s with
              | 92%N :: 117%N :: s' =>
                  match read_hex4 s' with
                  | Some (m, s'') =>
                      if ((56320 <=? m) && (m <=? 57343))%N
                      then Some (Some (65536 + (n - 55296) * 1024 + (m - 56320))%N, s'') else Some (None, s)
                  | None => Some (None, s)
                  end
              | _ => Some (None, s)
              end
            else Some (Some n, s)
        end
      else None
  | [] => None
  end.
(** After the opening quote; [Some None] if there is half a surrogate pair. Every step consumes something, the length of the text is
    enough fuel. Model of serde_json *)
Fixpoint read_string (fuel : nat) (s : str) : option (option str * str) :=
  match fuel, s with
  | S fuel, c :: s =>
      if (c =? 34)%N then Some (Some [], s)
      else if (c =? 92)%N then
        match read_escape s with
        | Some (c, s) =>
            match read_string fuel s with
            | Some (t, r) => Some (match c, t with Some c, Some t => Some (c :: t) | _, _ => None end, r)
            | None => None
            end
        | None => None
        end
      else if (c <? 32)%N then None
      else match read_string fuel s with Some (t, r) => Some (option_map (cons c) t, r) | None => None end
  | _, _ => None
  end.

(** Values. [depth] is serde_json's [remaining_depth], initially 128: opening an array or an
    object decrements it and fails when it becomes 0. In the values of unknown fields,
    which are ignored, serde_json neither counts nor checks surrogate pairs; here these values are [JIgnored], and what
    is not ignored must not be [JIgnored]. Model of serde_json *)
Fixpoint read_value (fuel depth : nat) (s : str) {struct fuel} : option (json * str) :=
  match fuel with
  | 0 => None
  | S fuel =>
      match skip_space s with
      | [] => None
      | (c :: s') as s =>
          if (c =? 110)%N then option_map (fun r => (JNull, r)) (expect_lit (lit "null") s)
          else if (c =? 116)%N then option_map (fun r => (JBool true, r)) (expect_lit (lit "true") s)
          else if (c =? 102)%N then option_map (fun r => (JBool false, r)) (expect_lit (lit "false") s)
          else if (c =? 34)%N then
            match read_string (length s') s' with Some (t, r) => Some (match t with Some t => JStr t | None => JIgnored end, r) | None => None end
          else if (c =? 91)%N then
            let array l := if depth <=? 1 then JIgnored else JArr l in
            match skip_space s' with
            | 93%N :: r => Some (array [], r)
            | _ =>
                match read_elements fuel (depth - 1) s' with
                | Some (l, r) => Some (array l, r)
                | None => None
                end
            end
          else if (c =? 123)%N then
            let object l := match l with Some l => if depth <=? 1 then JIgnored else JObj l | None => JIgnored end in
            match skip_space s' with
            | 125%N :: r => Some (object (Some []), r)
            | _ =>
                match read_members fuel (depth - 1) s' with
                | Some (l, r) => Some (object l, r)
                | None => None
                end
            end
          else read_number s
      end
  end
with read_elements (fuel depth : nat) (s : str) {struct fuel} : option (list json * str) :=
  match fuel with
  | 0 => None
  | S fuel =>
      match read_value fuel depth s with
      | None => None
      | Some (j, s) =>
          match skip_space s with
          | 44%N :: s =>
              match read_elements fuel depth s with Some (l, r) => Some (j :: l, r) | None => None end
          | 93%N :: s => Some ([j], s)
          | _ => None
          end
      end
  end
with read_members (fuel depth : nat) (s : str) {struct fuel} : option (option (list (str * json)) * str) :=
  match fuel with
  | 0 => None
  | S fuel =>
      match skip_space s with
      | 34%N :: s =>
          match read_string (length s) s with
          | None => None
          | Some (k, s) =>
              match skip_space s with
              | 58%N :: s =>
                  match read_value fuel depth s with
                  | None => None
                  | Some (j, s) =>
                      match skip_space s with
                      | 44%N :: s =>
                          match read_members fuel depth s with
                          | Some (l, r) => Some (match k, l with Some k, Some l => Some ((k, j) :: l) | _, _ => None end, r)
                          | None => None
                          end
                      | 125%N :: s => Some (option_map (fun k => [(k, j)]) k, s)
                      | _ => None
                      end
                  end
              | _ => None
              end
          end
      | _ => None
      end
  end.
(** Only spaces may follow. Model of serde_json *)
Definition read_json (s : str) : option json :=
  match read_value (2 * length s + 2) 128 s with
  | Some (j, r) => match skip_space r with [] => Some j | _ => None end
  | None => None
  end.

(** * Nodes as JSON values: the derived [Serialize] and [Deserialize] *)
(** node.rs:28-50 *)
Definition variant_name (v : InputNodeVariant) : str :=
  match v with
  | Fraction => lit "Fraction" | RootV => lit "Root" | Sup => lit "Sup" | Sub => lit "Sub" | Table => lit "Table"
  end.
(** row.rs:18-26 *)
Definition enc_row_with (enc : InputNode -> json) (r : InputRow) : json := JObj [(lit "values", JArr (map enc r))].
(** node.rs:13-26, grid.rs:29-38 *)
Fixpoint enc_node (n : InputNode) : json :=
  match n with
  | Container v (mkGrid cells w) =>
      JObj [(lit "Container", JArr [JStr (variant_name v);
        JObj [(lit "values", JArr (map (enc_row_with enc_node) cells)); (lit "width", JNum (N.of_nat w))]])]
  | Symbol s => JObj [(lit "Symbol", JStr s)]
  end.

(** The values of the fields of a struct: an object with every field exactly once and
    possibly unknown ones, or an array with exactly the fields. Model of serde. *)
Definition get_field (name : str) (l : list (str * json)) : option json :=
  match filter (fun kv => str_eqb (fst kv) name) l with
  | [(_, j)] => Some j
  | _ => None
  end.
(** Model of serde: structs with one field *)
Definition struct1 (a : str) (j : json) : option json :=
  match j with
  | JObj l => get_field a l
  | JArr [x] => Some x
  | _ => None
  end.
(** Model of serde: structs with two fields *)
Definition struct2 (a b : str) (j : json) : option (json * json) :=
  match j with
  | JObj l => match get_field a l, get_field b l with Some x, Some y => Some (x, y) | _, _ => None end
  | JArr [x; y] => Some (x, y)
  | _ => None
  end.
(** An unsigned integer of the given size. Model of serde. *)
Definition dec_uint (max : N) (j : json) : option N :=
  match j with JNum n => if (n <=? max)%N then Some n else None | _ => None end.
(** node.rs:28-50: derived [Deserialize] *)
Definition dec_variant_name (s : str) : option InputNodeVariant :=
  if str_eqb s (lit "Fraction") then Some Fraction else if str_eqb s (lit "Root") then Some RootV
  else if str_eqb s (lit "Sup") then Some Sup else if str_eqb s (lit "Sub") then Some Sub
  else if str_eqb s (lit "Table") then Some Table else None.
(** A unit variant is written as a string, but an object with [null] is read, too. node.rs:28-50: derived [Deserialize] *)
Definition dec_variant (j : json) : option InputNodeVariant :=
  match j with
  | JStr s => dec_variant_name s
  | JObj [(s, JNull)] => dec_variant_name s
  | _ => None
  end.
(** Model of serde *)
Fixpoint dec_all {A B} (f : A -> option B) (l : list A) : option (list B) :=
  match l with
  | [] => Some []
  | x :: l => match f x, dec_all f l with Some y, Some r => Some (y :: r) | _, _ => None end
  end.
(** Model of serde: vectors *)
Definition dec_vec {B} (f : json -> option B) (j : json) : option (list B) :=
  match j with JArr l => dec_all f l | _ => None end.

Section Decode.
(** [usize::MAX] *)
Variable usize_max : N.
(** row.rs:18-26: derived [Deserialize] *)
Definition dec_row_with (dec : json -> option InputNode) (j : json) : option InputRow :=
  match struct1 (lit "values") j with
  | Some v => dec_vec dec v
  | None => None
  end.
(** grid.rs:29-38: derived [Deserialize] *)
Definition dec_grid_with (dec : json -> option InputNode) (j : json) : option (GridVec InputRow) :=
  match struct2 (lit "values") (lit "width") j with
  | Some (v, w) =>
      match dec_vec (dec_row_with dec) v, dec_uint usize_max w with
      | Some cells, Some w => Some (mkGrid cells (N.to_nat w))
      | _, _ => None
      end
  | None => None
  end.
(** The fuel is the nesting of the value. node.rs:13-26: derived [Deserialize]. *)
Fixpoint dec_node (fuel : nat) (j : json) : option InputNode :=
  match fuel with
  | 0 => None
  | S fuel =>
      match j with
      | JObj [(k, c)] =>
          if str_eqb k (lit "Symbol") then match c with JStr s => Some (Symbol s) | _ => None end
          else if str_eqb k (lit "Container") then
            match c with
            | JArr [v; g] =>
                match dec_variant v, dec_grid_with (dec_node fuel) g with
                | Some v, Some g => Some (Container v g)
                | _, _ => None
                end
            | _ => None
            end
          else None
      | _ => None
      end
  end.
(** serialization/src/lib.rs:15-19 and 45-50. The nesting of a value that could be read is below 128, as
    fuel for the nodes this is enough. *)
Definition dec_data (j : json) : option (list InputNode) :=
  match struct2 (lit "version") (lit "data") j with
  | Some (version, data) =>
      match dec_uint 4294967295 version with
      | Some _ => dec_vec (dec_node 128) data
      | None => None
      end
  | None => None
  end.
(** serialization/src/lib.rs:41-56 with [Some(JsonInputTree)] *)
Definition deserialize_input_nodes (text : str) : option (list InputNode) :=
  match read_json text with
  | Some j => dec_data j
  | None => None
  end.
End Decode.

(** serialization/src/lib.rs:28-39 *)
Definition serialize_input_nodes (nodes : list InputNode) : str :=
  write_json (JObj [(lit "version", JNum 1); (lit "data", JArr (map enc_node nodes))]).
