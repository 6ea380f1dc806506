(** Rust [String]/[str]: the list of Unicode scalar values, with UTF-8 byte
    offsets computed where the code uses them. *)
From Verif Require Import Base.
From Coq Require Import Ascii String.
Open Scope list_scope.
Set Implicit Arguments.

(** Model of [String] and [str] (std) *)
Definition str := list N.

(** Bytes of a scalar value in UTF-8 ([char::len_utf8]). Model of std. *)
Definition utf8_len (c : N) : nat :=
  if (c <? 128)%N then 1 else if (c <? 2048)%N then 2 else if (c <? 65536)%N then 3 else 4.

(** [str::len]: length in bytes. Model of std. *)
Definition byte_len (s : str) : nat := list_sum (map utf8_len s).

(** [&s[i..]]: panics unless [i] is a char boundary ([<= len]). Model of std. *)
Fixpoint slice_from (s : str) (i : nat) : Res str :=
  match i with
  | 0 => Ok s
  | _ =>
      match s with
      | [] => Panic PBounds
      | c :: s' => if utf8_len c <=? i then slice_from s' (i - utf8_len c) else Panic PBounds
      end
  end.

(** [&s[0..i]]: panics unless [i] is a char boundary. Model of std. *)
Fixpoint slice_to (s : str) (i : nat) : Res str :=
  match i with
  | 0 => Ok []
  | _ =>
      match s with
      | [] => Panic PBounds
      | c :: s' =>
          if utf8_len c <=? i then r <- slice_to s' (i - utf8_len c) ;; Ok (c :: r)
          else Panic PBounds
      end
  end.

(** Model of [==] (std) *)
Fixpoint str_eqb (a b : str) : bool :=
  match a, b with
  | [], [] => true
  | x :: a, y :: b => (x =? y)%N && str_eqb a b
  | _, _ => false
  end.

(** [str::starts_with], model of std *)
Fixpoint starts_with (s p : str) : bool :=
  match p, s with
  | [], _ => true
  | x :: p, y :: s => (x =? y)%N && starts_with s p
  | _ :: _, [] => false
  end.

(** [str::ends_with], model of std *)
Definition ends_with (s p : str) : bool := starts_with (rev s) (rev p).

(** [str::find]: byte index of the first occurrence. Model of std. *)
Fixpoint find (s needle : str) : option nat :=
  if starts_with s needle then Some 0
  else match s with
       | [] => None
       | c :: s' => option_map (fun i => utf8_len c + i) (find s' needle)
       end.

(** ASCII literals. Model only. *)
Definition lit (s : string) : str :=
  map (fun c => N_of_ascii c) (list_ascii_of_string s).
