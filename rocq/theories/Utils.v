(** Model of src/utils/array-utils.ts, map-utils.ts and memoize.ts. *)
From Verif Require Import Base.
Set Implicit Arguments.

(** * Arrays *)
Section Arrays.
Variable T : Type.
(** [a === b] *)
Variable same : T -> T -> bool.
(** array-utils.ts:14-25; [high] is one more than in the code, so it is never negative. [compare] gives [Lt] for a negative and
    [Gt] for a positive number. *)
Fixpoint binary_insert_loop (fuel : nat) (array : list T) (compare : T -> comparison) (low high : nat) : Res (nat * bool) :=
  if low <? high then
    match fuel with
    | 0 => Panic PFuel
    | S fuel =>
        let middle := low + (high - 1 - low) / 2 in
        match nth_error array middle with
        | None => Panic PBounds
        | Some x =>
            match compare x with
            | Lt => binary_insert_loop fuel array compare (middle + 1) high
            | Gt => binary_insert_loop fuel array compare low middle
            | Eq => Ok (middle, true)
            end
        end
    end
  else Ok (low, false).
(** array-utils.ts:8-28: the index and whether the item exists *)
Definition get_binary_insert_index (array : list T) (compare : T -> comparison) : Res (nat * bool) :=
  binary_insert_loop (length array) array compare 0 (length array).
(** Model of [findIndex] with a predicate on the element and the index, starting at [i]; used in array-utils.ts:52 *)
Fixpoint find_index (f : T -> nat -> bool) (i : nat) (array : list T) : option nat :=
  match array with
  | [] => None
  | a :: l => if f a i then Some i else find_index f (S i) l
  end.
(** array-utils.ts:42-50: the new array and the result; [indexOf] finds the first element that is the same *)
Definition remove (array : list T) (element : T) : list T * bool :=
  match find_index (fun a _ => same a element) 0 array with
  | Some i => (firstn i array ++ skipn (S i) array, true)
  | None => (array, false)
  end.
(** array-utils.ts:51-58 *)
Definition skip_while (array : list T) (predicate : T -> nat -> bool) : list T :=
  match find_index (fun a i => negb (predicate a i)) 0 array with
  | Some index => skipn index array
  | None => array
  end.
(** array-utils.ts:59-66 *)
Definition take_while (array : list T) (predicate : T -> nat -> bool) : list T :=
  match find_index (fun a i => negb (predicate a i)) 0 array with
  | Some index => firstn index array
  | None => array
  end.
(** array-utils.ts:70-72; [None] is [undefined] *)
Definition zip_with (a b : list T) : list (option T * option T) :=
  map (fun i => (nth_error a i, nth_error b i)) (seq 0 (Nat.max (length a) (length b))).
(** array-utils.ts:79-84 for arrays that are not null *)
Definition shallow_equals (a b : list T) : bool :=
  (length a =? length b) && forallb (fun '(x, y) => same x y) (combine a b).
End Arrays.
(** array-utils.ts:76-78; an array of negative length is a [RangeError]. *)
Definition range (start end_ : nat) : Res (list nat) :=
  if end_ <? start then Panic PAssert else Ok (map (fun i => i + start) (seq 0 (end_ - start))).

(** * Maps *)
Section Maps.
Variables K V : Type.
Variable key_eqb : K -> K -> bool.
(** A [Map] in the order of insertion; [map.get]; Model only *)
Fixpoint map_get {A} (m : list (K * A)) (key : K) : option A :=
  match m with
  | [] => None
  | (k, v) :: m => if key_eqb k key then Some v else map_get m key
  end.
(** [map.set]; Model only *)
Fixpoint map_set {A} (m : list (K * A)) (key : K) (value : A) : list (K * A) :=
  match m with
  | [] => [(key, value)]
  | (k, v) :: m => if key_eqb k key then (k, value) :: m else (k, v) :: map_set m key value
  end.
(** map-utils.ts:2-10: the new map and the value *)
Definition get_or_default (m : list (K * V)) (key : K) (default : V) : list (K * V) * V :=
  match map_get m key with
  | Some v => (m, v)
  | None => (map_set m key default, default)
  end.
(** map-utils.ts:11-23 *)
Definition group_by (values : list V) (key_selector : V -> K) : list (K * list V) :=
  fold_left (fun result value =>
    let key := key_selector value in
    map_set result key (match map_get result key with Some group => group ++ [value] | None => [value] end)) values [].
End Maps.

(** * Memoizing *)
Section Memoize.
Variables V R : Type.
(** [a === b], and the value [undefined] *)
Variable same : V -> V -> bool.
Variable undefined : V.
Variable fn : list V -> R.
(** memoize.ts:2-3; the cached value is [None] for [undefined] before the first call *)
Record Memo := mkMemo { cached_args : list V; cached_value : option R }.
(** memoize.ts:2-3 *)
Definition new_memo : Memo := mkMemo [] None.
(** memoize.ts:5: [args.every((arg, i) => arg === cachedArgs[i])] *)
Fixpoint args_match (args cached : list V) : bool :=
  match args with
  | [] => true
  | a :: args => same a (nth 0 cached undefined) && args_match args (tl cached)
  end.
(** memoize.ts:4-12 *)
Definition memo_call (m : Memo) (args : list V) : Memo * option R :=
  if args_match args (cached_args m) then (m, cached_value m)
  else (mkMemo args (Some (fn args)), Some (fn args)).
(** Several calls in a row; Model only *)
Fixpoint memo_calls (m : Memo) (calls : list (list V)) : list (option R) :=
  match calls with
  | [] => []
  | args :: calls => let (m, r) := memo_call m args in r :: memo_calls m calls
  end.
End Memoize.
