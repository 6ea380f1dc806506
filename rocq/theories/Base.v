(** Panics, [usize] subtraction and the [Vec] operations used by the code.
    Everything else in the model is written in terms of these. *)
From Coq Require Export List Arith Bool NArith Lia.
From Coq Require Export ZifyBool.
Export ListNotations.
Set Implicit Arguments.

(** The ways a Rust function can fail to return. [PFuel] never happens in the
    code: it is the model's "recursion fuel exhausted", and every theorem that
    excludes panics excludes it too. *)
Inductive PanicKind :=
| PAssert      (* assert!, assert_eq! *)
| PUnwrap      (* unwrap, expect, panic!, unreachable! *)
| PBounds      (* slice index out of range, splice out of range *)
| POverflow    (* arithmetic overflow with overflow checks on *)
| PDivZero     (* division or remainder by zero *)
| PTodo        (* todo!() *)
| PFuel.       (* model only *)

(** Model only: the result of a function that can panic *)
Inductive Res (A : Type) : Type :=
| Ok (a : A)
| Panic (k : PanicKind).
Arguments Ok {A} a.
Arguments Panic {A} k.

(** Model only: sequencing *)
Definition bind {A B} (r : Res A) (f : A -> Res B) : Res B :=
  match r with Ok a => f a | Panic k => Panic k end.

Declare Scope res_scope.
Delimit Scope res_scope with res.
Notation "x <- e1 ;; e2" := (bind e1 (fun x => e2))
  (at level 61, e1 at next level, right associativity) : res_scope.
Notation "' p <- e1 ;; e2" := (bind e1 (fun x => match x with p => e2 end))
  (at level 61, p pattern, e1 at next level, right associativity) : res_scope.
Open Scope res_scope.

(** Model of [assert!] (std), and of src/utils/assert.ts:3-7 *)
Definition assert_ (b : bool) : Res unit := if b then Ok tt else Panic PAssert.
(** Model of [Option::unwrap] (std) *)
Definition unwrap {A} (o : option A) : Res A :=
  match o with Some a => Ok a | None => Panic PUnwrap end.

(** Build profile: are arithmetic overflow checks on (debug/test) or off (release)?
    Model only; aftermath-core/Cargo.toml does not change the profiles of cargo. *)
Record Cfg := mkCfg { overflow_checks : bool }.
(** Model only *)
Definition debug_profile : Cfg := mkCfg true.
(** Model only *)
Definition release_profile : Cfg := mkCfg false.

(** [a - b] on [usize]. [Ok None] stands for a wrapped-around result, which is
    larger than the length of any vector. Model of std. *)
Definition usub (cfg : Cfg) (a b : nat) : Res (option nat) :=
  if b <=? a then Ok (Some (a - b))
  else if overflow_checks cfg then Panic POverflow else Ok None.

(** [v.get(i)] with a possibly wrapped-around index. Model of std. *)
Definition nth_wrapped {A} (l : list A) (i : option nat) : option A :=
  match i with Some i => nth_error l i | None => None end.

(** [&v[a..b]], model of std *)
Definition slice {A} (l : list A) (a b : nat) : Res (list A) :=
  if (a <=? b) && (b <=? length l) then Ok (firstn (b - a) (skipn a l)) else Panic PBounds.

(** [v.splice(a..b, new)], model of std *)
Definition splice {A} (l : list A) (a b : nat) (new : list A) : Res (list A) :=
  if (a <=? b) && (b <=? length l) then Ok (firstn a l ++ new ++ skipn b l) else Panic PBounds.

(** Assignment through [v.get_mut(i)] for an [i] that exists. Model of std. *)
Fixpoint list_set {A} (l : list A) (i : nat) (x : A) : list A :=
  match l, i with
  | [], _ => []
  | _ :: l, 0 => x :: l
  | a :: l, S i => a :: list_set l i x
  end.

(** Division and remainder panic on zero. Model of std. *)
Definition udiv (a b : nat) : Res nat := if b =? 0 then Panic PDivZero else Ok (a / b).
(** Model of std. *)
Definition umod (a b : nat) : Res nat := if b =? 0 then Panic PDivZero else Ok (a mod b).

(** [r] returned normally. Model only. *)
Definition is_ok {A} (r : Res A) : bool := match r with Ok _ => true | Panic _ => false end.

(** Model of [Option::map] (std) with a function that can panic *)
Definition option_map_res {A B} (f : A -> Res B) (o : option A) : Res (option B) :=
  match o with
  | Some a => b <- f a ;; Ok (Some b)
  | None => Ok None
  end.
