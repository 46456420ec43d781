(** * Base: outcomes, build profiles, machine integers, slices

    Conventions shared by every model file.  Nothing here is specific to one
    source file: these are the Rust language semantics the models rely on.

    - A Rust value of integer type is a [Z]; the type only shows up where a
      cast or an arithmetic operator can change the value.
    - A panic is [Panic reason]; it ends the computation (the state it would
      leave behind is not observable through the API and is not modelled).
    - A loop whose termination is not structural runs on fuel; running out of
      fuel is [OutOfFuel], which no theorem counts as success.
    - [profile] selects between builds with overflow checks ([Debug], the
      cargo dev/test profile) and without ([Release]).
    - [usize] is 64 bits wide, except in Narrow.v. *)
From Coq Require Import ZArith List Bool Lia.
Import ListNotations.
Open Scope Z_scope.

(** The reasons for which the modelled code can panic. *)
Inductive panic_reason :=
| IndexOutOfBounds      (* slice / Vec indexing *)
| ArithmeticOverflow    (* +, -, *, unary -, abs, shift amount: Debug only *)
| DivisionByZero        (* / and % by zero: every profile *)
| ExpectFailed          (* Option::expect / Option::unwrap on None *)
| InvalidState          (* panic!("invalid state") and other explicit panics *)
| AssertFailed          (* assertions inside std, e.g. clamp with min > max *)
| NotImplemented        (* unimplemented!() *)
| OutOfMemory.          (* a vector could not be made longer: only in Narrow.v *)

Inductive outcome (A : Type) :=
| Ok (a : A)
| Panic (r : panic_reason)
| OutOfFuel.
Arguments Ok {A} a.
Arguments Panic {A} r.
Arguments OutOfFuel {A}.

Definition bind {A B : Type} (m : outcome A) (k : A -> outcome B) : outcome B :=
  match m with
  | Ok a => k a
  | Panic r => Panic r
  | OutOfFuel => OutOfFuel
  end.

Notation "x <- m ;; k" := (bind m (fun x => k))
  (at level 61, m at next level, right associativity).
Notation "' p <- m ;; k" := (bind m (fun x => let p := x in k))
  (at level 61, p pattern, m at next level, right associativity).

(** Build profile: overflow checks on or off. *)
Inductive profile := Debug | Release.

(** Two's complement wrapping at width [w]. *)
Definition uwrap (w x : Z) : Z := x mod 2 ^ w.
Definition swrap (w x : Z) : Z := (x + 2 ^ (w - 1)) mod 2 ^ w - 2 ^ (w - 1).

(** Range tests of the unsigned / signed types of width [w]. *)
Definition in_u (w x : Z) : bool := (0 <=? x) && (x <? 2 ^ w).
Definition in_s (w x : Z) : bool := (- 2 ^ (w - 1) <=? x) && (x <? 2 ^ (w - 1)).

(** The result of an arithmetic operator whose exact result is [x]. *)
Definition uchk (p : profile) (w x : Z) : outcome Z :=
  if in_u w x then Ok x
  else match p with Debug => Panic ArithmeticOverflow | Release => Ok (uwrap w x) end.
Definition schk (p : profile) (w x : Z) : outcome Z :=
  if in_s w x then Ok x
  else match p with Debug => Panic ArithmeticOverflow | Release => Ok (swrap w x) end.

(** [x << s] and [x >> s]: bits shifted out are dropped silently; a shift
    amount outside [0, w) panics in Debug and is masked in Release. *)
Definition ushl (p : profile) (w x s : Z) : outcome Z :=
  if in_u 32 s && (s <? w) then Ok (uwrap w (Z.shiftl x s))
  else match p with Debug => Panic ArithmeticOverflow
               | Release => Ok (uwrap w (Z.shiftl x (s mod w))) end.
Definition sshl (p : profile) (w x s : Z) : outcome Z :=
  if in_u 32 s && (s <? w) then Ok (swrap w (Z.shiftl x s))
  else match p with Debug => Panic ArithmeticOverflow
               | Release => Ok (swrap w (Z.shiftl x (s mod w))) end.
Definition shr (p : profile) (w x s : Z) : outcome Z :=
  if in_u 32 s && (s <? w) then Ok (Z.shiftr x s)
  else match p with Debug => Panic ArithmeticOverflow
               | Release => Ok (Z.shiftr x (s mod w)) end.

(** Unsigned division: panics on zero in every profile. *)
Definition udiv (x y : Z) : outcome Z :=
  if y =? 0 then Panic DivisionByZero else Ok (x / y).

(** [Ord::clamp] on integers: asserts min <= max. *)
Definition zclamp (x lo hi : Z) : Z :=
  if x <? lo then lo else if hi <? x then hi else x.
Definition clampP (x lo hi : Z) : outcome Z :=
  if lo <=? hi then Ok (zclamp x lo hi) else Panic AssertFailed.

(** [Option::expect], [Option::unwrap]. *)
Definition expect {A} (o : option A) : outcome A :=
  match o with Some a => Ok a | None => Panic ExpectFailed end.

(** Lengths and bounds-checked indexing. *)
Definition zlen {A} (l : list A) : Z := Z.of_nat (length l).

Definition index {A} (l : list A) (i : Z) : outcome A :=
  if (0 <=? i) && (i <? zlen l) then
    match nth_error l (Z.to_nat i) with
    | Some a => Ok a
    | None => Panic IndexOutOfBounds
    end
  else Panic IndexOutOfBounds.

Fixpoint replace_nth {A} (n : nat) (l : list A) (a : A) : list A :=
  match n, l with
  | _, [] => []
  | O, _ :: t => a :: t
  | S n', h :: t => h :: replace_nth n' t a
  end.

(** [l[i] = a]. *)
Definition store {A} (l : list A) (i : Z) (a : A) : outcome (list A) :=
  if (0 <=? i) && (i <? zlen l) then Ok (replace_nth (Z.to_nat i) l a)
  else Panic IndexOutOfBounds.

(** [&l[from..]]: panics when [from > len]. *)
Definition slice_from {A} (l : list A) (from : Z) : outcome (list A) :=
  if (0 <=? from) && (from <=? zlen l) then Ok (skipn (Z.to_nat from) l)
  else Panic IndexOutOfBounds.

(** Run a fallible function over a list, in order. *)
Fixpoint mapM {A B} (f : A -> outcome B) (l : list A) : outcome (list B) :=
  match l with
  | [] => Ok []
  | a :: t => b <- f a ;; bs <- mapM f t ;; Ok (b :: bs)
  end.

(** Run a fallible state transformer over a list, in order. *)
Fixpoint foldM {S A} (f : S -> A -> outcome S) (l : list A) (s : S) : outcome S :=
  match l with
  | [] => Ok s
  | a :: t => s' <- f s a ;; foldM f t s'
  end.

(** The integers 0, 1, ..., n-1: a Rust range [0..n]. *)
Definition range (n : Z) : list Z := map Z.of_nat (seq 0 (Z.to_nat n)).

(** [x] is the successful result of [m]. *)
Definition is_ok {A} (m : outcome A) : bool :=
  match m with Ok _ => true | _ => false end.
