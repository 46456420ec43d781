(** * Specification vocabulary: what a client of the collections sees

    Plain lists, apart from the model of the collections. *)
From Coq Require Import ZArith List Bool.
From Verif Require Import Model.Base.
Import ListNotations.
Open Scope Z_scope.

(** ** A deque with room for [cap] items *)
Inductive deque_op (T : Type) :=
| PushFront (x : T) | PushRear (x : T) | PopFront | PopRear | Clear | Len | IsFull | IsEmpty | Iter.
Arguments PushFront {T}. Arguments PushRear {T}. Arguments PopFront {T}. Arguments PopRear {T}.
Arguments Clear {T}. Arguments Len {T}. Arguments IsFull {T}. Arguments IsEmpty {T}. Arguments Iter {T}.

(** What an operation returns. *)
Inductive answer (T : Type) := ANothing | AItem (x : option T) | ANumber (n : Z) | ABool (b : bool) | AList (l : list T).
Arguments ANothing {T}. Arguments AItem {T}. Arguments ANumber {T}. Arguments ABool {T}. Arguments AList {T}.

Definition split_last {T} (l : list T) : list T * option T :=
  match rev l with [] => ([], None) | x :: r => (rev r, Some x) end.
Definition deque_do {T} (cap : Z) (l : list T) (op : deque_op T) : list T * answer T :=
  match op with
  | PushFront x => (if zlen l <? cap then x :: l else l, ANothing)
  | PushRear x => (if zlen l <? cap then l ++ [x] else l, ANothing)
  | PopFront => match l with [] => ([], AItem None) | x :: l => (l, AItem (Some x)) end
  | PopRear => let '(l, x) := split_last l in (l, AItem x)
  | Clear => ([], ANothing)
  | Len => (l, ANumber (zlen l))
  | IsFull => (l, ABool (zlen l =? cap))
  | IsEmpty => (l, ABool (zlen l =? 0))
  | Iter => (l, AList l)
  end.
Fixpoint deque_run {T} (cap : Z) (l : list T) (ops : list (deque_op T)) : list (answer T) :=
  match ops with
  | [] => []
  | op :: ops => let '(l, a) := deque_do cap l op in a :: deque_run cap l ops
  end.

(** ** A sequence whose entries are reached through pointers *)
(** Entries in order, each with the pointer it is reached by. *)
Inductive seq_op (T : Type) :=
| AddFront (x : T) | AddRear (x : T) | TakeFront | TakeRear
| AddBefore (i : Z) (x : T) | AddAfter (i : Z) (x : T) | TakeAt (i : Z).
Arguments AddFront {T}. Arguments AddRear {T}. Arguments TakeFront {T}. Arguments TakeRear {T}.
Arguments AddBefore {T}. Arguments AddAfter {T}. Arguments TakeAt {T}.
(** The pointer an operation is given is the pointer of an entry. *)
Definition seq_allowed {T} (v : list (Z * T)) (op : seq_op T) : Prop :=
  match op with
  | AddBefore i _ | AddAfter i _ | TakeAt i => In i (map fst v)
  | _ => True
  end.
(** [seq_step v op v' a]: the operation turns [v] into [v'] and returns [a]; a new entry gets
    a pointer no other entry has, all others keep theirs. *)
Inductive seq_step {T} : list (Z * T) -> seq_op T -> list (Z * T) -> option T -> Prop :=
| StepAddFront v n x : ~ In n (map fst v) -> seq_step v (AddFront x) ((n, x) :: v) None
| StepAddRear v n x : ~ In n (map fst v) -> seq_step v (AddRear x) (v ++ [(n, x)]) None
| StepTakeFront i x v : seq_step ((i, x) :: v) TakeFront v (Some x)
| StepTakeFrontNone : seq_step [] TakeFront [] None
| StepTakeRear i x v : seq_step (v ++ [(i, x)]) TakeRear v (Some x)
| StepTakeRearNone : seq_step [] TakeRear [] None
| StepAddBefore a i y b n x : ~ In n (map fst (a ++ (i, y) :: b)) ->
    seq_step (a ++ (i, y) :: b) (AddBefore i x) (a ++ (n, x) :: (i, y) :: b) None
| StepAddAfter a i y b n x : ~ In n (map fst (a ++ (i, y) :: b)) ->
    seq_step (a ++ (i, y) :: b) (AddAfter i x) (a ++ (i, y) :: (n, x) :: b) None
| StepTakeAt a i y b : seq_step (a ++ (i, y) :: b) (TakeAt i) (a ++ b) (Some y).

(** ** A cache of at most [cap] entries, most recently used first *)
Section Cache.
Context {K V : Type} (eqb : K -> K -> bool).
Inductive cache_op := Put (k : K) (v : V) | Get (k : K) | GetMut (k : K) (v : V) | Lookup (k : K) | Remove (k : K) | Count.
Inductive cache_answer := CNothing | CValue (v : option V) | CNumber (n : Z).
Definition holds_key (k : K) (e : K * V) : bool := eqb k (fst e).
Definition value_of (k : K) (l : list (K * V)) : option V := option_map snd (find (holds_key k) l).
Definition without (k : K) (l : list (K * V)) : list (K * V) := filter (fun e => negb (holds_key k e)) l.
Definition cache_do (cap : Z) (l : list (K * V)) (op : cache_op) : list (K * V) * cache_answer :=
  match op with
  | Put k v =>
      (* an entry for the key is replaced; otherwise, when full, the last entry makes room *)
      let kept := match value_of k l with
                  | Some _ => without k l
                  | None => if cap <=? zlen l then removelast l else l
                  end in
      ((k, v) :: kept, CNothing)
  | Get k => (match value_of k l with Some v => (k, v) :: without k l | None => l end, CValue (value_of k l))
  | GetMut k v => (match value_of k l with Some _ => (k, v) :: without k l | None => l end, CNothing)
  | Lookup k => (l, CValue (value_of k l))
  | Remove k => (without k l, CValue (value_of k l))
  | Count => (l, CNumber (zlen l))
  end.
Fixpoint cache_run (cap : Z) (l : list (K * V)) (ops : list cache_op) : list cache_answer :=
  match ops with
  | [] => []
  | op :: ops => let '(l, a) := cache_do cap l op in a :: cache_run cap l ops
  end.
End Cache.
Arguments Put {K V}. Arguments Get {K V}. Arguments GetMut {K V}. Arguments Lookup {K V}.
Arguments Remove {K V}. Arguments Count {K V}. Arguments CNothing {V}. Arguments CValue {V}. Arguments CNumber {V}.
