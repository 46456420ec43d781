(** * Model of src/main.rs: the tool's file operations, piece by piece

    A finer model than CliFiles.v.  Files have numbers; [opens] and [creates] say which
    file a path leads to (so several paths may lead to one file, through links or other
    spellings) or that the call fails.  Files are read in pieces of any size and written
    in pieces of any size, at the position each handle has reached.  Writing may fail.
    Simplified: input files are always read to their end (bincode may stop before it), and
    a failed write ends the task (when it is the first of two conversions, which takes a
    name like "x.wav-adhoc", the tool would go on to the second). *)
From Coq Require Import ZArith List Bool.
From Verif Require Import Model.Base Model.Cli Model.CliFiles.
Import ListNotations.

Record disk := mkDisk { opens : path -> option nat; creates : path -> option nat }.
Definition store : Type := nat -> option bytes.
Definition put (f : store) (id : nat) (b : bytes) : store := fun i => if Nat.eqb i id then Some b else f i.
Definition content (f : store) (id : nat) : bytes := match f id with Some b => b | None => [] end.
(** POSIX [write] at position [pos]: a gap before it reads as zeros. *)
Definition write_at (old : bytes) (pos : nat) (new : bytes) : bytes :=
  firstn pos (old ++ repeat 0%Z (pos - length old)) ++ new ++ skipn (pos + length new) old.

(** Where [convert_file] is with one input file.  [Begin []] has done everything;
    [Stopped] gave up (an operation returned [None] or panicked), [Failed] had a write
    error. *)
Inductive task :=
| Begin (ks : list kind)
| Reading (k : kind) (id : nat) (got : bytes) (ks : list kind)
| Computed (out : path) (save : outcome bytes) (ks : list kind)
| Writing (id pos : nat) (left : bytes) (ks : list kind)
| Stopped
| Failed.

(** main.rs:92-154.  One operation of a task on input file [x]. *)
Inductive operation (p : profile) (level : Z) (d : disk) (dir : bytes) (x : path) : store -> task -> store -> task -> Prop :=
| op_open f k ks id b : opens d x = Some id -> f id = Some b ->                       (* main.rs:106, 135 *)
    operation p level d dir x f (Begin (k :: ks)) f (Reading k id [] ks)
| op_cannot_open f k ks : (opens d x = None \/ exists id, opens d x = Some id /\ f id = None) ->
    operation p level d dir x f (Begin (k :: ks)) f Stopped
| op_read f k id got n ks :                                                           (* main.rs:109, 138 *)
    operation p level d dir x f (Reading k id got ks) f (Reading k id (got ++ firstn n (skipn (length got) (content f id))) ks)
| op_convert f k id got ks save n : (length (content f id) <= length got)%nat ->      (* main.rs:109-126, 138-149 *)
    compute p level k got = Ok (Some save) -> out_name k (snd x) = Some n ->
    operation p level d dir x f (Reading k id got ks) f (Computed (dir, n) save ks)
| op_give_up f k id got ks : (length (content f id) <= length got)%nat ->
    (out_name k (snd x) = None \/ forall save, compute p level k got <> Ok (Some save)) ->
    operation p level d dir x f (Reading k id got ks) f Stopped
| op_create f out b ks id : creates d out = Some id ->                                (* main.rs:130, 151 *)
    operation p level d dir x f (Computed out (Ok b) ks) (put f id []) (Writing id 0 b ks)
| op_create_panic f out save ks id : creates d out = Some id -> (forall b, save <> Ok b) ->
    operation p level d dir x f (Computed out save ks) (put f id []) Stopped
| op_cannot_create f out save ks : creates d out = None ->
    operation p level d dir x f (Computed out save ks) f Stopped
| op_write f id pos piece left ks :                                                   (* adhoc.rs:179, wav.rs:127-130 *)
    operation p level d dir x f (Writing id pos (piece ++ left) ks)
      (put f id (write_at (content f id) pos piece)) (Writing id (pos + length piece) left ks)
| op_write_error f id pos left ks : operation p level d dir x f (Writing id pos left ks) f Failed
| op_close f id pos ks : operation p level d dir x f (Writing id pos [] ks) f (Begin ks).

(** main.rs:82-86.  Any task may do the next operation; [run] are all executions, finished or not. *)
Inductive run (p : profile) (level : Z) (d : disk) (dir : bytes) (inputs : list path) : store -> list task -> store -> list task -> Prop :=
| run_none f ts : run p level d dir inputs f ts f ts
| run_more f ts f1 ts1 i x t f2 t2 : run p level d dir inputs f ts f1 ts1 ->
    nth_error inputs i = Some x -> nth_error ts1 i = Some t -> operation p level d dir x f1 t f2 t2 ->
    run p level d dir inputs f ts f2 (replace_nth i ts1 t2).
Definition start (x : path) : task := Begin (kinds_of (snd x)).
