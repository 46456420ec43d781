(** * Programs that use the library, and the targets they run on *)
From Coq Require Import ZArith List Bool.
From Verif Require Import Model.Base Model.F32 Model.Sample Model.BitStream Model.Frame Model.Adhoc Model.Bincode Model.Wav
  Model.Narrow Spec.Files.
Import ListNotations.
Open Scope Z_scope.

(** A target: [usize] has between 32 and 64 bits, and no vector can have more than
    [isize::MAX] bytes.  Which smaller vectors it cannot have is up to the target. *)
Definition target (w : Z) (alloc : Z -> bool) : Prop :=
  32 <= w <= 64 /\ forall n, alloc n = true -> n < 2 ^ (w - 1).

(** ** AdhocCodec *)

(** Everything a client can do with an AdhocCodec, and what it sees of it. *)
Inductive call :=
| SetLevel (level : Z) | SetInfo (info : stream_info) | Encode (pcm : list f32) | Decode (buf : list f32)
| Seek (dt : seek_from) | Init | Count | Save | LoadFile (file : list Z).
Inductive reply :=
| Done | Encoded (n : option Z) | Decoded (buf : list f32) (n : option Z) | Counted (n : Z) | File (bytes : list Z) | Loaded (ok : bool).

Record library := mkLib {
  lib_set_info : adhoc -> stream_info -> outcome adhoc;
  lib_encode : adhoc -> list f32 -> outcome (adhoc * option Z);
  lib_decode : adhoc -> list f32 -> outcome (adhoc * list f32 * option Z);
  lib_seek : adhoc -> seek_from -> outcome adhoc;
  lib_count : adhoc -> outcome Z;
  lib_load : list Z -> outcome (option adhoc) }.
(** The library on the 64-bit machine with unlimited memory of the other model files. *)
Definition ideal (p : profile) : library :=
  mkLib (fun c i => Ok (ad_set_info c i)) (ad_encode p) (ad_decode p) (ad_seek p) (ad_sample_count p) (ad_load p).
(** The library on a target. *)
Definition on (w : Z) (alloc : Z -> bool) (p : profile) : library :=
  mkLib (t_ad_set_info alloc) (t_ad_encode w alloc p) (t_ad_decode w alloc p) (t_ad_seek w alloc p)
        (t_ad_sample_count w p) (t_ad_load w alloc p).

Definition perform (L : library) (c : adhoc) (k : call) : outcome (adhoc * reply) :=
  match k with
  | SetLevel n => Ok (ad_with_level c n, Done)
  | SetInfo i => c <- lib_set_info L c i ;; Ok (c, Done)
  | Encode pcm => '(c, n) <- lib_encode L c pcm ;; Ok (c, Encoded n)
  | Decode buf => '(c, buf, n) <- lib_decode L c buf ;; Ok (c, Decoded buf n)
  | Seek dt => c <- lib_seek L c dt ;; Ok (c, Done)
  | Init => Ok (ad_init c, Done)
  | Count => n <- lib_count L c ;; Ok (c, Counted n)
  | Save => Ok (c, File (ad_save c))
  | LoadFile f => o <- lib_load L f ;; match o with Some c' => Ok (c', Loaded true) | None => Ok (c, Loaded false) end
  end.
Fixpoint run (L : library) (ks : list call) (c : adhoc) : outcome (list reply) :=
  match ks with
  | [] => Ok []
  | k :: ks => '(c, r) <- perform L c k ;; rs <- run L ks c ;; Ok (r :: rs)
  end.
(** A program starts with a new codec. *)
Definition program (L : library) (ks : list call) : outcome (list reply) := run L ks ad_new.

(** What can be passed on a target: numbers of their types, and slices and files it has
    addresses for. *)
Definition passable (w : Z) (k : call) : Prop :=
  match k with
  | SetLevel n => in_range_u 32 n
  | SetInfo i => info_fits i
  | Encode pcm => 4 * zlen pcm < 2 ^ (w - 1)
  | Decode buf => 4 * zlen buf < 2 ^ (w - 1)
  | LoadFile f => zlen f < 2 ^ w
  | _ => True
  end.

(** The files that some program saved on some target; it may have loaded others. *)
Inductive genuine : list Z -> Prop :=
| genuine_saved w alloc p ks rs f :
    target w alloc -> (forall k, In k ks -> passable w k) -> (forall g, In (LoadFile g) ks -> genuine g) ->
    program (on w alloc p) ks = Ok rs -> In (File f) rs -> genuine f.

(** Either the target runs out of memory, or it does the same. *)
Definition same_or_memory {A} (here there : outcome A) : Prop := here = Panic OutOfMemory \/ here = there.

(** ** WavCodec *)
Inductive wcall := WEncode (pcm : list f32) | WDecode (buf : list f32) | WSeek (dt : seek_from) | WSave | WLoad (file : list Z).
Record wlibrary := mkWLib {
  wlib_encode : wav -> list f32 -> outcome (wav * option Z);
  wlib_decode : wav -> list f32 -> outcome (wav * list f32 * option Z);
  wlib_load : list Z -> outcome (option wav) }.
Definition wideal (p : profile) : wlibrary := mkWLib (wav_encode p) wav_decode (wav_load p).
Definition won (w : Z) (alloc : Z -> bool) (p : profile) : wlibrary :=
  mkWLib (t_wav_encode w alloc p) (t_wav_decode w) (t_wav_load alloc p).
Definition wperform (p : profile) (L : wlibrary) (v : wav) (k : wcall) : outcome (wav * reply) :=
  match k with
  | WEncode pcm => '(v, n) <- wlib_encode L v pcm ;; Ok (v, Encoded n)
  | WDecode buf => '(v, buf, n) <- wlib_decode L v buf ;; Ok (v, Decoded buf n)
  | WSeek dt => v <- wav_seek p v dt ;; Ok (v, Done)
  | WSave => f <- wav_save p v ;; Ok (v, File f)
  | WLoad f => o <- wlib_load L f ;; match o with Some v' => Ok (v', Loaded true) | None => Ok (v, Loaded false) end
  end.
Fixpoint wrun (p : profile) (L : wlibrary) (ks : list wcall) (v : wav) : outcome (list reply) :=
  match ks with
  | [] => Ok []
  | k :: ks => '(v, r) <- wperform p L v k ;; rs <- wrun p L ks v ;; Ok (r :: rs)
  end.
Definition wprogram (p : profile) (L : wlibrary) (info : stream_info) (ks : list wcall) : outcome (list reply) :=
  wrun p L ks (wav_new info).
