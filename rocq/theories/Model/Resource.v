(** * Reading from and writing to a resource, call by call

    [AdhocCodec::load] and [save_to] take any [Read] and [Write], [WavCodec::load] any
    [Read + Seek], [WavCodec::save_to] any [Write].  Bincode.v and Wav.v work on whole files; here the
    resource answers each call of [read] and [write] as it likes. *)
From Coq Require Import ZArith List Bool.
From Verif Require Import Model.Base Model.F32 Model.Sample Model.BitStream Model.NibbleList Model.BitVec Model.Frame Model.Adhoc Model.Bincode Model.Wav.
Import ListNotations.
Open Scope Z_scope.

(** What one call of [read] or [write] does: at most [1 + k] bytes move, [ErrorKind::Interrupted],
    any other error, or (for [write]) no byte is taken.  A call beyond the script moves all it can. *)
Inductive turn := Part (k : nat) | Again | Fails | Full.

(** A resource being read: the bytes from its position on, and the script of the calls to come. *)
Record source := mkSource { so_left : list Z; so_script : list turn }.

(** [Read::read_exact] of std: reads until [n] bytes are there; [Interrupted] is retried, no byte or any
    other error is an error. *)
Fixpoint exact (script : list turn) (left : list Z) (n : nat) : option (list Z * source) :=
  match n with
  | O => Some ([], mkSource left script)
  | _ =>
      match script with
      | [] => if (n <=? length left)%nat then Some (firstn n left, mkSource (skipn n left) []) else None
      | Part k :: script =>
          let got := firstn (Nat.min n (S k)) left in
          match got with
          | [] => None
          | _ => match exact script (skipn (length got) left) (n - length got) with
                 | Some (more, s) => Some (got ++ more, s)
                 | None => None
                 end
          end
      | Again :: script => exact script left n
      | Fails :: _ | Full :: _ => None
      end
  end.
Definition read_exact (n : nat) (s : source) : option (list Z * source) := exact (so_script s) (so_left s) n.

(** [bincode::deserialize_from] (bincode 1.3.3, [IoReader]): each number is one [read_exact].  The
    derived [Deserialize] implementations read the fields in order. *)
Definition sparser (A : Type) : Type := source -> option (A * source).
Definition sbind {A B} (m : sparser A) (k : A -> sparser B) : sparser B :=
  fun s => match m s with Some (a, s) => k a s | None => None end.
Definition sret {A} (a : A) : sparser A := fun s => Some (a, s).
Definition sread_uint (n : nat) : sparser Z := sbind (read_exact n) (fun bs => sret (of_le_bytes bs)).
Definition sread_i16 : sparser Z := sbind (sread_uint 2) (fun x => sret (swrap 16 x)).
Fixpoint sread_n {A} (get : sparser A) (n : nat) : sparser (list A) :=
  match n with
  | O => sret []
  | S n => sbind get (fun a => sbind (sread_n get n) (fun r => sret (a :: r)))
  end.
Definition sread_vec {A} (get : sparser A) : sparser (list A) :=
  sbind (sread_uint 8) (fun len => sread_n get (Z.to_nat len)).
(** nibble_list.rs:3-7, bitvec.rs:5-9, frame.rs:18-27, codec.rs:30-39, bitstream.rs:52-57, audio_stream.rs:5-9,
    adhoc.rs:187-192: the derived field orders. *)
Definition sread_nibble_list : sparser nibble_list :=
  sbind (sread_vec (sread_uint 1)) (fun d => sbind (sread_uint 4) (fun c => sret (mkNL d c))).
Definition sread_bitvec : sparser bitvec :=
  sbind (sread_vec (sread_uint 8)) (fun b => sbind (sread_uint 16) (fun c => sret (mkBV b c))).
Definition sread_history : sparser (Z * Z * Z) :=
  sbind sread_i16 (fun a => sbind sread_i16 (fun b => sbind sread_i16 (fun c => sret (a, b, c)))).
Definition sread_headers : sparser frame_headers :=
  sbind sread_nibble_list (fun e =>
  sbind sread_bitvec (fun i =>
  sbind (sread_vec (sread_uint 2)) (fun s =>
  sbind (sread_vec (sread_uint 8)) (fun c =>
  sbind (sread_vec sread_history) (fun h =>
  sbind (sread_uint 4) (fun cur => sret (mkFHS e i s c h cur))))))).
Definition sread_info : sparser (option stream_info) :=
  sbind (sread_uint 1) (fun tag =>
    if tag =? 0 then sret None
    else if tag =? 1 then
      sbind (sread_uint 4) (fun r => sbind (sread_uint 4) (fun c => sret (Some (mkInfo r c))))
    else fun _ => None).
Definition sread_bitstream : sparser bitstream :=
  sbind (sread_vec (sread_uint 16)) (fun b =>
  sbind (sread_uint 16) (fun c => sbind (sread_uint 16) (fun k => sret (mkBS b c k)))).
Definition sread_codec : sparser (Z * frame_headers * audio_stream) :=
  sbind (sread_uint 4) (fun lvl =>
  sbind sread_headers (fun h =>
  sbind sread_info (fun i =>
  sbind sread_bitstream (fun s => sret (lvl, h, mkAS i s))))).

(** adhoc.rs:183-214.  [load] from a resource; what is left to read afterwards comes with a codec. *)
Definition ad_load_from (p : profile) (s : source) : outcome (option (adhoc * source)) :=
  match sread_codec s with
  | None => Ok None
  | Some (lvl, h, st, s) =>
      sc <- sshl p 32 1 lvl ;;
      let scale := f32_of_Z sc in
      match as_info st with
      | None => Ok None
      | Some info =>
          Ok (Some (ad_init
            (mkAdhoc h (repeat fc_new (Z.to_nat (si_channels info))) st lvl scale
                     (fdiv f1 scale) 314), s))
      end
  end.

(** [Read::read_to_end] of std: reads until a call gives nothing; [Interrupted] is retried. *)
Fixpoint to_end (script : list turn) (left : list Z) : option (list Z) :=
  match script with
  | [] => Some left
  | Part k :: script =>
      match left with
      | [] => Some []
      | _ => match to_end script (skipn (S k) left) with Some more => Some (firstn (S k) left ++ more) | None => None end
      end
  | Again :: script => to_end script left
  | Fails :: _ | Full :: _ => None
  end.
(** wav.rs:134-222.  [load] from a seekable resource that stands at [pos]: the header is read there, then
    the resource is moved to [data_start + 8] from its very beginning (a call that is assumed to
    succeed) and read to its end. *)
Definition wav_load_from (p : profile) (bytes : list Z) (pos : Z) (script : list turn) : outcome (option wav) :=
  match read_exact 256 (mkSource (skipn (Z.to_nat pos) bytes) script) with
  | None => Ok None
  | Some (header, s) =>
      match find_tag header 0 with
      | None => Ok None
      | Some data_start =>
          tail <- slice_from header (data_start + 4) ;;
          _ <- index tail 0 ;; _ <- index tail 1 ;; _ <- index tail 2 ;; _ <- index tail 3 ;;
          let bits := swrap 16 (field header 34 2) in
          let fmt := swrap 16 (field header 20 2) in
          if negb (bits =? 16) && negb (bits =? 8) then Ok None
          else if negb (fmt =? 1) then Ok None
          else
            match to_end (so_script s) (skipn (Z.to_nat (data_start + 8)) bytes) with
            | None => Ok None
            | Some raw =>
                pcm <- (if bits =? 8 then expand_pcm raw else Ok raw) ;;
                let info := mkInfo (uwrap 32 (swrap 32 (field header 24 4)))
                                   (uwrap 32 (swrap 16 (field header 22 2))) in
                Ok (Some (mkWav info pcm 0))
            end
      end
  end.

(** A resource being written: the bytes that have arrived and the script of the calls to come. *)
Record sink := mkSink { si_got : list Z; si_script : list turn }.
(** [Write::write_all] of std: [Interrupted] is retried; an error, or a call that takes no byte, is an
    error.  The flag says whether it succeeded. *)
Fixpoint all (script : list turn) (got data : list Z) : sink * bool :=
  match data with
  | [] => (mkSink got script, true)
  | _ =>
      match script with
      | [] => (mkSink (got ++ data) [], true)
      | Part k :: script => all script (got ++ firstn (S k) data) (skipn (S k) data)
      | Again :: script => all script got data
      | Fails :: script | Full :: script => (mkSink got script, false)
      end
  end.
Definition write_all (s : sink) (data : list Z) : sink * bool := all (si_script s) (si_got s) data.
(** adhoc.rs:163-181.  [save_to]: [bincode::serialize_into] writes the file of Bincode.v number by number,
    each with [write_all], and stops at the first error ([None]).  The pieces are left open here. *)
Fixpoint ad_save_into (pieces : list (list Z)) (s : sink) : sink * bool :=
  match pieces with
  | [] => (s, true)
  | d :: pieces => let '(s, ok) := write_all s d in if ok then ad_save_into pieces s else (s, false)
  end.
(** One call of [Write::write] with [data] (not empty): how many bytes are taken, or an error. *)
Definition write_once (s : sink) (data : list Z) : sink * bool :=
  match si_script s with
  | [] => (mkSink (si_got s ++ data) [], true)
  | Part k :: script => (mkSink (si_got s ++ firstn (S k) data) script, true)
  | Full :: script => (mkSink (si_got s) script, true)
  | Again :: script | Fails :: script => (mkSink (si_got s) script, false)
  end.
(** wav.rs:108-131.  [save_to]: one [write] of the header, whose count is ignored, then [write_all]. *)
Definition wav_save_into (p : profile) (w : wav) (s : sink) : outcome (sink * bool) :=
  h <- wav_header p w ;;
  let '(s, ok) := write_once s h in
  if ok then Ok (write_all s (wav_pcm w)) else Ok (s, false).
