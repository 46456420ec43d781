(** * Model of the documented example programs

    examples/compress.rs and examples/decompress.rs; the same programs are the examples of README.md and of the
    crate documentation (src/lib.rs:4-44, 47-80).  A program maps the file system to a new one and says whether it
    ended or panicked.  Printing, and failures to create a file, are left out. *)
From Coq Require Import ZArith List Bool.
From Verif Require Import Model.Base Model.F32 Model.Sample Model.Frame Model.Adhoc Model.Bincode Model.Wav Model.Cli Model.CliFiles.
Import ListNotations.
Open Scope Z_scope.

(** "./resources", "taunt.wav", "taunt.adhoc" and "taunt_decompressed.wav". *)
Definition RESOURCES : bytes := [46; 47; 114; 101; 115; 111; 117; 114; 99; 101; 115].
Definition TAUNT : bytes := [116; 97; 117; 110; 116].
Definition TAUNT_WAV : path := (RESOURCES, TAUNT ++ [DOT; 119; 97; 118]).
Definition TAUNT_ADHOC : path := (RESOURCES, TAUNT ++ [DOT; 97; 100; 104; 111; 99]).
Definition TAUNT_DECOMPRESSED : path :=
  (RESOURCES, TAUNT ++ [95; 100; 101; 99; 111; 109; 112; 114; 101; 115; 115; 101; 100; DOT; 119; 97; 118]).

(** [let mut samples = [0.0; 1024]] (compress.rs:8, decompress.rs:8). *)
Definition EXAMPLE_BUFFER : list f32 := repeat f0 1024.

(** compress.rs:20-24.  [while let Some(samples_read) = wav_reader.decode(..) { adhoc.encode(..) }]. *)
Fixpoint compress_loop (p : profile) (fuel : nat) (w : wav) (c : adhoc) (samples : list f32) : outcome adhoc :=
  match fuel with
  | O => OutOfFuel
  | S fuel =>
      '(w, samples, n) <- wav_decode w samples ;;
      match n with
      | None => Ok c
      | Some n =>
          '(c, _) <- ad_encode p c (firstn (Z.to_nat n) samples) ;;
          compress_loop p fuel w c samples
      end
  end.
(** compress.rs:4-32. *)
Definition compress (p : profile) (f : files) : files * outcome unit :=
  match f TAUNT_WAV with
  | None => (f, Panic ExpectFailed)
  | Some b =>
      match wav_load p b with
      | Ok (Some w) =>
          match compress_loop p (S (S (length (wav_pcm w)))) w
                  (ad_set_info (ad_with_level ad_new 7) (wav_info w)) EXAMPLE_BUFFER with
          | Ok c => (put_file f TAUNT_ADHOC (ad_save c), Ok tt)
          | Panic r => (f, Panic r)
          | OutOfFuel => (f, OutOfFuel)
          end
      | Ok None => (f, Panic ExpectFailed)
      | Panic r => (f, Panic r)
      | OutOfFuel => (f, OutOfFuel)
      end
  end.

(** decompress.rs:19-23. *)
Fixpoint decompress_loop (p : profile) (fuel : nat) (c : adhoc) (w : wav) (samples : list f32) : outcome wav :=
  match fuel with
  | O => OutOfFuel
  | S fuel =>
      '(c, samples, n) <- ad_decode p c samples ;;
      match n with
      | None => Ok w
      | Some n =>
          '(w, _) <- wav_encode p w (firstn (Z.to_nat n) samples) ;;
          decompress_loop p fuel c w samples
      end
  end.
(** decompress.rs:4-31.  The output is created before [save_to] computes the header. *)
Definition decompress (p : profile) (f : files) : files * outcome unit :=
  match f TAUNT_ADHOC with
  | None => (f, Panic ExpectFailed)
  | Some b =>
      match (oc <- ad_load p b ;; c <- expect oc ;; info <- ad_info c ;;
             decompress_loop p (decode_rounds c) c (wav_new info) EXAMPLE_BUFFER) with
      | Ok w =>
          let f := put_file f TAUNT_DECOMPRESSED [] in
          match wav_save p w with
          | Ok out => (put_file f TAUNT_DECOMPRESSED out, Ok tt)
          | Panic r => (f, Panic r)
          | OutOfFuel => (f, OutOfFuel)
          end
      | Panic r => (f, Panic r)
      | OutOfFuel => (f, OutOfFuel)
      end
  end.
