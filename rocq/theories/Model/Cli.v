(** * Model of src/main.rs: the two file conversions

    Files are byte lists; a conversion maps the input file's bytes to the bytes of the
    file it creates.  Paths and rayon are in CliFiles.v and CliIO.v, the level option in
    CliArgs.v. *)
From Coq Require Import ZArith List Bool.
From Verif Require Import Model.Base Model.F32 Model.Sample Model.Frame Model.Adhoc Model.Bincode Model.Wav.
Import ListNotations.
Open Scope Z_scope.

Definition CLI_BUFFER : list f32 := repeat f0 1024.

(** main.rs:115-118.  Decode from the WAV, encode into the codec, until [None].  Every
    round but the last consumes at least one sample, which bounds the rounds. *)
Fixpoint wav_to_adhoc_loop (p : profile) (fuel : nat) (w : wav) (c : adhoc) (buf : list f32)
  : outcome adhoc :=
  match fuel with
  | O => OutOfFuel
  | S fuel =>
      '(w, buf, n) <- wav_decode w buf ;;
      match n with
      | None => Ok c
      | Some n =>
          '(c, _) <- ad_encode p c (firstn (Z.to_nat n) buf) ;;
          wav_to_adhoc_loop p fuel w c buf
      end
  end.

(** main.rs:105-133.  [convert_wav_to_adhoc]. *)
Definition wav_to_adhoc (p : profile) (file : list Z) (level : Z) : outcome (option (list Z)) :=
  ow <- wav_load p file ;;
  match ow with
  | None => Ok None
  | Some w =>
      let c := ad_set_info (ad_with_level ad_new level) (wav_info w) in
      c <- wav_to_adhoc_loop p (S (S (length (wav_pcm w)))) w c CLI_BUFFER ;;
      Ok (Some (ad_save c))
  end.

(** main.rs:141-145.  Decode from the codec, encode into the WAV, until [None].  A
    round that is not the last writes at least one sample. *)
Fixpoint adhoc_to_wav_loop (p : profile) (fuel : nat) (c : adhoc) (w : wav) (buf : list f32)
  : outcome wav :=
  match fuel with
  | O => OutOfFuel
  | S fuel =>
      '(c, buf, n) <- ad_decode p c buf ;;
      match n with
      | None => Ok w
      | Some n =>
          '(w, _) <- wav_encode p w (firstn (Z.to_nat n) buf) ;;
          adhoc_to_wav_loop p fuel c w buf
      end
  end.

(** A bound on the number of rounds: a frame yields at most [size + 3] samples. *)
Definition decode_rounds (c : adhoc) : nat :=
  S (S (Z.to_nat (fold_right (fun size acc => size + 3 + acc) 0 (fhs_sizes (ad_headers c))))).

(** main.rs:134-154.  [convert_adhoc_to_wav]. *)
Definition adhoc_to_wav (p : profile) (file : list Z) : outcome (option (list Z)) :=
  oc <- ad_load p file ;;
  match oc with
  | None => Ok None
  | Some c =>
      info <- ad_info c ;;
      w <- adhoc_to_wav_loop p (decode_rounds c) c (wav_new info) CLI_BUFFER ;;
      out <- wav_save p w ;;
      Ok (Some out)
  end.
