(** * Model of src/main.rs: which files the tool reads and writes

    A path is a directory and the name of a file in it, both lists of bytes; two
    spellings of one directory count as two directories, and links are not modelled.
    The file system maps paths to contents.  A file is read in one step and written in
    two (created empty, then filled); between these steps other conversions may run, as
    rayon's [par_iter] (main.rs:82-86) allows. *)
From Coq Require Import ZArith List Bool.
From Verif Require Import Model.Base Model.F32 Model.Sample Model.Frame Model.Adhoc Model.Bincode Model.Wav Model.Cli.
Import ListNotations.
Open Scope Z_scope.

Definition bytes : Type := list Z.
Definition DOT : Z := 46.

(** std's [rsplitn(2, '.')]: what is before and after the last dot. *)
Fixpoint rsplit_dot (l : bytes) : option (bytes * bytes) :=
  match l with
  | [] => None
  | b :: t =>
      match rsplit_dot t with
      | Some (x, y) => Some (b :: x, y)
      | None => if b =? DOT then Some ([], t) else None
      end
  end.

(** std's [Path::file_name]: none for "..". *)
Definition is_file_name (n : bytes) : bool :=
  negb (list_eqb n [] || list_eqb n [DOT] || list_eqb n [DOT; DOT]).
(** std's [Path::file_stem] and [Path::extension] of a file name: a leading dot does not
    start an extension. *)
Definition file_stem (n : bytes) : option bytes :=
  if is_file_name n then
    match rsplit_dot n with
    | None | Some ([], _) => Some n
    | Some (before, _) => Some before
    end
  else None.
Definition extension (n : bytes) : option bytes :=
  if is_file_name n then
    match rsplit_dot n with
    | None | Some ([], _) => None
    | Some (_, after) => Some after
    end
  else None.

(** std's [PathBuf::set_extension] on the last component (the extensions used are not empty). *)
Definition set_extension (n ext : bytes) : bytes :=
  match file_stem n with
  | None => n
  | Some s => s ++ [DOT] ++ ext
  end.

(** std's [str::from_utf8] succeeds (the table of well-formed sequences). *)
Fixpoint is_utf8 (fuel : nat) (l : bytes) : bool :=
  let cont b := (128 <=? b) && (b <=? 191) in
  match fuel with
  | O => match l with [] => true | _ => false end
  | S fuel =>
      match l with
      | [] => true
      | a :: t =>
          if a <? 128 then is_utf8 fuel t
          else if (194 <=? a) && (a <=? 223) then
            match t with b :: t => cont b && is_utf8 fuel t | _ => false end
          else if (224 <=? a) && (a <=? 239) then
            match t with
            | b :: c :: t =>
                ((if a =? 224 then 160 else 128) <=? b) && (b <=? (if a =? 237 then 159 else 191))
                && cont c && is_utf8 fuel t
            | _ => false
            end
          else if (240 <=? a) && (a <=? 244) then
            match t with
            | b :: c :: d :: t =>
                ((if a =? 240 then 144 else 128) <=? b) && (b <=? (if a =? 244 then 143 else 191))
                && cont c && cont d && is_utf8 fuel t
            | _ => false
            end
          else false
      end
  end.

(** std's [str::contains]. *)
Fixpoint is_prefix (p l : bytes) : bool :=
  match p, l with
  | [], _ => true
  | x :: p, y :: l => (x =? y) && is_prefix p l
  | _, [] => false
  end.
Fixpoint contains (l p : bytes) : bool :=
  is_prefix p l || match l with [] => false | _ :: t => contains t p end.

Definition EXT_WAV : bytes := [119; 97; 118].
Definition EXT_ADHOC : bytes := [97; 100; 104; 111; 99].

(** main.rs:92-101.  [convert_file]: which of the two conversions are tried, in order. *)
Inductive kind := WavToAdhoc | AdhocToWav.
Definition kinds_of (name : bytes) : list kind :=
  match extension name with
  | Some ext =>
      if is_utf8 (length ext) ext
      then (if contains ext EXT_WAV then [WavToAdhoc] else [])
           ++ (if contains ext EXT_ADHOC then [AdhocToWav] else [])
      else []
  | None => []
  end.

(** main.rs:105-107, 120-128 and 136, 147-149.  Where the result goes.  When the stem is
    ".." creating the file fails; "." (for a file called "..wav"), where std would name a
    file after the output directory, is treated the same way. *)
Definition out_name (k : kind) (name : bytes) : option bytes :=
  match file_stem name with
  | None => None
  | Some stem =>
      if is_file_name stem
      then Some (set_extension stem (match k with WavToAdhoc => EXT_ADHOC | AdhocToWav => EXT_WAV end))
      else None
  end.

Definition path : Type := bytes * bytes.
Definition path_eqb (a b : path) : bool := list_eqb (fst a) (fst b) && list_eqb (snd a) (snd b).
Definition files : Type := path -> option bytes.
Definition put_file (f : files) (p : path) (b : bytes) : files :=
  fun q => if path_eqb p q then Some b else f q.

(** main.rs:105-118 and 134-145.  Everything a conversion does before it creates its
    output: the result is what [save_to] will write ([Panic] if it will panic then);
    [None] when the input is not accepted. *)
Definition compute (p : profile) (level : Z) (k : kind) (input : bytes) : outcome (option (outcome bytes)) :=
  match k with
  | WavToAdhoc =>
      r <- wav_to_adhoc p input level ;;
      Ok (option_map Ok r)
  | AdhocToWav =>
      oc <- ad_load p input ;;
      match oc with
      | None => Ok None
      | Some c =>
          info <- ad_info c ;;
          w <- adhoc_to_wav_loop p (decode_rounds c) c (wav_new info) CLI_BUFFER ;;
          Ok (Some (wav_save p w))
      end
  end.

(** One input file on its way through [convert_file].  [Ready] has converted and is about
    to create its output, [Created] has created it. *)
Inductive job_state :=
| Todo (ks : list kind)
| Ready (out : path) (save : outcome bytes) (ks : list kind)
| Created (out : path) (save : outcome bytes) (ks : list kind).
Record job := mkJob { jb_input : path; jb_state : job_state }.

(** main.rs:82-86.  A job per input file. *)
Definition new_job (input : path) : job := mkJob input (Todo (kinds_of (snd input))).
Definition finished (j : job) : bool := match jb_state j with Todo [] => true | _ => false end.

(** main.rs:105-154.  The next step of a job; a panic ends it. *)
Definition step_job (p : profile) (level : Z) (out_dir : bytes) (f : files) (j : job) : files * job :=
  match jb_state j with
  | Todo [] => (f, j)
  | Todo (k :: ks) =>
      match f (jb_input j) with
      | None => (f, mkJob (jb_input j) (Todo []))
      | Some input =>
          match compute p level k input, out_name k (snd (jb_input j)) with
          | Ok (Some save), Some n => (f, mkJob (jb_input j) (Ready (out_dir, n) save ks))
          | _, _ => (f, mkJob (jb_input j) (Todo []))
          end
      end
  | Ready out save ks => (put_file f out [], mkJob (jb_input j) (Created out save ks))
  | Created out save ks =>
      match save with
      | Ok b => (put_file f out b, mkJob (jb_input j) (Todo ks))
      | _ => (f, mkJob (jb_input j) (Todo []))
      end
  end.

(** All jobs together: a schedule says which job moves next. *)
Fixpoint run_jobs (p : profile) (level : Z) (out_dir : bytes) (schedule : list nat) (f : files) (js : list job)
  : files * list job :=
  match schedule with
  | [] => (f, js)
  | i :: rest =>
      match nth_error js i with
      | None => run_jobs p level out_dir rest f js
      | Some j =>
          let '(f, j) := step_job p level out_dir f j in
          run_jobs p level out_dir rest f (replace_nth i js j)
      end
  end.
