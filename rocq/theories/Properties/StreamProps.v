(** * Properties C73 and C74: how the bytes arrive and leave

    Resources are modelled call by call in Model/Resource.v; [calm], [load_each], [in_use] are in Spec/Streams.v. *)
From Coq Require Import ZArith List Bool Lia.
From Verif Require Import Model.Base Model.F32 Model.Sample Model.Frame Model.Adhoc Model.Bincode Model.Wav Model.Resource
  Spec.Recording Spec.Frames Spec.Files Spec.Streams
  Proofs.BaseFacts Proofs.AnyState Proofs.FileFacts Proofs.TypeFacts Proofs.WavFile Proofs.ResourceFacts Properties.Demo Properties.FileProps.
Import ListNotations.
Open Scope Z_scope.

(** ** C73: reading *)
(** As long as no read fails, loading does not depend on the pieces in which the bytes arrive, and reads a
    beginning of them. *)
Theorem C73_any_pieces : forall p bytes script, calm script ->
  match ad_load p bytes with
  | Ok (Some c) => exists s used, ad_load_from p (mkSource bytes script) = Ok (Some (c, s)) /\ bytes = used ++ so_left s /\ calm (so_script s) /\
      ad_load p used = Ok (Some c)
  | Ok None => ad_load_from p (mkSource bytes script) = Ok None
  | Panic r => ad_load_from p (mkSource bytes script) = Panic r
  | OutOfFuel => False
  end.
Proof.
  intros p bytes script HC. pose proof (sim_codec (mkSource bytes script)) as S. cbn [so_left so_script] in S. unfold ad_load_from.
  unfold ad_load at 1. destruct (get_codec bytes) as [[[[lvl h] st] r]|] eqn:G; [|now rewrite S]. destruct S as [(sc & S & C)|(_ & C)]; [rewrite S|now destruct C].
  destruct (local_codec _ _ _ G) as (u & -> & L).
  destruct (sshl p 32 1 lvl) as [x|e|] eqn:E; cbn [bind]; auto.
  - destruct (as_info st) as [info|] eqn:EI; [|reflexivity]. exists (mkSource r sc), u. split; [reflexivity|]. split; [reflexivity|]. split; [now apply C|].
    unfold ad_load. rewrite <- (app_nil_r u), L, E. cbn [bind]. now rewrite EI.
  - unfold sshl in E. destruct (in_u 32 lvl && (lvl <? 32)); [discriminate E|]. destruct p; discriminate E.
Qed.
Print Assumptions C73_any_pieces.
(** Whatever fails, the result of loading is the right one or none at all. *)
Theorem C73_read_errors : forall p bytes script,
  match ad_load_from p (mkSource bytes script) with
  | Ok (Some (c, _)) => ad_load p bytes = Ok (Some c)
  | Ok None => True
  | Panic r => ad_load p bytes = Panic r
  | OutOfFuel => False
  end.
Proof.
  intros p bytes script. pose proof (sim_codec (mkSource bytes script)) as S. cbn [so_left so_script] in S. unfold ad_load_from, ad_load.
  destruct (get_codec bytes) as [[[[lvl h] st] r]|]; [|now rewrite S]. destruct S as [(sc & S & _)|(S & _)]; rewrite S; [|exact I].
  destruct (sshl p 32 1 lvl) as [x|e|] eqn:E; cbn [bind]; auto.
  - destruct (as_info st); auto.
  - unfold sshl in E. destruct (in_u 32 lvl && (lvl <? 32)); [discriminate E|]. destruct p; discriminate E.
Qed.
Print Assumptions C73_read_errors.
(** Recordings saved one after the other into one stream are loaded one after the other, each as from a file
    of its own, and what follows them is still there to be read. *)
Theorem C73_one_after_another : forall p cs rest script, Forall in_use cs -> calm script ->
  exists loaded sc, load_each p (length cs) (mkSource (concat (map ad_save cs) ++ rest) script) = Ok (Some (loaded, mkSource rest sc)) /\ calm sc /\
    Forall2 (fun c l => ad_load p (ad_save c) = Ok (Some l)) cs loaded.
Proof.
  intros p cs rest script HU. revert script. induction HU as [|c cs (q & info & level & acts & HI & HS & HM) HU IH]; intros script HC; cbn [length load_each concat map].
  - exists [], script. cbn [app]. auto.
  - pose proof (session_fits q info level acts c HI HS HM) as HF. destruct (inverts_codec c HF) as [R _].
    pose proof (C73_any_pieces p (ad_save c ++ concat (map ad_save cs) ++ rest) script HC) as A.
    destruct (C22_load_after_save q p info level acts c HI HS HM) as (c2 & E2 & _).
    assert (E3 : ad_load p (ad_save c ++ concat (map ad_save cs) ++ rest) = Ok (Some c2)) by (rewrite C23_trailing_bytes by exact HF; exact E2).
    rewrite E3 in A. destruct A as (s & used & A & B & C & _).
    assert (EL : so_left s = concat (map ad_save cs) ++ rest).
    { revert A. unfold ad_load_from. pose proof (sim_codec (mkSource (ad_save c ++ concat (map ad_save cs) ++ rest) script)) as S. cbn [so_left so_script] in S.
      rewrite R in S. destruct S as [(sc & S & _)|(_ & X)]; [rewrite S|now destruct X]. destruct (sshl _ _ _ _); cbn [bind]; [|discriminate..].
      destruct (as_info (ad_stream c)); [|discriminate]. intros A. injection A as _ <-. reflexivity. }
    rewrite <- app_assoc, A. cbn [bind]. destruct s as [l sc]. cbn [so_left so_script] in *. subst l.
    destruct (IH sc C) as (loaded & sc2 & L & C2 & F). exists (c2 :: loaded), sc2. rewrite L. cbn [bind]. auto.
Qed.
Print Assumptions C73_one_after_another.
(** Lemmas: the header from one place, the samples from another. *)
Definition parts (p : profile) (header bytes : list Z) : outcome (option wav) :=
  match find_tag header 0 with
  | None => Ok None
  | Some data_start =>
      tail <- slice_from header (data_start + 4) ;;
      _ <- index tail 0 ;; _ <- index tail 1 ;; _ <- index tail 2 ;; _ <- index tail 3 ;;
      let bits := swrap 16 (field header 34 2) in
      let fmt := swrap 16 (field header 20 2) in
      if negb (bits =? 16) && negb (bits =? 8) then Ok None
      else if negb (fmt =? 1) then Ok None
      else
        let raw := skipn (Z.to_nat (data_start + 8)) bytes in
        pcm <- (if bits =? 8 then expand_pcm raw else Ok raw) ;;
        let info := mkInfo (uwrap 32 (swrap 32 (field header 24 4))) (uwrap 32 (swrap 16 (field header 22 2))) in
        Ok (Some (mkWav info pcm 0))
  end.
Lemma load_parts p file : wav_load p file = if zlen file <? 256 then Ok None else parts p (firstn 256 file) file.
Proof. reflexivity. Qed.
Lemma load_from_parts p bytes pos script : let head := skipn (Z.to_nat pos) bytes in let r := if zlen head <? 256 then Ok None else parts p (firstn 256 head) bytes in
  (wav_load_from p bytes pos script = r) \/
  (~ calm script /\ wav_load_from p bytes pos script = Ok None).
Proof.
  intros head r. unfold wav_load_from, read_exact. cbn [so_left so_script]. fold head. pose proof (exact_sim 256 script head) as X.
  subst r. destruct (Z.ltb_spec (zlen head) 256) as [L|L].
  { destruct (Nat.leb_spec 256 (length head)) as [L2|L2]; [unfold zlen in L; lia|]. rewrite X. now left. }
  destruct (Nat.leb_spec 256 (length head)) as [L2|L2]; [|unfold zlen in L; lia].
  destruct X as [(sc & X & C)|(X & C)]; rewrite X; [|right; split; [exact C|reflexivity]]. cbn [so_left so_script]. unfold parts.
  set (header := firstn 256 head). clearbody header. destruct (find_tag header 0) as [d|]; [|now left].
  destruct (slice_from header (d + 4)) as [t| |]; [|now left..]. cbn [bind]. do 4 (destruct (index t _) as [?| |]; [cbn [bind]|now left..]).
  destruct (negb _ && negb _); [now left|]. destruct (negb _); [now left|].
  destruct (to_end_sim sc (skipn (Z.to_nat (d + 8)) bytes)) as [E|(E & C2)]; rewrite E; [now left|].
  right. split; [intros HC; apply C2, C, HC|reflexivity].
Qed.

(** A WAV file read from its beginning: as for .adhoc files. *)
Theorem C73_wav_pieces : forall p bytes script,
  (calm script -> wav_load_from p bytes 0 script = wav_load p bytes) /\
  (wav_load_from p bytes 0 script = wav_load p bytes \/ wav_load_from p bytes 0 script = Ok None).
Proof.
  intros p bytes script. rewrite load_parts. pose proof (load_from_parts p bytes 0 script) as X. cbv zeta in X. change (Z.to_nat 0) with 0%nat in X. cbn [skipn] in X.
  destruct X as [X|(C & X)].
  - split; [auto|now left].
  - split; [intros HC; now destruct C|now right].
Qed.
Print Assumptions C73_wav_pieces.
(** A WAV file further on in a stream: the header is understood, but the samples are taken from a place counted
    from the beginning of the stream, so that there are more of them, by as many bytes as the file is further on. *)
Theorem C73_wav_offset : forall p before file w script, calm script -> wav_load p file = Ok (Some w) -> field file 34 2 = 16 ->
  exists pcm d, wav_load_from p (before ++ file) (zlen before) script = Ok (Some (mkWav (wav_info w) pcm 0)) /\
    0 <= d /\ wav_pcm w = skipn (Z.to_nat d) file /\ pcm = skipn (Z.to_nat d) (before ++ file) /\ zlen pcm = zlen before + zlen (wav_pcm w).
Proof.
  intros p before file w script HC H HB. rewrite load_parts in H. destruct (Z.ltb_spec (zlen file) 256) as [L|L]; [discriminate H|].
  pose proof (load_from_parts p (before ++ file) (zlen before) script) as X. cbv zeta in X.
  assert (SK : skipn (Z.to_nat (zlen before)) (before ++ file) = file).
  { unfold zlen. rewrite Nat2Z.id, skipn_app, Nat.sub_diag, skipn_all2 by lia. reflexivity. }
  rewrite SK in X. destruct (Z.ltb_spec (zlen file) 256); [lia|]. destruct X as [X|(C & _)]; [|now destruct C]. rewrite X. clear X SK.
  assert (FB : field (firstn 256 file) 34 2 = 16).
  { rewrite <- HB. unfold field. f_equal. rewrite skipn_firstn_comm. change (256 - 34)%nat with 222%nat. rewrite firstn_firstn. reflexivity. }
  unfold parts in *. remember (firstn 256 file) as header eqn:EH. destruct (find_tag header 0) as [d|] eqn:FT; [|discriminate H].
  assert (LH : zlen header <= zlen file) by (rewrite EH; unfold zlen; rewrite firstn_length; lia).
  rewrite FB in *. change (swrap 16 16) with 16 in *. cbn [Z.eqb negb andb Pos.eqb] in *.
  assert (D0 : 0 <= d) by (pose proof (find_tag_spec header 0) as F; rewrite FT in F; destruct F as (k & -> & _); lia).
  unfold slice_from in *. destruct (Z.leb_spec 0 (d + 4)); [|lia]. destruct (Z.leb_spec (d + 4) (zlen header)) as [L4|L4]; [|discriminate H]. cbn [andb bind] in *.
  destruct (index _ 0) as [?| |]; [cbn [bind] in *|discriminate H..]. destruct (index _ 1) as [?| |]; [cbn [bind] in *|discriminate H..].
  destruct (index _ 2) as [?| |]; [cbn [bind] in *|discriminate H..]. destruct (index _ 3) as [?| |] eqn:E3; [cbn [bind] in *|discriminate H..].
  assert (L8 : d + 8 <= zlen header) by (apply index_inv in E3; destruct E3 as [E3 _]; unfold zlen in *; rewrite skipn_length in E3; lia).
  destruct (negb _); [discriminate H|]. injection H as <-. cbn [wav_info wav_pcm].
  exists (skipn (Z.to_nat (d + 8)) (before ++ file)), (d + 8). split; [reflexivity|]. split; [lia|]. split; [reflexivity|]. split; [reflexivity|].
  unfold zlen in *. rewrite !skipn_length, app_length. lia.
Qed.
Print Assumptions C73_wav_offset.
(** Two recordings, in pieces of 1, 3 and 1000 bytes with interruptions; three bytes are left. *)
Example C73_applies : forall p,
  match session p (map Feed demo) (new_codec stereo 4), session p (map Feed gap_demo) (new_codec (mkInfo 8000 1) 0) with
  | Ok c1, Ok c2 => in_memory c1 /\ in_memory c2 /\
      match load_each p 2 (mkSource (ad_save c1 ++ ad_save c2 ++ [1; 2; 3]) [Again; Part 0; Part 2; Again; Part 999; Part 0]) with
      | Ok (Some ([d1; d2], s)) => so_left s = [1; 2; 3] /\ ad_info d1 = Ok stereo /\ ad_info d2 = Ok (mkInfo 8000 1)
      | _ => False end /\
      ad_load_from p (mkSource (ad_save c1) [Part 0; Part 2; Fails]) = Ok None
  | _, _ => False end.
Proof. intros []; vm_compute; repeat split. Qed.
(** 300 bytes of sound after 10 other bytes are read as 310 bytes, the first 10 of them from the header. *)
Example C73_offset_applies : match wav_save Debug (mkWav (mkInfo 48000 2) (map (fun i => i mod 251) (range 300)) 0) with
  | Ok file => match wav_load Debug file, wav_load_from Debug (repeat 0 10 ++ file) 10 [] with
      | Ok (Some w1), Ok (Some w2) => field file 34 2 = 16 /\ zlen (wav_pcm w1) = 300 /\ zlen (wav_pcm w2) = 310 /\ firstn 4 (wav_pcm w1) = [0; 1; 2; 3] /\ firstn 4 (wav_pcm w2) = [16; 0; 100; 97]
      | _, _ => False end
  | _ => False end.
Proof. vm_compute. repeat split. Qed.

(** ** C74: writing *)
(** Whatever pieces the encoder writes and the resource takes: a beginning of the file arrives, and [save_to] reports
    success exactly when all of it arrived.  It fails only if a write fails. *)
Theorem C74_save : forall c pieces s s' ok, concat pieces = ad_save c -> ad_save_into pieces s = (s', ok) ->
  exists sent rest, ad_save c = sent ++ rest /\ si_got s' = si_got s ++ sent /\ (ok = true <-> rest = []) /\ (calm (si_script s) -> ok = true).
Proof.
  intros c pieces s s' ok HP H. apply save_into_spec in H. destruct H as (sent & rest & D & G & O & C). rewrite HP in D.
  exists sent, rest. split; [exact D|]. split; [exact G|]. split; [exact O|]. intros HC. apply C. exact HC.
Qed.
Print Assumptions C74_save.
(** What a failed save leaves behind never loads. *)
Theorem C74_failed_save : forall p c pieces script s', in_use c -> concat pieces = ad_save c ->
  ad_save_into pieces (mkSink [] script) = (s', false) -> ad_load p (si_got s') = Ok None.
Proof.
  intros p c pieces script s' (q & info & level & acts & HI & HS & HM) HP H. destruct (C74_save c _ _ _ _ HP H) as (sent & rest & D & G & O & _).
  cbn [si_got app] in G. rewrite G. replace sent with (firstn (length sent) (ad_save c)) by (rewrite D, firstn_app, Nat.sub_diag, firstn_all; apply app_nil_r).
  apply C23_torn_file; [eapply session_fits; eassumption|]. rewrite D, app_length. destruct rest as [|x rest]; [|cbn; lia].
  destruct O as [_ O]. discriminate (O eq_refl).
Qed.
Print Assumptions C74_failed_save.
(** How many bytes of the header the first write takes; [None]: it reports an error. *)
Definition header_taken (script : list turn) : option nat :=
  match script with [] => Some 44%nat | Part k :: _ => Some (Nat.min 44 (S k)) | Full :: _ => Some 0%nat | Again :: _ | Fails :: _ => None end.
(** WAV: what the first write does not take of the header is lost, and success is reported exactly when the sound
    data arrived; an interrupted first write is an error. *)
Theorem C74_wav : forall p w file s, wav_save p w = Ok file ->
  exists s' ok, wav_save_into p w s = Ok (s', ok) /\
  match header_taken (si_script s) with
  | None => ok = false /\ si_got s' = si_got s
  | Some k => exists sent rest, wav_pcm w = sent ++ rest /\ si_got s' = si_got s ++ firstn k file ++ sent /\ (ok = true <-> rest = [])
  end /\
  (calm (si_script s) -> header_taken (si_script s) = Some 44%nat -> ok = true /\ si_got s' = si_got s ++ file).
Proof.
  intros p w file s H. unfold wav_save, wav_save_to in H. inv_bind H. rename a into h, Ha into EH. assert (EF : file = firstn 44 h ++ wav_pcm w) by congruence. clear H. subst file.
  assert (LH : length h = 44%nat).
  { unfold wav_header in EH. inv_bind EH. inv_bind EH. inv_bind EH. inv_bind EH. injection EH as <-. reflexivity. }
  rewrite (firstn_all2 h) by lia. unfold wav_save_into. rewrite EH. cbn [bind]. unfold write_once.
  assert (FK : forall k, (k <= 44)%nat -> firstn k (h ++ wav_pcm w) = firstn k h).
  { intros k Hk. rewrite firstn_app. replace (k - length h)%nat with 0%nat by lia. cbn [firstn]. apply app_nil_r. }
  assert (MAIN : forall sc k, (k <= 44)%nat -> exists s' ok, Ok (write_all (mkSink (si_got s ++ firstn k h) sc) (wav_pcm w)) = Ok (s', ok) /\
    (exists sent rest, wav_pcm w = sent ++ rest /\ si_got s' = si_got s ++ firstn k (h ++ wav_pcm w) ++ sent /\ (ok = true <-> rest = [])) /\
    (calm sc -> k = 44%nat -> ok = true /\ si_got s' = si_got s ++ h ++ wav_pcm w)).
  { intros sc k Hk. destruct (write_all (mkSink (si_got s ++ firstn k h) sc) (wav_pcm w)) as [s' ok] eqn:W. exists s', ok. split; [reflexivity|].
    apply all_spec in W. cbn [si_got si_script] in W. destruct W as (sent & rest & D & G & O & C). split.
    - exists sent, rest. split; [exact D|]. split; [rewrite G, FK, <- app_assoc by lia; reflexivity|exact O].
    - intros HC ->. destruct (C HC) as [-> _]. split; [reflexivity|]. destruct O as [O _]. rewrite (O eq_refl), app_nil_r in D. rewrite G, D, firstn_all2 by lia. now rewrite app_assoc. }
  destruct (si_script s) as [|t sc] eqn:ES; [|destruct t as [k| | |]]; cbn [header_taken].
  - destruct (MAIN [] 44%nat ltac:(lia)) as (s' & ok & E & A & B). rewrite firstn_all2 in E by lia. exists s', ok. split; [exact E|]. split; [exact A|]. intros. apply B; auto.
  - destruct (MAIN sc (Nat.min 44 (S k)) ltac:(lia)) as (s' & ok & E & A & B). exists s', ok.
    assert (FM : firstn (S k) h = firstn (Nat.min 44 (S k)) h).
    { destruct (Nat.le_gt_cases 44 (S k)); [rewrite Nat.min_l, !firstn_all2 by lia|rewrite Nat.min_r by lia]; reflexivity. }
    rewrite FM.
    split; [exact E|]. split; [exact A|]. intros HC HK. apply B; [now inversion HC|congruence].
  - exists (mkSink (si_got s) sc), false. split; [reflexivity|]. split; [auto|]. intros _ X. discriminate X.
  - exists (mkSink (si_got s) sc), false. split; [reflexivity|]. split; [auto|]. intros _ X. discriminate X.
  - destruct (MAIN sc 0%nat ltac:(lia)) as (s' & ok & E & A & B). cbn [firstn] in E. rewrite app_nil_r in E. exists s', ok.
    split; [exact E|]. split; [exact A|]. intros _ X. discriminate X.
Qed.
Print Assumptions C74_wav.
(** So success does not mean that the file is complete: with a resource that is full, and no sound, nothing at all is
    written and success is reported. *)
Theorem C74_wav_success_refuted : forall p info file, wav_save p (wav_new info) = Ok file ->
  wav_save_into p (wav_new info) (mkSink [] [Full]) = Ok (mkSink [] [], true) /\ length file = 44%nat.
Proof.
  intros p info file H. unfold wav_save, wav_save_to in H. inv_bind H. injection H as <-. split.
  - unfold wav_save_into. rewrite Ha. reflexivity.
  - unfold wav_header in Ha. inv_bind Ha. inv_bind Ha. inv_bind Ha. inv_bind Ha. injection Ha as <-. reflexivity.
Qed.
Print Assumptions C74_wav_success_refuted.
(** A recording saved in pieces of single bytes into a resource that takes three bytes, is interrupted, takes one
    and then fails: four bytes arrive. *)
Example C74_applies : forall p, match session p (map Feed demo) (new_codec stereo 4) with
  | Ok c => in_memory c /\ concat (map (fun b => [b]) (ad_save c)) = ad_save c /\
      (let '(s, ok) := ad_save_into (map (fun b => [b]) (ad_save c)) (mkSink [] [Part 2; Part 0; Part 7; Again; Part 0; Fails]) in ok = false /\ si_got s = firstn 4 (ad_save c)) /\
      (let '(s, ok) := ad_save_into [firstn 100 (ad_save c); skipn 100 (ad_save c)] (mkSink [9] [Part 2; Again; Part 30]) in ok = true /\ si_got s = 9 :: ad_save c)
  | _ => False end.
Proof. intros []; vm_compute; repeat split. Qed.
Example C74_wav_applies : let w := mkWav (mkInfo 48000 2) (repeat 7 300) 0 in
  match wav_save Debug w with
  | Ok file => length file = 344%nat /\
      wav_save_into Debug w (mkSink [] [Part 99; Part 0; Again]) = Ok (mkSink file [], true) /\
      match wav_save_into Debug w (mkSink [] [Part 29]) with Ok (s, ok) => ok = true /\ length (si_got s) = 330%nat | _ => False end /\
      wav_save_into Debug w (mkSink [] [Again]) = Ok (mkSink [] [], false)
  | _ => False end.
Proof. vm_compute. repeat split. Qed.
