(** * Property C71: a WavCodec is a tape recorder

    The tape recorder is in Spec/Tape.v. *)
From Coq Require Import ZArith List Bool Lia.
From Verif Require Import Model.Base Model.F32 Model.Sample Model.Adhoc Model.Wav
  Spec.Recording Spec.Wave Spec.Tape Proofs.BaseFacts Proofs.FloatFacts Proofs.SignalFacts Proofs.WavFacts Proofs.WavSeek Properties.WavProps.
Import ListNotations.
Open Scope Z_scope.

(** Calls on a WavCodec, in any order, with the answers. *)
Definition wav_call (p : profile) (w : wav) (a : action) : outcome (wav * answer) :=
  match a with
  | Rec samples => '(w, n) <- wav_encode p w samples ;; Ok (w, Recorded n)
  | Play buf => '(w, buf, n) <- wav_decode w buf ;; Ok (w, Played buf n)
  | Wind dt => w <- wav_seek p w dt ;; Ok (w, Wound)
  end.
Fixpoint wav_calls (p : profile) (w : wav) (acts : list action) : outcome (wav * list answer) :=
  match acts with
  | [] => Ok (w, [])
  | a :: acts => '(w, r) <- wav_call p w a ;; '(w, rs) <- wav_calls p w acts ;; Ok (w, r :: rs)
  end.
(** Sizes and times the machine can count: fewer than 2^62 samples in all, and seeks that ask for places less
    than 2^62 samples away. *)
Definition size_of (a : action) : Z := match a with Rec samples => zlen samples | _ => 0 end.
Fixpoint total (acts : list action) : Z := match acts with [] => 0 | a :: acts => size_of a + total acts end.
Definition near_by (info : stream_info) (a : action) : Prop :=
  match a with Wind (SStart ms | SCurrent ms | SEnd ms) => Z.abs (si_channels info * block_offset info ms) < 2 ^ 62 | _ => True end.

(** ** Lemmas *)
Lemma total_nonneg acts : 0 <= total acts.
Proof. induction acts as [|a acts IH]; cbn [total]; [lia|]. destruct a; cbn [size_of]; pose proof (@zlen_nonneg f32); specialize (H samples) || idtac; lia. Qed.
Lemma forall_overwrite P t c xs : Forall P t -> Forall P xs -> Forall P (overwrite t c xs).
Proof. intros H1 H2. unfold overwrite. apply Forall_app. split.
  - apply Forall_forall. intros x Hx. rewrite Forall_forall in H1. apply H1. rewrite <- (firstn_skipn c t). apply in_or_app. auto.
  - apply Forall_app. split; [exact H2|]. apply Forall_forall. intros x Hx. rewrite Forall_forall in H1. apply H1. rewrite <- (firstn_skipn (c + length xs) t). apply in_or_app. auto.
Qed.
Lemma quantised_i16 l : Forall is_i16 (map quantise l).
Proof. apply Forall_map, Forall_forall. intros x _. unfold is_i16. change (quantise x) with (truncate_sample x). pose proof (truncate_range x). lia. Qed.

(** ** C71 *)
(** Whatever calls are made on a new WavCodec, in any order, their answers and the stored samples are those of
    the tape recorder; the calls that panic are those that wind an empty tape. *)
Theorem C71_tape : forall p info acts, 1 <= si_channels info -> total acts < 2 ^ 62 -> Forall (near_by info) acts ->
  match tape_run info blank acts with
  | Some (t, rs) => wav_calls p (wav_new info) acts = Ok (mkWav info (pcm_bytes (tp_track t)) (tp_at t), rs) /\
      Forall is_i16 (tp_track t) /\ 0 <= tp_at t <= zlen (tp_track t)
  | None => exists r, wav_calls p (wav_new info) acts = Panic r
  end.
Proof.
  intros p info acts Hch HT HN. set (ch := si_channels info) in *.
  enough (G : forall acts t, Forall is_i16 (tp_track t) -> 0 <= tp_at t <= zlen (tp_track t) -> zlen (tp_track t) + total acts < 2 ^ 62 -> Forall (near_by info) acts ->
    match tape_run info t acts with
    | Some (t', rs) => wav_calls p (mkWav info (pcm_bytes (tp_track t)) (tp_at t)) acts = Ok (mkWav info (pcm_bytes (tp_track t')) (tp_at t'), rs) /\
        Forall is_i16 (tp_track t') /\ 0 <= tp_at t' <= zlen (tp_track t')
    | None => exists r, wav_calls p (mkWav info (pcm_bytes (tp_track t)) (tp_at t)) acts = Panic r
    end).
  { apply (G acts blank); auto; [constructor|cbn; lia]. }
  clear acts HT HN. induction acts as [|a acts IH]; intros t HI HP HT HN; [cbn [tape_run wav_calls]; auto|].
  assert (HA : near_by info a) by now inversion HN. assert (HN' : Forall (near_by info) acts) by now inversion HN.
  cbn [total] in HT. pose proof (total_nonneg acts) as TN.
  enough (S : match tape_step info t a with
    | Some (t', r) => wav_call p (mkWav info (pcm_bytes (tp_track t)) (tp_at t)) a = Ok (mkWav info (pcm_bytes (tp_track t')) (tp_at t'), r) /\
        Forall is_i16 (tp_track t') /\ 0 <= tp_at t' <= zlen (tp_track t') /\ zlen (tp_track t') <= zlen (tp_track t) + size_of a
    | None => exists r, wav_call p (mkWav info (pcm_bytes (tp_track t)) (tp_at t)) a = Panic r
    end).
  { cbn [tape_run wav_calls]. destruct (tape_step info t a) as [[t' r]|].
    - destruct S as (E & I' & P' & Z'). rewrite E. cbn [bind]. specialize (IH t' I' P' ltac:(lia) HN').
      destruct (tape_run info t' acts) as [[t2 rs]|]; [destruct IH as (E2 & H2); rewrite E2; cbn [bind]; auto|].
      destruct IH as (x & E2). exists x. now rewrite E2.
    - destruct S as (x & E). exists x. now rewrite E. }
  clear IH HN HN'. destruct t as [track c]. cbn [tp_track tp_at] in *. destruct a as [samples|buf|dt]; cbn [size_of] in HT; unfold tape_step; cbn [tp_track tp_at]; fold ch.
  - pose proof (zlen_nonneg samples). pose proof (whole_len ch samples ltac:(lia)) as WL. pose proof (Z.mul_div_le (zlen samples) ch ltac:(lia)) as WM.
    pose proof (zlen_nonneg (whole ch samples)) as WN.
    unfold wav_call. rewrite encode_ok; [|fold ch; lia|exact HP|change (2 ^ 63) with (2 * 2 ^ 62); lia]. cbn [bind]. fold ch.
    rewrite !zlen_map. split; [reflexivity|]. split; [apply forall_overwrite; auto using quantised_i16|].
    assert (LO : zlen (overwrite track (Z.to_nat c) (map quantise (whole ch samples))) = Z.max (zlen track) (c + zlen (whole ch samples))).
    { unfold zlen at 1. rewrite length_overwrite by (unfold zlen in HP; lia). rewrite map_length. unfold zlen. lia. }
    cbn [size_of tp_at tp_track]. rewrite LO. lia.
  - destruct (decode_ok info track [] c buf ltac:(lia) HP HI ltac:(cbn; lia)) as (n & Hn & En & ED & ER). rewrite app_nil_r in ED. fold ch in En, ED, ER.
    set (rest := skipn (Z.to_nat c) (map restore track)) in *. destruct (fill ch rest buf) as [rest' [buf' k]]. cbn [fst snd] in *.
    assert (ZR : zlen rest' = zlen track - (c + n)) by (rewrite <- ER, zlen_skipn, zlen_map; lia).
    rewrite ZR. replace (zlen track - (zlen track - (c + n))) with (c + n) by lia.
    unfold wav_call. rewrite ED. cbn [bind size_of tp_at tp_track]. split; [reflexivity|]. split; [exact HI|]. lia.
  - destruct track as [|s track].
    + destruct (seek_empty p (mkWav info (pcm_bytes []) c) dt) as (r & E); [cbn; lia|]. exists r. unfold wav_call. now rewrite E.
    + set (tr := s :: track) in *. assert (Z1 : 1 <= zlen tr) by (subst tr; rewrite zlen_cons; pose proof (zlen_nonneg track); lia). clearbody tr.
      assert (ZP : zlen (pcm_bytes tr) / 2 = zlen tr) by (rewrite zlen_pcm, Z.mul_comm; apply Z.div_mul; lia).
      assert (Z2 : 2 <= zlen (pcm_bytes tr) < 2 ^ 63) by (rewrite zlen_pcm; change (2 ^ 63) with (2 * 2 ^ 62); lia).
      assert (CL : forall x, zclamp x 0 (zlen tr - 1) = Z.max 0 (Z.min x (zlen tr - 1))) by (intros x; rewrite zclamp_eq by lia; lia).
      assert (ST : forall ms, Z.abs (ch * block_offset info ms) < 2 ^ 62 ->
        wav_seek p (mkWav info (pcm_bytes tr) c) (SStart ms) = Ok (mkWav info (pcm_bytes tr) (Z.max 0 (Z.min (ch * block_offset info ms) (zlen tr - 1))))).
      { intros ms H. rewrite C48_start by (try exact Z2; fold ch; rewrite (Z.mul_comm _ ch); change (2 ^ 63) with (2 * 2 ^ 62); lia).
        fold ch. now rewrite ZP, CL, (Z.mul_comm _ ch). }
      unfold wav_call, goal_of, near_by in *. cbn [tp_at tp_track size_of]. fold ch. fold ch in HA.
      destruct dt as [ms|ms|ms].
      * rewrite ST by exact HA. cbn [bind tp_at tp_track]. split; [reflexivity|]. split; [exact HI|]. lia.
      * pose proof (Z.mul_div_le c ch ltac:(lia)) as CM. pose proof (Z.div_pos c ch ltac:(lia) ltac:(lia)) as CD.
        assert (0 <= ch * (c / ch)) by nia.
        rewrite C48_current by (try exact Z2; fold ch; rewrite ?(Z.mul_comm (block_offset info ms) ch); change (2 ^ 63) with (2 * 2 ^ 62); lia).
        fold ch. rewrite ZP, CL, (Z.mul_comm (block_offset info ms) ch). cbn [bind tp_at tp_track]. split; [reflexivity|]. split; [exact HI|]. lia.
      * rewrite C48_end_is_start, ST by exact HA. cbn [bind tp_at tp_track]. split; [reflexivity|]. split; [exact HI|]. lia.
Qed.
(** Each stored sample is the one recorded last at its place, and recording never moves anything else. *)
Theorem C71_last_recorded : forall info t samples i, 0 <= tp_at t <= zlen (tp_track t) -> 0 <= i ->
  let new := whole (si_channels info) samples in
  match tape_step info t (Rec samples) with
  | Some (t', _) => nth (Z.to_nat i) (tp_track t') 0 =
      if (tp_at t <=? i) && (i <? tp_at t + zlen new) then nth (Z.to_nat (i - tp_at t)) (map quantise new) 0 else nth (Z.to_nat i) (tp_track t) 0
  | None => False
  end.
Proof.
  intros info [track c] samples i Hc Hi new. cbn [tp_at tp_track] in *. unfold tape_step. cbn [tp_at tp_track]. fold new.
  set (q := map quantise new). assert (LQ : zlen q = zlen new) by (subst q; apply zlen_map). clearbody q. rewrite <- LQ. clear LQ.
  assert (LF : List.length (firstn (Z.to_nat c) track) = Z.to_nat c) by (rewrite firstn_length; unfold zlen in Hc; lia).
  unfold overwrite. destruct (Z.leb_spec c i); destruct (Z.ltb_spec i (c + zlen q)); cbn [andb]; unfold zlen in *.
  - rewrite app_nth2 by lia. rewrite LF. rewrite app_nth1 by lia. f_equal. lia.
  - rewrite app_nth2 by lia. rewrite LF. rewrite app_nth2 by lia. rewrite nth_skipn_plus. f_equal. lia.
  - rewrite app_nth1 by lia. apply nth_firstn_lt. lia.
  - lia.
Qed.
(** The tape recorder needs whole samples: appending to a loaded file that ends in half a sample (one odd byte)
    shifts every appended byte.  The first appended sample is heard as the odd byte plus 256 times its own low byte. *)
Theorem C71_odd_byte : forall p rate t odd s, Forall is_i16 t -> 0 <= odd < 256 -> zlen t < 2 ^ 62 ->
  let q := quantise s in
  wav_encode p (mkWav (mkInfo rate 1) (pcm_bytes t ++ [odd]) (zlen t)) [s] =
  Ok (mkWav (mkInfo rate 1) (pcm_bytes (t ++ [swrap 16 (odd + 256 * (q mod 256))]) ++ [(q / 256) mod 256]) (zlen t + 1), Some 1).
Proof.
  intros p rate t odd s Ht Ho Hl q. unfold wav_encode. cbn [wav_info si_channels]. change (zlen [s]) with 1. rewrite udiv_ok by lia. cbn [bind].
  change (1 / 1 * 1) with 1. change (firstn (Z.to_nat 1) [s]) with [s]. cbn [foldM].
  unfold wav_write_sample, wav_num_samples, wav_offset_cursor. cbn [wav_cursor wav_pcm wav_info].
  assert (E : zlen (pcm_bytes t ++ [odd]) / 2 = zlen t).
  { rewrite zlen_app, zlen_pcm. change (zlen [odd]) with 1. symmetry. apply (Z.div_unique _ 2 _ 1); lia. }
  rewrite E. destruct (Z.ltb_spec (zlen t) (zlen t)); [lia|]. cbn [bind]. pose proof (zlen_nonneg t). cbn [wav_cursor wav_pcm wav_info].
  rewrite swrap_small by (change (2 ^ (64 - 1)) with (2 * 2 ^ 62); lia). rewrite schk_ok by (change (2 ^ (64 - 1)) with (2 * 2 ^ 62); lia). cbn [bind].
  replace (Z.max (zlen t + 1) 0) with (zlen t + 1) by lia. change (truncate_sample s) with q. rewrite lo_byte_mod, hi_byte_mod.
  do 3 f_equal. rewrite pcm_app, <- !app_assoc. f_equal. unfold pcm_bytes. cbn [flat_map bytes16 app].
  pose proof (Z.mod_pos_bound q 256 ltac:(lia)).
  set (lo := q mod 256) in *. set (x := odd + 256 * lo). assert (Hx : 0 <= x < 65536) by (subst x; lia).
  assert (X1 : x mod 256 = odd) by (symmetry; apply (Z.mod_unique _ 256 lo); subst x; lia).
  assert (X2 : x / 256 = lo) by (symmetry; apply (Z.div_unique _ 256 _ odd); subst x; lia).
  assert (K : exists k, swrap 16 x = x + k * 65536).
  { destruct (Z.ltb_spec x 32768); [exists 0; rewrite swrap_small by (change (2 ^ (16 - 1)) with 32768; lia); lia|].
    exists (-1). unfold swrap. change (2 ^ (16 - 1)) with 32768. change (2 ^ 16) with 65536.
    rewrite <- (Z.mod_unique (x + 32768) 65536 1 (x - 32768)) by lia. lia. }
  destruct K as (k & ->). f_equal.
  - rewrite <- X1 at 1. replace (x + k * 65536) with (x + k * 256 * 256) by lia. now rewrite Z.mod_add.
  - f_equal. replace (x + k * 65536) with (x + k * 256 * 256) by lia. rewrite Z.div_add, X2, Z.mod_add by lia.
    symmetry. apply Z.mod_small. assumption.
Qed.
Print Assumptions C71_tape.
Print Assumptions C71_last_recorded.
Print Assumptions C71_odd_byte.

(** Record five samples in stereo, wind back, play, record over the middle, wind on, play. *)
Example C71_applies : let info := mkInfo 1000 2 in
  let acts := [Rec (map restore [10; 20; 30; 40; 50]); Wind (SStart 0); Play [f0; f0]; Rec (map restore [-7; -8; -9; -10]); Wind (SEnd 1); Wind (SCurrent (-1)); Play (repeat f0 9)] in
  1 <= si_channels info /\ total acts < 2 ^ 62 /\ Forall (near_by info) acts /\
  (match tape_run info blank acts with
   | Some (t, rs) => tp_track t = [10; 20; -7; -8; -9; -10] /\ tp_at t = 6 /\
       map (fun r => match r with Recorded (Some n) => n | Recorded None => 98 | Played _ (Some n) => 100 + n | Played _ None => 99 | Wound => 50 end) rs
         = [4; 50; 102; 4; 50; 50; 106]
   | None => False
   end) /\
  tape_run info blank [Wind (SStart 0)] = None.
Proof.
  cbv zeta. split; [cbn; lia|]. split; [vm_compute; reflexivity|]. split.
  - repeat constructor; vm_compute; reflexivity.
  - vm_compute. auto.
Qed.
Example C71_odd_applies : Forall is_i16 [5] /\ swrap 16 (255 + 256 * (1000 mod 256)) = -5889 /\ quantise (restore 1000) = 1000.
Proof. split; [repeat constructor; unfold is_i16; lia|]. split; vm_compute; reflexivity. Qed.
