(** * Properties C27 (WAV), C42 - C48, C55: WAV recordings and WAV files

    Spec/Wave.v defines what samples look like as bytes ([pcm_bytes]), what filling play buffers
    means ([fill_all]), the header ([canonical_header]) and where the "data" tag is ([first_tag]). *)
From Coq Require Import ZArith List Bool Lia.
From Flocq Require Import IEEE754.BinarySingleNaN.
From Verif Require Import Model.Base Model.F32 Model.Sample Model.Adhoc Model.Wav Spec.Recording Spec.Seeking Spec.Wave
  Proofs.BaseFacts Proofs.EncodeFacts Proofs.WavFacts Proofs.WavSeek Proofs.WavFile.
Import ListNotations.
Open Scope Z_scope.

(** Encode several slices / decode into several buffers, collecting what the calls report. *)
Fixpoint wav_encode_all (p : profile) (w : wav) (chunks : list (list f32)) : outcome (wav * list (option Z)) :=
  match chunks with
  | [] => Ok (w, [])
  | x :: chunks => '(w, r) <- wav_encode p w x ;; '(w, rs) <- wav_encode_all p w chunks ;; Ok (w, r :: rs)
  end.
Fixpoint wav_decode_all (w : wav) (bufs : list (list f32)) : outcome (wav * list (list f32 * option Z)) :=
  match bufs with
  | [] => Ok (w, [])
  | b :: bufs => '(w, b', r) <- wav_decode w b ;; '(w, rs) <- wav_decode_all w bufs ;; Ok (w, (b', r) :: rs)
  end.

(** ** Lemmas *)
Lemma quantise_i16 s : is_i16 (quantise s).
Proof.
  unfold is_i16, quantise. generalize (fmul (fclamp s (f32_of_Z (-1)) (f32_of_Z 1)) (f32_of_Z 32767)). intros x. unfold f32_as_i16, f32_to_int.
  destruct x as [? | [|] | |? ? ? ?]; try lia; match goal with |- context [zclamp ?z _ _] => generalize z end; intros z; rewrite zclamp_eq by lia; lia.
Qed.
Lemma overwrite_at_end t xs : overwrite t (length t) xs = t ++ xs.
Proof. unfold overwrite. rewrite firstn_all, skipn_all2 by lia. now rewrite app_nil_r. Qed.
Lemma encode_all_from p info : 0 < si_channels info -> forall chunks t, zlen t + zlen (concat chunks) < 2 ^ 63 ->
  let signal := flat_map (whole (si_channels info)) chunks in
  wav_encode_all p (mkWav info (pcm_bytes t) (zlen t)) chunks =
  Ok (mkWav info (pcm_bytes (t ++ map quantise signal)) (zlen (t ++ map quantise signal)),
      map (fun x => Some (zlen (whole (si_channels info) x))) chunks).
Proof.
  intros Hc. induction chunks as [|x chunks IH]; intros t Hl; cbn [wav_encode_all flat_map map].
  - rewrite app_nil_r. reflexivity.
  - cbn [concat] in Hl. rewrite zlen_app in Hl. pose proof (zlen_nonneg (concat chunks)). pose proof (zlen_nonneg t).
    rewrite encode_ok by lia. cbn [bind].
    replace (Z.to_nat (zlen t)) with (length t) by (unfold zlen; lia). rewrite overwrite_at_end.
    replace (zlen t + zlen (whole (si_channels info) x)) with (zlen (t ++ map quantise (whole (si_channels info) x))) by (rewrite zlen_app, zlen_map; reflexivity).
    rewrite IH.
    + cbn [bind]. rewrite map_app, <- app_assoc. reflexivity.
    + rewrite zlen_app, zlen_map, whole_len by lia. pose proof (Z.mul_div_le (zlen x) (si_channels info) Hc). lia.
Qed.
Lemma decode_all_from info odd t : 0 < si_channels info -> Forall is_i16 t -> (length odd <= 1)%nat ->
  forall bufs c, 0 <= c <= zlen t ->
  exists w, wav_decode_all (mkWav info (pcm_bytes t ++ odd) c) bufs
            = Ok (w, fill_all (si_channels info) (skipn (Z.to_nat c) (map restore t)) bufs) /\
            wav_info w = info /\ wav_pcm w = pcm_bytes t ++ odd.
Proof.
  intros Hc Ht Ho. induction bufs as [|b bufs IH]; intros c Hb; cbn [wav_decode_all fill_all].
  - eexists. split; [reflexivity|]. split; reflexivity.
  - destruct (decode_ok info t odd c b Hc Hb Ht Ho) as (n & Hn & _ & E & R). rewrite E. cbn [bind].
    destruct (IH (c + n) ltac:(lia)) as (w & Ew & I1 & I2). rewrite R in Ew. rewrite Ew. cbn [bind].
    destruct (fill (si_channels info) (skipn (Z.to_nat c) (map restore t)) b) as [rest' [b' r]]. cbn [fst snd]. eauto.
Qed.
Lemma rest_of_fill ch rest buf : 0 < ch -> reported (snd (fill ch rest buf)) ++ fst (fill ch rest buf) = rest.
Proof.
  intros Hc. unfold fill, reported. cbn [fst snd]. set (n := Z.min _ _). pose proof (zlen_nonneg rest). pose proof (zlen_nonneg buf).
  assert (Hn : 0 <= n <= zlen rest). { subst n. pose proof (Z.div_pos (zlen buf) ch). nia. }
  destruct (Z.eqb_spec n 0) as [->|]; [reflexivity|]. cbn [fst snd].
  rewrite firstn_app, firstn_firstn, firstn_length. replace (Z.to_nat n - Nat.min (Z.to_nat n) (length rest))%nat with 0%nat by (unfold zlen in *; lia).
  cbn [firstn]. rewrite app_nil_r, Nat.min_id. apply firstn_skipn.
Qed.
Definition capacity (ch : Z) (bufs : list (list f32)) : Z := fold_right (fun b n => ch * (zlen b / ch) + n) 0 bufs.
Lemma capacity_nonneg ch bufs : 0 < ch -> 0 <= capacity ch bufs.
Proof. intros Hc. induction bufs as [|b bufs IH]; cbn [capacity fold_right]; [lia|]. fold (capacity ch bufs). pose proof (Z.div_pos (zlen b) ch (zlen_nonneg b) Hc). nia. Qed.
Lemma fill_everything ch : 0 < ch -> forall bufs rest, zlen rest <= capacity ch bufs -> flat_map reported (fill_all ch rest bufs) = rest.
Proof.
  intros Hc. induction bufs as [|b bufs IH]; intros rest Hl; cbn [fill_all flat_map].
  - cbn in Hl. pose proof (zlen_nonneg rest). destruct rest; [reflexivity|]. unfold zlen in *. cbn [length] in *. lia.
  - pose proof (rest_of_fill ch rest b Hc) as E. cbn [capacity fold_right] in Hl. fold (capacity ch bufs) in Hl. pose proof (capacity_nonneg ch bufs Hc).
    assert (Hr : zlen (fst (fill ch rest b)) <= capacity ch bufs). { unfold fill. cbn [fst]. rewrite zlen_skipn. pose proof (Z.div_pos (zlen b) ch (zlen_nonneg b) Hc). pose proof (zlen_nonneg rest). nia. }
    destruct (fill ch rest b) as [rest' r]. cbn [fst snd flat_map] in *. rewrite IH by exact Hr. exact E.
Qed.

(** ** C42: what is encoded comes back *)
(** After encoding any slices into a new WavCodec and seeking to the start, decoding into any
    buffers fills them, in order and in whole blocks, with the encoded samples quantised to 16 bits. *)
Theorem C42_round_trip : forall p info chunks bufs,
  1 <= si_channels info -> 0 <= si_rate info < 2 ^ 32 -> zlen (concat chunks) < 2 ^ 62 ->
  let signal := flat_map (whole (si_channels info)) chunks in
  signal <> [] ->
  exists w w1 w2,
    wav_encode_all p (wav_new info) chunks = Ok (w, map (fun x => Some (zlen (whole (si_channels info) x))) chunks) /\
    wav_pcm w = pcm_bytes (map quantise signal) /\
    wav_seek p w (SStart 0) = Ok w1 /\
    wav_decode_all w1 bufs = Ok (w2, fill_all (si_channels info) (map (fun s => restore (quantise s)) signal) bufs) /\
    wav_pcm w2 = wav_pcm w.
Proof.
  intros p info chunks bufs Hc Hr Hl signal Hs. set (t := map quantise signal).
  assert (Hlen : zlen t <= zlen (concat chunks)).
  { subst t signal. rewrite zlen_map. clear - Hc. induction chunks as [|x chunks IH]; cbn [flat_map concat]; [lia|]. rewrite !zlen_app, whole_len by lia. pose proof (Z.mul_div_le (zlen x) (si_channels info)). lia. }
  assert (Hpos : 0 < zlen t). { subst t. rewrite zlen_map. destruct signal; [congruence|]. rewrite zlen_cons. pose proof (zlen_nonneg signal). lia. }
  pose proof (encode_all_from p info ltac:(lia) chunks [] ltac:(change (zlen (@nil Z)) with 0; lia)) as E. cbv zeta in E. fold signal in E. fold t in E. cbn [app] in E.
  exists (mkWav info (pcm_bytes t) (zlen t)), (mkWav info (pcm_bytes t) 0).
  destruct (decode_all_from info [] t ltac:(lia)) with (bufs := bufs) (c := 0) as (w2 & E2 & _ & I2).
  - apply Forall_forall. intros z Hz. apply in_map_iff in Hz. destruct Hz as (s & <- & _). apply quantise_i16.
  - cbn; lia.
  - lia.
  - exists w2. rewrite app_nil_r in E2, I2. split; [exact E|]. split; [reflexivity|]. split; [|split; [|exact I2]].
    + rewrite seek_start; rewrite ?offset_zero by lia.
      * do 2 f_equal. rewrite zlen_pcm, (Z.mul_comm 2), Z.div_mul by lia. rewrite zclamp_eq by lia. lia.
      * rewrite zlen_pcm, (Z.mul_comm 2), Z.div_mul by lia. lia.
      * lia.
    + rewrite E2. f_equal. f_equal. cbn [Z.to_nat skipn]. subst t. now rewrite map_map.
Qed.
(** With room for everything, everything comes back. *)
Corollary C42_everything_back : forall p info chunks bufs,
  1 <= si_channels info -> 0 <= si_rate info < 2 ^ 32 -> zlen (concat chunks) < 2 ^ 62 ->
  let signal := flat_map (whole (si_channels info)) chunks in
  signal <> [] -> zlen signal <= capacity (si_channels info) bufs ->
  exists w rs w1 w2 out,
    wav_encode_all p (wav_new info) chunks = Ok (w, rs) /\ wav_seek p w (SStart 0) = Ok w1 /\
    wav_decode_all w1 bufs = Ok (w2, out) /\ flat_map reported out = map (fun s => restore (quantise s)) signal.
Proof.
  intros p info chunks bufs Hc Hr Hl signal Hs Hcap. destruct (C42_round_trip p info chunks bufs Hc Hr Hl Hs) as (w & w1 & w2 & E1 & _ & E2 & E3 & _).
  exists w, (map (fun x => Some (zlen (whole (si_channels info) x))) chunks), w1, w2. eexists. split; [exact E1|]. split; [exact E2|]. split; [exact E3|].
  apply fill_everything; [lia|]. now rewrite zlen_map.
Qed.
(** Encoding in the middle of a recording overwrites from the cursor on. *)
Theorem C42_overwrite : forall p info t c samples,
  1 <= si_channels info -> 0 <= c <= zlen t -> c + zlen samples < 2 ^ 63 ->
  let new := map quantise (whole (si_channels info) samples) in
  wav_encode p (mkWav info (pcm_bytes t) c) samples
  = Ok (mkWav info (pcm_bytes (overwrite t (Z.to_nat c) new)) (c + zlen new), Some (zlen new)).
Proof.
  intros p info t c samples Hc Hb Hl new. rewrite encode_ok by lia. subst new. now rewrite zlen_map.
Qed.
Print Assumptions C42_round_trip.
Print Assumptions C42_everything_back.
Print Assumptions C42_overwrite.

(** ** C27 (WAV): only whole blocks are written, and only they are reported *)
Theorem C27_wav : forall p info t c samples,
  1 <= si_channels info -> 0 <= c <= zlen t -> c + zlen samples < 2 ^ 63 ->
  exists w, wav_encode p (mkWav info (pcm_bytes t) c) samples = Ok (w, Some (si_channels info * (zlen samples / si_channels info))).
Proof. intros p info t c samples Hc Hb Hl. eexists. rewrite encode_ok by lia. rewrite whole_len by lia. reflexivity. Qed.
Print Assumptions C27_wav.
Example C27_wav_applies :
  match wav_encode Debug (wav_new (mkInfo 48000 2)) [f1; f0; f1; f0; f1] with
  | Ok (w, r) => r = Some 4 /\ zlen (wav_pcm w) = 8 | _ => False end.
Proof. vm_compute. auto. Qed.

(** ** C43: load after save *)
Theorem C43_file : forall p w, format_fits (wav_info w) -> zlen (wav_pcm w) < 2 ^ 32 - 36 ->
  wav_save p w = Ok (canonical_header (si_rate (wav_info w)) (si_channels (wav_info w)) (zlen (wav_pcm w)) ++ wav_pcm w).
Proof. intros p w Hf Hl. unfold wav_save, wav_save_to. rewrite header_ok by auto. reflexivity. Qed.
Theorem C43_load_after_save : forall p q w,
  format_fits (wav_info w) -> 212 <= zlen (wav_pcm w) < 2 ^ 32 - 36 -> zlen (wav_pcm w) <> 1635017024 ->
  exists file, wav_save p w = Ok file /\ wav_load q file = Ok (Some (mkWav (wav_info w) (wav_pcm w) 0)).
Proof.
  intros p q w Hf Hl Hu. eexists. split; [apply C43_file; auto; lia|]. now apply load_saved.
Qed.
(** Recordings of fewer than 212 bytes (106 samples) cannot be loaded again. *)
Theorem C43_short : forall p q w file, zlen (wav_pcm w) < 212 -> wav_save p w = Ok file -> wav_load q file = Ok None.
Proof.
  intros p q w file Hl H. unfold wav_save, wav_save_to in H. destruct (wav_header p w) as [h| |] eqn:E; cbn [bind] in H; try discriminate H.
  assert (X : file = firstn 44 h ++ wav_pcm w) by congruence. subst file. apply load_short. rewrite zlen_app, zlen_firstn. apply header_len_any in E. unfold zlen in *. lia.
Qed.
(** One length is unlucky: its size field reads "data", and the rest of the header is loaded as samples. *)
Theorem C43_unlucky : forall p q w, format_fits (wav_info w) -> zlen (wav_pcm w) = 1635017024 ->
  exists file header, wav_save p w = Ok file /\ zlen header = 32 /\
    wav_load q file = Ok (Some (mkWav (wav_info w) (header ++ wav_pcm w) 0)).
Proof.
  intros p q w Hf Hl. eexists. exists (skipn 12 (canonical_header (si_rate (wav_info w)) (si_channels (wav_info w)) (zlen (wav_pcm w)))).
  split; [apply C43_file; auto; lia|]. split; [reflexivity|]. rewrite load_unlucky by (auto; lia). rewrite skipn_app. reflexivity.
Qed.
(** Recorded, saved, loaded, played. *)
Theorem C43_play : forall p q info chunks bufs,
  format_fits info -> let signal := flat_map (whole (si_channels info)) chunks in
  106 <= zlen signal -> zlen (concat chunks) < 2 ^ 31 - 18 -> zlen signal <> 817508512 ->
  exists w rs file w1 w2,
    wav_encode_all p (wav_new info) chunks = Ok (w, rs) /\ wav_save p w = Ok file /\ wav_load q file = Ok (Some w1) /\
    wav_info w1 = info /\
    wav_decode_all w1 bufs = Ok (w2, fill_all (si_channels info) (map (fun s => restore (quantise s)) signal) bufs).
Proof.
  intros p q info chunks bufs Hf signal Hs Hl Hu. pose proof Hf as (Hc & _ & _). set (t := map quantise signal).
  assert (Hlen : zlen t <= zlen (concat chunks)).
  { subst t signal. rewrite zlen_map. clear - Hc. induction chunks as [|x chunks IH]; cbn [flat_map concat]; [lia|]. rewrite !zlen_app, whole_len by lia. pose proof (Z.mul_div_le (zlen x) (si_channels info)). lia. }
  assert (Ht : zlen t = zlen signal) by (subst t; apply zlen_map).
  pose proof (encode_all_from p info ltac:(lia) chunks [] ltac:(change (zlen (@nil Z)) with 0; lia)) as E. cbv zeta in E. fold signal in E. fold t in E. cbn [app] in E.
  destruct (C43_load_after_save p q (mkWav info (pcm_bytes t) (zlen t))) as (file & S & L); [exact Hf|cbn [wav_pcm]; rewrite zlen_pcm; lia|cbn [wav_pcm]; rewrite zlen_pcm; lia|].
  cbn [wav_info wav_pcm] in L.
  destruct (decode_all_from info [] t ltac:(lia)) with (bufs := bufs) (c := 0) as (w2 & E2 & _ & _).
  - apply Forall_forall. intros z Hz. apply in_map_iff in Hz. destruct Hz as (s & <- & _). apply quantise_i16.
  - cbn; lia.
  - lia.
  - rewrite app_nil_r in E2. exists (mkWav info (pcm_bytes t) (zlen t)). eexists. exists file, (mkWav info (pcm_bytes t) 0), w2.
    split; [exact E|]. split; [exact S|]. split; [exact L|]. split; [reflexivity|]. rewrite E2. f_equal. f_equal. cbn [Z.to_nat skipn]. subst t. now rewrite map_map.
Qed.
(** Formats outside [format_fits]: saving panics in a debug build; in a release build it writes a
    block size of zero for 4096 channels. *)
Theorem C43_wide_panics : forall pcm rate ch, 2048 <= ch < 32768 -> 0 <= rate -> rate * ch < 2 ^ 27 -> zlen pcm < 2 ^ 32 - 36 ->
  wav_save Debug (mkWav (mkInfo rate ch) pcm 0) = Panic ArithmeticOverflow.
Proof.
  intros pcm rate ch Hc Hr Hp Hn. pose proof (zlen_nonneg pcm). unfold wav_save, wav_save_to, wav_header. cbn [wav_info wav_pcm si_rate si_channels].
  assert (rate < 2 ^ 27) by nia. rewrite (uwrap_small 32) by lia. rewrite uchk_ok by lia. cbn [bind].
  rewrite (swrap_small 32 rate) by lia. rewrite (swrap_small 16 ch) by lia.
  rewrite schk_ok by (change (2 ^ (32 - 1)) with (2 ^ 31); nia). cbn [bind].
  rewrite schk_ok by (change (2 ^ (32 - 1)) with (2 ^ 31); nia). cbn [bind].
  unfold schk, in_s. destruct (Z.ltb_spec (ch * 16) (2 ^ (16 - 1))) as [L|]; [change (2 ^ (16 - 1)) with 32768 in L; lia|]. rewrite andb_false_r. reflexivity.
Qed.
Print Assumptions C43_file.
Print Assumptions C43_load_after_save.
Print Assumptions C43_short.
Print Assumptions C43_unlucky.
Print Assumptions C43_play.
Print Assumptions C43_wide_panics.
Example C43_applies : format_fits (mkInfo 48000 2) /\ format_fits (mkInfo 192000 8).
Proof. unfold format_fits. cbn [si_rate si_channels]. lia. Qed.
Example C43_concrete :
  match wav_save Debug (mkWav (mkInfo 48000 2) (map (fun i => i mod 256) (range 300)) 7) with
  | Ok file => zlen file = 344 /\ wav_load Release file = Ok (Some (mkWav (mkInfo 48000 2) (map (fun i => i mod 256) (range 300)) 0))
  | _ => False end.
Proof. vm_compute. auto. Qed.

(** ** C44: the size of the file *)
Theorem C44_size : forall p w file, wav_save p w = Ok file -> wav_filesize_upperbound w = 8 * zlen file.
Proof.
  intros p w file H. unfold wav_save, wav_save_to in H. destruct (wav_header p w) as [h| |] eqn:E; cbn [bind] in H; try discriminate H.
  assert (X : file = firstn 44 h ++ wav_pcm w) by congruence. subst file. rewrite zlen_app, zlen_firstn. apply header_len_any in E. unfold wav_filesize_upperbound, zlen in *. lia.
Qed.
Print Assumptions C44_size.

(** ** C45: when load panics *)
Theorem C45_panics_iff : forall p file,
  (exists r, wav_load p file = Panic r) <-> 256 <= zlen file /\ exists pos, first_tag file pos /\ (248 < pos)%nat.
Proof.
  intros p file. destruct (Z.lt_ge_cases (zlen file) 256) as [H|H].
  { rewrite load_short by exact H. split; [intros [r E]; discriminate E|lia]. }
  split.
  - intros [r E]. split; [exact H|]. pose proof (find_tag_spec (firstn 256 file) 0) as F. destruct (find_tag (firstn 256 file) 0) as [q|].
    + destruct F as (k & _ & T & N). exists k. assert (FT : first_tag file k) by (split; assumption). split; [exact FT|].
      destruct (Nat.lt_ge_cases 248 k); [assumption|]. destruct (load_ok p file k H FT ltac:(assumption)) as [o E']. congruence.
    + rewrite load_no_tag in E; [discriminate E|]. intros pos [T _]. now apply (F pos).
  - intros [_ (pos & FT & Hp)]. eexists. now apply load_late_tag with pos.
Qed.
Theorem C45_otherwise : forall p file, ~ (256 <= zlen file /\ exists pos, first_tag file pos /\ (248 < pos)%nat) ->
  exists o, wav_load p file = Ok o.
Proof.
  intros p file H. destruct (Z.lt_ge_cases (zlen file) 256) as [L|L]; [exists None; now apply load_short|].
  pose proof (find_tag_spec (firstn 256 file) 0) as F. destruct (find_tag (firstn 256 file) 0) as [q|].
  - destruct F as (k & _ & T & N). assert (FT : first_tag file k) by (split; assumption). destruct (Nat.lt_ge_cases 248 k); [exfalso; eauto|]. now apply (load_ok p file k).
  - exists None. apply load_no_tag. intros pos [T _]. now apply (F pos).
Qed.
Print Assumptions C45_panics_iff.
Print Assumptions C45_otherwise.
Example C45_witness : wav_load Release (repeat 0 250 ++ data_tag ++ repeat 0 100) = Panic IndexOutOfBounds.
Proof. reflexivity. Qed.

(** ** C46: everything after the data header is loaded *)
Theorem C46_pcm : forall p file pos w, Forall is_byte file -> wav_load p file = Ok (Some w) -> first_tag file pos ->
  number_at file 34 2 = 16 -> wav_pcm w = skipn (pos + 8) file /\ wav_cursor w = 0 /\
  si_rate (wav_info w) = number_at file 24 4 /\ (number_at file 22 2 < 32768 -> si_channels (wav_info w) = number_at file 22 2).
Proof.
  intros p file pos w HB H FT Hbits. destruct (Z.lt_ge_cases (zlen file) 256) as [L|L]; [rewrite load_short in H by exact L; discriminate H|].
  destruct (Nat.lt_ge_cases 248 pos) as [G|G]; [rewrite (load_late_tag p file pos) in H by assumption; discriminate H|].
  rewrite (load_tag p file pos) in H by assumption. rewrite Hbits in H. change (swrap 16 16) with 16 in H. cbn [Z.eqb Pos.eqb orb] in H. cbv zeta in H.
  destruct (_ =? 1); [|discriminate H]. injection H as <-. cbn [wav_pcm wav_cursor wav_info]. unfold loaded_info. cbn [si_rate si_channels].
  split; [reflexivity|]. split; [reflexivity|]. pose proof (number_at_range file 24 4 HB) as R. change (256 ^ Z.of_nat 4) with (2 ^ 32) in R.
  pose proof (number_at_range file 22 2 HB) as R2. split.
  - rewrite uwrap_swrap by lia. now apply (uwrap_small 32).
  - intros Hs. rewrite (swrap_small 16) by lia. rewrite (uwrap_small 32) by lia. reflexivity.
Qed.
(** Bytes after the audio (a LIST chunk, say) become audio. *)
Theorem C46_trailing : forall p file extra w, wav_load p file = Ok (Some w) -> number_at file 34 2 = 16 ->
  wav_load p (file ++ extra) = Ok (Some (mkWav (wav_info w) (wav_pcm w ++ extra) 0)).
Proof.
  intros p file extra w H Hbits. destruct (Z.lt_ge_cases (zlen file) 256) as [L|L]; [rewrite load_short in H by exact L; discriminate H|].
  pose proof (find_tag_spec (firstn 256 file) 0) as F. destruct (find_tag (firstn 256 file) 0) as [q|] eqn:EF.
  2:{ rewrite load_no_tag in H; [discriminate H|]. intros pos [T _]. now apply (F pos). }
  destruct F as (pos & _ & T & N). assert (FT : first_tag file pos) by (split; assumption).
  destruct (Nat.lt_ge_cases 248 pos) as [G|G]; [rewrite (load_late_tag p file pos) in H by assumption; discriminate H|].
  assert (TF : firstn 256 (file ++ extra) = firstn 256 file). { rewrite firstn_app. replace (256 - length file)%nat with 0%nat by (unfold zlen in L; lia). apply app_nil_r. }
  assert (NE : forall o n, (o + n <= 256)%nat -> number_at (file ++ extra) o n = number_at file o n). { intros o n Ho. rewrite <- (field_number (file ++ extra) o n), <- (field_number file o n) by lia. now rewrite TF. }
  rewrite (load_tag p file pos) in H by assumption. rewrite (load_tag p (file ++ extra) pos); [|rewrite zlen_app; pose proof (zlen_nonneg extra); lia|unfold first_tag; now rewrite TF|assumption].
  unfold loaded_info in *. rewrite !NE by lia. rewrite Hbits in *. change (swrap 16 16) with 16 in *. cbn [Z.eqb Pos.eqb orb] in *. cbv zeta in *.
  destruct (_ =? 1); [|discriminate H]. injection H as <-. cbn [wav_info wav_pcm].
  rewrite skipn_app. replace (pos + 8 - length file)%nat with 0%nat by (unfold zlen in L; lia). reflexivity.
Qed.
(** The size field of the data chunk is not looked at. *)
Theorem C46_size_ignored : forall p h size size' rest, length size = 4%nat -> length size' = 4%nat -> (36 <= length h <= 248)%nat ->
  (forall i, (i < length h)%nat -> ~ tag_at (h ++ data_tag) i) ->
  wav_load p (h ++ data_tag ++ size ++ rest) = wav_load p (h ++ data_tag ++ size' ++ rest).
Proof.
  assert (T : forall h s rest, (36 <= length h <= 248)%nat -> length s = 4%nat -> (forall i, (i < length h)%nat -> ~ tag_at (h ++ data_tag) i) -> first_tag (h ++ data_tag ++ s ++ rest) (length h)).
  { intros h s rest Hh Hs N.
    assert (P : exists u, firstn 256 (h ++ data_tag ++ s ++ rest) = (h ++ data_tag) ++ u).
    { rewrite app_assoc, firstn_app, firstn_all2 by (rewrite app_length; cbn [data_tag length]; lia). eauto. }
    destruct P as [u P]. unfold first_tag. rewrite P. split.
    - unfold tag_at. rewrite <- app_assoc, skipn_app, skipn_all, Nat.sub_diag. reflexivity.
    - intros i Hi X. apply (N i Hi). unfold tag_at in *. rewrite skipn_app in X. rewrite firstn_app in X.
      replace (4 - length (skipn i (h ++ data_tag)))%nat with 0%nat in X by (rewrite skipn_length, app_length; cbn [data_tag length]; lia).
      cbn [firstn] in X. rewrite app_nil_r in X. exact X. }
  intros p h s s' rest Hs Hs' Hh N. pose proof (T h s rest Hh Hs N) as F. pose proof (T h s' rest Hh Hs' N) as F'.
  assert (EL : zlen (h ++ data_tag ++ s ++ rest) = zlen (h ++ data_tag ++ s' ++ rest)) by (rewrite !zlen_app; unfold zlen; lia).
  destruct (Z.lt_ge_cases (zlen (h ++ data_tag ++ s ++ rest)) 256) as [L|L]; [rewrite !load_short by lia; reflexivity|].
  rewrite !(load_tag p _ (length h)) by (auto; lia).
  assert (NE : forall s o n, (o + n <= 36)%nat -> number_at (h ++ data_tag ++ s ++ rest) o n = number_at h o n).
  { intros x o n Ho. unfold number_at. f_equal. rewrite skipn_app, firstn_app. replace (n - length (skipn o h))%nat with 0%nat by (rewrite skipn_length; lia). apply app_nil_r. }
  assert (SE : forall s, length s = 4%nat -> skipn (length h + 8) (h ++ data_tag ++ s ++ rest) = rest).
  { intros x Hx. rewrite !app_assoc, <- app_assoc. replace (length h + 8)%nat with (length ((h ++ data_tag) ++ x)) by (rewrite !app_length; cbn [data_tag length]; lia).
    rewrite app_assoc, skipn_app, skipn_all, Nat.sub_diag. reflexivity. }
  unfold loaded_info. rewrite !NE by lia. rewrite !SE by assumption. reflexivity.
Qed.
Print Assumptions C46_pcm.
Print Assumptions C46_trailing.
Print Assumptions C46_size_ignored.

(** ** C47: 8-bit files *)
(** The exact value towards zero, except for byte 85, where single precision is one off. *)
Definition eight_bit (b : Z) : Z := if b =? 85 then -10921 else Z.quot ((2 * b - 255) * 32766) 255.
Lemma range_in b : is_byte b -> In b (range 256).
Proof. unfold is_byte. intros H. apply in_range. lia. Qed.
Lemma expand8_exact b : is_byte b -> expand8 b = eight_bit b.
Proof.
  intros H. apply range_in in H. assert (F : forallb (fun b => expand8 b =? eight_bit b) (range 256) = true) by (vm_compute; reflexivity).
  rewrite forallb_forall in F. apply F in H. now apply Z.eqb_eq.
Qed.
Theorem C47_expansion : forall p file pos, Forall is_byte file -> 256 <= zlen file -> first_tag file pos -> (pos <= 248)%nat ->
  number_at file 34 2 = 8 -> number_at file 20 2 = 1 ->
  exists info, wav_load p file = Ok (Some (mkWav info (pcm_bytes (map eight_bit (skipn (pos + 8) file))) 0)).
Proof.
  intros p file pos HB L FT Hp Hb Hf. eexists. rewrite (load_tag p file pos) by assumption. rewrite Hb, Hf.
  change (swrap 16 8) with 8. change (swrap 16 1) with 1. cbn [Z.eqb Pos.eqb orb]. cbv zeta. do 4 f_equal.
  apply map_ext_in. intros b Hin. apply expand8_exact. eapply Forall_forall; [exact HB|]. rewrite <- (firstn_skipn (pos + 8) file). apply in_or_app. now right.
Qed.
Lemma eight_bit_check : forall b, is_byte b -> is_i16 (eight_bit b) /\ (b < 255 -> eight_bit b < eight_bit (b + 1)).
Proof.
  intros b H. apply range_in in H.
  assert (F : forallb (fun b => (-32768 <=? eight_bit b) && (eight_bit b <=? 32767) && ((255 <=? b) || (eight_bit b <? eight_bit (b + 1)))) (range 256) = true) by (vm_compute; reflexivity).
  rewrite forallb_forall in F. apply F in H. rewrite !andb_true_iff, orb_true_iff, !Z.leb_le, Z.ltb_lt in H. unfold is_i16. lia.
Qed.
Theorem C47_monotone : forall a b, is_byte a -> is_byte b -> a < b -> eight_bit a < eight_bit b.
Proof.
  intros a b Ha Hb H. unfold is_byte in *. replace b with (a + 1 + Z.of_nat (Z.to_nat (b - a - 1))) in * by lia. set (k := Z.to_nat (b - a - 1)) in *. clearbody k.
  induction k as [|k IH]; [rewrite Z.add_0_r in *; apply eight_bit_check; unfold is_byte; lia|].
  eapply Z.lt_trans; [apply IH; lia|]. replace (a + 1 + Z.of_nat (S k)) with (a + 1 + Z.of_nat k + 1) by lia. apply eight_bit_check; unfold is_byte; lia.
Qed.
Theorem C47_ends : eight_bit 0 = -32766 /\ eight_bit 255 = 32766.
Proof. split; reflexivity. Qed.
(** Silence, byte 128, becomes 128 and not 0; no byte becomes 0. *)
Theorem C47_silence_refuted : eight_bit 128 = 128 /\ forall b, is_byte b -> eight_bit b <> 0.
Proof.
  split; [reflexivity|]. intros b H. apply range_in in H. assert (F : forallb (fun b => negb (eight_bit b =? 0)) (range 256) = true) by (vm_compute; reflexivity).
  rewrite forallb_forall in F. apply F in H. apply negb_true_iff, Z.eqb_neq in H. exact H.
Qed.
(** Playing an 8-bit file. *)
Theorem C47_play : forall p file pos bufs, Forall is_byte file -> 256 <= zlen file -> first_tag file pos -> (pos <= 248)%nat ->
  number_at file 34 2 = 8 -> number_at file 20 2 = 1 -> 1 <= number_at file 22 2 < 32768 ->
  exists w w', wav_load p file = Ok (Some w) /\
    wav_decode_all w bufs = Ok (w', fill_all (number_at file 22 2) (map (fun b => restore (eight_bit b)) (skipn (pos + 8) file)) bufs).
Proof.
  intros p file pos bufs HB L FT Hp Hb Hf Hc. pose proof (load_tag p file pos L FT Hp) as E. rewrite Hb, Hf in E.
  change (swrap 16 8) with 8 in E. change (swrap 16 1) with 1 in E. cbn [Z.eqb Pos.eqb orb] in E. cbv zeta in E.
  assert (BS : Forall is_byte (skipn (pos + 8) file)).
  { apply Forall_forall. intros b Hin. eapply Forall_forall; [exact HB|]. rewrite <- (firstn_skipn (pos + 8) file). apply in_or_app. now right. }
  assert (EM : map expand8 (skipn (pos + 8) file) = map eight_bit (skipn (pos + 8) file)).
  { apply map_ext_in. intros b Hin. apply expand8_exact. eapply Forall_forall; eauto. }
  rewrite EM in E. set (t := map eight_bit (skipn (pos + 8) file)) in *.
  assert (CE : si_channels (loaded_info file) = number_at file 22 2).
  { unfold loaded_info. cbn [si_channels]. rewrite (swrap_small 16) by lia. now rewrite (uwrap_small 32) by lia. }
  destruct (decode_all_from (loaded_info file) [] t) with (bufs := bufs) (c := 0) as (w' & E2 & _).
  - lia.
  - subst t. apply Forall_forall. intros z Hz. apply in_map_iff in Hz. destruct Hz as (b & <- & Hin). apply eight_bit_check. eapply Forall_forall; eauto.
  - cbn; lia.
  - pose proof (zlen_nonneg t). lia.
  - rewrite app_nil_r in E2. eexists. exists w'. split; [exact E|]. rewrite E2. rewrite CE. cbn [Z.to_nat skipn]. subst t. now rewrite map_map.
Qed.
Print Assumptions C47_expansion.
Print Assumptions C47_monotone.
Print Assumptions C47_ends.
Print Assumptions C47_silence_refuted.
Print Assumptions C47_play.
Definition demo_8bit : list Z :=
  firstn 34 (canonical_header 8000 1 250) ++ [8; 0] ++ data_tag ++ [250; 0; 0; 0] ++ map (fun i => i mod 256) (range 250).
Example C47_applies : Forall is_byte demo_8bit /\ 256 <= zlen demo_8bit /\ first_tag demo_8bit 36 /\
  number_at demo_8bit 34 2 = 8 /\ number_at demo_8bit 20 2 = 1 /\ number_at demo_8bit 22 2 = 1.
Proof.
  split; [apply Forall_forall; intros b Hin; assert (F : forallb (fun b => (0 <=? b) && (b <=? 255)) demo_8bit = true) by (vm_compute; reflexivity);
          rewrite forallb_forall in F; apply F in Hin; rewrite andb_true_iff, !Z.leb_le in Hin; exact Hin|].
  split; [vm_compute; discriminate|]. split; [|vm_compute; auto].
  assert (E : find_tag (firstn 256 demo_8bit) 0 = Some 36) by (vm_compute; reflexivity). pose proof (find_tag_spec (firstn 256 demo_8bit) 0) as F. rewrite E in F.
  destruct F as (k & H1 & H2 & H3). replace k with 36%nat in * by lia. split; assumption.
Qed.

(** ** C48: seeking *)
(** The sample the cursor is put on, for recordings that are not empty. *)
Theorem C48_start : forall p info pcm c ms, 2 <= zlen pcm < 2 ^ 63 -> - 2 ^ 63 <= block_offset info ms * si_channels info < 2 ^ 63 ->
  wav_seek p (mkWav info pcm c) (SStart ms) = Ok (mkWav info pcm (zclamp (block_offset info ms * si_channels info) 0 (zlen pcm / 2 - 1))).
Proof. intros p info pcm c ms Hl Ho. apply seek_start; [pose proof (Z.div_le_lower_bound (zlen pcm) 2 1); pose proof (Z.div_lt (zlen pcm) 2); lia|exact Ho]. Qed.
Theorem C48_current : forall p info pcm c ms, let ch := si_channels info in 2 <= zlen pcm < 2 ^ 63 -> 1 <= ch -> 0 <= c < 2 ^ 63 ->
  - 2 ^ 63 <= block_offset info ms * ch < 2 ^ 63 -> - 2 ^ 63 <= ch * (c / ch) + block_offset info ms * ch < 2 ^ 63 ->
  wav_seek p (mkWav info pcm c) (SCurrent ms) = Ok (mkWav info pcm (zclamp (ch * (c / ch) + block_offset info ms * ch) 0 (zlen pcm / 2 - 1))).
Proof. intros p info pcm c ms ch Hl Hc Hb Ho Hx. apply seek_current; auto; [pose proof (Z.div_le_lower_bound (zlen pcm) 2 1); pose proof (Z.div_lt (zlen pcm) 2); lia|fold ch; lia]. Qed.
(** Times from the start lead to the block AdhocCodec goes to. *)
Theorem C48_same_block : forall info ms, 0 <= si_rate info < 2 ^ 32 -> 0 <= ms <= 2 ^ 64 -> target_block info ms < 2 ^ 63 ->
  block_offset info ms = target_block info ms.
Proof. intros info ms Hr Hm Ht. rewrite offset_target by auto. lia. Qed.
Theorem C48_end_is_start : forall p w ms, wav_seek p w (SEnd ms) = wav_seek p w (SStart ms).
Proof. exact seek_end_start. Qed.
Theorem C48_empty_panics : forall p w dt, zlen (wav_pcm w) < 2 -> exists r, wav_seek p w dt = Panic r.
Proof. exact seek_empty. Qed.
(** Seeking within the recording lands on a block, and plays from there. *)
Theorem C48_play_from : forall p info t odd c ms bufs, let ch := si_channels info in
  1 <= ch -> 1 <= zlen t < 2 ^ 62 -> Forall is_i16 t -> (length odd <= 1)%nat ->
  0 <= block_offset info ms * ch < zlen t ->
  exists w w', wav_seek p (mkWav info (pcm_bytes t ++ odd) c) (SStart ms) = Ok w /\
    wav_decode_all w bufs = Ok (w', fill_all ch (skipn (Z.to_nat (block_offset info ms * ch)) (map restore t)) bufs).
Proof.
  intros p info t odd c ms bufs ch Hc Hl Ht Ho Hb. assert (LZ : zlen (pcm_bytes t ++ odd) / 2 = zlen t).
  { rewrite zlen_app, zlen_pcm, Z.add_comm, Z.mul_comm, Z.div_add by lia. rewrite Z.div_small; [lia|]. unfold zlen. lia. }
  destruct (decode_all_from info odd t ltac:(fold ch; lia) Ht Ho bufs (block_offset info ms * ch) ltac:(lia)) as (w' & E & _).
  eexists. exists w'. split; [rewrite seek_start; [reflexivity|lia|fold ch; lia]|]. fold ch. rewrite LZ.
  replace (zclamp (block_offset info ms * ch) 0 (zlen t - 1)) with (block_offset info ms * ch) by (rewrite zclamp_eq by lia; lia). exact E.
Qed.
(** Seeking past the end lands on the last sample: the next call plays that one sample, which in a
    recording of several channels is the last channel's and not the start of a block. *)
Theorem C48_past_end : forall p info t odd c ms buf, let ch := si_channels info in
  1 <= ch -> 1 <= zlen t < 2 ^ 62 -> Forall is_i16 t -> (length odd <= 1)%nat -> ch <= zlen buf ->
  zlen t <= block_offset info ms * ch < 2 ^ 63 ->
  exists w w', wav_seek p (mkWav info (pcm_bytes t ++ odd) c) (SStart ms) = Ok w /\
    wav_decode w buf = Ok (w', restore (last t 0) :: skipn 1 buf, Some 1).
Proof.
  intros p info t odd c ms buf ch Hc Hl Ht Ho Hbuf Hb. assert (LZ : zlen (pcm_bytes t ++ odd) / 2 = zlen t).
  { rewrite zlen_app, zlen_pcm, Z.add_comm, Z.mul_comm, Z.div_add by lia. rewrite Z.div_small; [lia|]. unfold zlen. lia. }
  destruct (decode_ok info t odd (zlen t - 1) buf) as (n & Hn & En & E & _); try assumption; try (fold ch; lia); try lia.
  eexists. eexists. split; [rewrite seek_start; [reflexivity|lia|fold ch; lia]|]. fold ch. rewrite LZ.
  replace (zclamp (block_offset info ms * ch) 0 (zlen t - 1)) with (zlen t - 1) by (rewrite zclamp_eq by lia; lia). rewrite E.
  assert (SL : skipn (Z.to_nat (zlen t - 1)) (map restore t) = [restore (last t 0)]).
  { clear - Hl. destruct (exists_last (l := t)) as (t' & x & ->); [intros ->; cbn in Hl; lia|].
    rewrite last_last, map_app, zlen_app. replace (Z.to_nat (zlen t' + zlen [x] - 1)) with (length (map restore t')) by (rewrite map_length; unfold zlen; cbn [length]; lia).
    rewrite skipn_app, skipn_all, Nat.sub_diag. reflexivity. }
  rewrite SL. unfold fill. fold ch. assert (1 <= zlen buf / ch) by (apply Z.div_le_lower_bound; lia).
  replace (Z.min (ch * (zlen buf / ch)) (zlen [restore (last t 0)])) with 1 by (change (zlen [restore (last t 0)]) with 1; nia).
  reflexivity.
Qed.
(** There and back. *)
Theorem C48_there_and_back : forall p info pcm k ms, let ch := si_channels info in let c := ch * k in
  1 <= ch -> 0 <= si_rate info < 2 ^ 32 -> Z.abs ms <= 2 ^ 64 -> 2 <= zlen pcm < 2 ^ 63 -> 0 <= c < zlen pcm / 2 ->
  0 <= c + block_offset info ms * ch < zlen pcm / 2 ->
  exists w, wav_seek p (mkWav info pcm c) (SCurrent ms) = Ok w /\ wav_seek p w (SCurrent (- ms)) = Ok (mkWav info pcm c).
Proof.
  intros p info pcm k ms ch c Hc Hr Hm Hl Hb Hd. pose proof (Z.div_lt (zlen pcm) 2 ltac:(lia) ltac:(lia)) as L.
  assert (HO : - 2 ^ 63 < block_offset info ms < 2 ^ 63 - 1) by nia.
  assert (E1 : c / ch = k) by (subst c; rewrite Z.mul_comm, Z.div_mul by lia; reflexivity).
  exists (mkWav info pcm (c + block_offset info ms * ch)). split.
  - rewrite C48_current; fold ch; rewrite ?E1; fold c; try lia. do 2 f_equal. rewrite zclamp_eq by lia. lia.
  - assert (E2 : (c + block_offset info ms * ch) / ch = k + block_offset info ms).
    { subst c. replace (ch * k + block_offset info ms * ch) with ((k + block_offset info ms) * ch) by lia. apply Z.div_mul. lia. }
    rewrite C48_current; fold ch; rewrite ?E2, ?(offset_opp info ms) by assumption; try lia.
    + do 2 f_equal. subst c. rewrite zclamp_eq by lia. lia.
Qed.
Print Assumptions C48_start.
Print Assumptions C48_current.
Print Assumptions C48_same_block.
Print Assumptions C48_end_is_start.
Print Assumptions C48_empty_panics.
Print Assumptions C48_play_from.
Print Assumptions C48_past_end.
Print Assumptions C48_there_and_back.
Example C48_applies : block_offset (mkInfo 48000 2) 250 = 12000 /\ block_offset (mkInfo 48000 2) (-250) = -12000 /\
  (match wav_seek Debug (mkWav (mkInfo 48000 2) (pcm_bytes [1; 2; 3; 4]) 0) (SStart 1000) with Ok w => wav_cursor w = 3 | _ => False end).
Proof. vm_compute. auto. Qed.

(** ** C55: a resource that writes less than it is given *)
(** [save_to] ignores the count of the [write] call that writes the header. *)
Theorem C55_header_lost : forall p w file k, wav_save p w = Ok file -> (k <= 44)%nat ->
  wav_save_to p w k = Ok (firstn k file ++ skipn 44 file) /\ skipn 44 file = wav_pcm w.
Proof.
  intros p w file k H Hk. unfold wav_save, wav_save_to in *. destruct (wav_header p w) as [h| |] eqn:E; cbn [bind] in *; try discriminate H.
  assert (X : file = firstn 44 h ++ wav_pcm w) by congruence. subst file. apply header_len_any in E. rewrite (firstn_all2 (n := 44) h) by lia.
  assert (S44 : skipn 44 (h ++ wav_pcm w) = wav_pcm w) by (rewrite skipn_app, skipn_all2, E by lia; reflexivity). rewrite S44. split; [|reflexivity].
  rewrite firstn_app. replace (k - length h)%nat with 0%nat by lia. now rewrite app_nil_r.
Qed.
Print Assumptions C55_header_lost.
Example C55_witness : match wav_save_to Debug (mkWav (mkInfo 48000 2) (repeat 0 300) 0) 30 with Ok file => wav_load Debug file = Ok None | _ => False end.
Proof. vm_compute. reflexivity. Qed.
