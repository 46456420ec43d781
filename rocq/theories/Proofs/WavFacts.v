(** * Facts about WavCodec: bytes and samples, encode, decode, seek *)
From Coq Require Import ZArith List Bool Lia.
From Verif Require Import Model.Base Model.F32 Model.Sample Model.Adhoc Model.Bincode Model.Wav Spec.Recording Spec.Wave.
From Verif Require Import Proofs.BaseFacts.
Import ListNotations.
Open Scope Z_scope.

(** ** Bytes *)
Lemma lo_byte_mod s : lo_byte s = s mod 256.
Proof. unfold lo_byte. change 255 with (Z.ones 8). rewrite Z.land_ones by lia. reflexivity. Qed.
Lemma hi_byte_mod s : hi_byte s = (s / 256) mod 256.
Proof. unfold hi_byte. rewrite Z.shiftr_div_pow2 by lia. change 255 with (Z.ones 8). rewrite Z.land_ones by lia. reflexivity. Qed.
Lemma join_bytes s : is_i16 s -> swrap 16 (s mod 256 + 256 * ((s / 256) mod 256)) = s.
Proof.
  unfold is_i16. intros H. rewrite <- (swrap_small 16 s) at 3 by lia. rewrite <- (swrap_uwrap 16 s) by lia. f_equal.
  unfold uwrap. change (2 ^ 16) with (256 * 256). rewrite Z.rem_mul_r by lia. reflexivity.
Qed.
Lemma length_pcm t : length (pcm_bytes t) = (2 * length t)%nat.
Proof. induction t as [|s t IH]; [reflexivity|]. cbn [pcm_bytes flat_map bytes16 app length]. unfold pcm_bytes in IH. rewrite IH. lia. Qed.
Lemma zlen_pcm t : zlen (pcm_bytes t) = 2 * zlen t.
Proof. unfold zlen. rewrite length_pcm. lia. Qed.
Lemma pcm_app a b : pcm_bytes (a ++ b) = pcm_bytes a ++ pcm_bytes b.
Proof. unfold pcm_bytes. apply flat_map_app. Qed.
Lemma pcm_replace t odd c s : (c < length t)%nat ->
  replace_nth (2 * c + 1) (replace_nth (2 * c) (pcm_bytes t ++ odd) (s mod 256)) ((s / 256) mod 256) = pcm_bytes (replace_nth c t s) ++ odd.
Proof.
  revert c; induction t as [|x t IH]; intros c H; [cbn [length] in H; lia|]. cbn [length] in H. destruct c as [|c]; [reflexivity|].
  replace (2 * S c + 1)%nat with (S (S (2 * c + 1))) by lia. replace (2 * S c)%nat with (S (S (2 * c))) by lia.
  cbn [pcm_bytes flat_map bytes16 app replace_nth]. fold (pcm_bytes t). rewrite IH by lia. reflexivity.
Qed.
Lemma pcm_at_ok t odd i : Forall is_i16 t -> 0 <= i < zlen t -> pcm_at (pcm_bytes t ++ odd) i = Ok (nth (Z.to_nat i) t 0).
Proof.
  intros HF Hi. unfold pcm_at.
  assert (N : forall t k, (k < length t)%nat ->
    nth (2 * k) (pcm_bytes t ++ odd) 0 = nth k t 0 mod 256 /\ nth (2 * k + 1) (pcm_bytes t ++ odd) 0 = (nth k t 0 / 256) mod 256).
  { induction t0 as [|x t0 IH]; intros k Hk; [cbn [length] in Hk; lia|]. cbn [length] in Hk. destruct k as [|k]; [split; reflexivity|].
    replace (2 * S k + 1)%nat with (S (S (2 * k + 1))) by lia. replace (2 * S k)%nat with (S (S (2 * k))) by lia.
    cbn [pcm_bytes flat_map bytes16 app nth]. apply IH. lia. }
  assert (Hk : (Z.to_nat i < length t)%nat) by (unfold zlen in Hi; lia). destruct (N t _ Hk) as [N1 N2].
  assert (L : zlen (pcm_bytes t ++ odd) = 2 * zlen t + zlen odd) by (rewrite zlen_app, zlen_pcm; lia). pose proof (zlen_nonneg odd).
  rewrite (index_ok _ (2 * i) 0) by lia. rewrite (index_ok _ (2 * i + 1) 0) by lia. cbn [bind].
  replace (Z.to_nat (2 * i)) with (2 * Z.to_nat i)%nat by lia. replace (Z.to_nat (2 * i + 1)) with (2 * Z.to_nat i + 1)%nat by lia.
  rewrite N1, N2. f_equal. apply join_bytes. eapply Forall_forall; [exact HF|]. apply nth_In. exact Hk.
Qed.

(** ** Writing over a track *)
Lemma overwrite_nil t c : overwrite t c [] = t.
Proof. unfold overwrite. cbn [app length]. rewrite Nat.add_0_r. apply firstn_skipn. Qed.
Lemma overwrite_inside t c s : (c < length t)%nat -> overwrite t c [s] = replace_nth c t s.
Proof.
  unfold overwrite. cbn [length]. rewrite Nat.add_1_r. revert c; induction t as [|x t IH]; intros c H; [cbn [length] in H; lia|].
  destruct c as [|c]; [reflexivity|]. cbn [length] in H. cbn [firstn skipn app replace_nth]. f_equal. apply IH. lia.
Qed.
Lemma overwrite_end t s : overwrite t (length t) [s] = t ++ [s].
Proof. unfold overwrite. rewrite firstn_all, skipn_all2 by (cbn [length]; lia). now rewrite app_nil_r. Qed.
Lemma overwrite_step t c x xs : (c <= length t)%nat -> overwrite (overwrite t c [x]) (S c) xs = overwrite t c (x :: xs).
Proof.
  intros H. unfold overwrite. cbn [length]. assert (L : length (firstn c t) = c) by (apply firstn_length_le; lia).
  assert (E : firstn c t ++ [x] ++ skipn (c + 1) t = (firstn c t ++ [x]) ++ skipn (c + 1) t) by (now rewrite app_assoc).
  rewrite E. rewrite firstn_app, skipn_app. rewrite app_length, L. cbn [length].
  rewrite firstn_all2 by (rewrite app_length, L; cbn [length]; lia). replace (S c - (c + 1))%nat with 0%nat by lia. cbn [firstn]. rewrite app_nil_r.
  rewrite skipn_all2 by (rewrite app_length, L; cbn [length]; lia). cbn [app].
  replace (S c + length xs - (c + 1))%nat with (length xs) by lia. rewrite <- app_assoc. cbn [app].
  assert (SS : forall a b (l : list Z), skipn a (skipn b l) = skipn (b + a) l).
  { intros a b; induction b as [|b IH]; intros l; [reflexivity|]. destruct l; [now rewrite !skipn_nil|]. cbn [skipn Nat.add]. apply IH. }
  rewrite SS. do 3 f_equal. f_equal. lia.
Qed.
Lemma length_overwrite t c xs : (c <= length t)%nat -> length (overwrite t c xs) = Nat.max (length t) (c + length xs).
Proof. intros H. unfold overwrite. rewrite !app_length, skipn_length, firstn_length. lia. Qed.

(** ** Encode *)
Lemma write_sample_ok p info t c s : 0 <= c <= zlen t -> c + 1 < 2 ^ 63 ->
  wav_write_sample p (mkWav info (pcm_bytes t) c) s = Ok (mkWav info (pcm_bytes (overwrite t (Z.to_nat c) [s])) (c + 1)).
Proof.
  intros Hc Hb. unfold wav_write_sample, wav_num_samples, wav_offset_cursor. cbn [wav_cursor wav_pcm wav_info].
  rewrite zlen_pcm. replace (2 * zlen t / 2) with (zlen t) by (rewrite Z.mul_comm, Z.div_mul; lia).
  assert (Q : swrap 64 c = c) by (apply swrap_small; change (2 ^ (64 - 1)) with (2 ^ 63); lia).
  destruct (Z.ltb_spec c (zlen t)) as [Hin|Hout].
  - rewrite Z.shiftl_mul_pow2 by lia. change (2 ^ 1) with 2.
    rewrite store_ok by (rewrite zlen_pcm; lia). cbn [bind]. rewrite store_ok by (rewrite zlen_replace_nth, zlen_pcm; lia). cbn [bind wav_cursor wav_pcm wav_info].
    rewrite Q, schk_ok by (change (2 ^ (64 - 1)) with (2 ^ 63); lia). cbn [bind].
    replace (Z.to_nat (c * 2)) with (2 * Z.to_nat c)%nat by lia. replace (Z.to_nat (c * 2 + 1)) with (2 * Z.to_nat c + 1)%nat by lia.
    rewrite lo_byte_mod, hi_byte_mod. pose proof (pcm_replace t [] (Z.to_nat c) s ltac:(unfold zlen in Hin; lia)) as P. rewrite !app_nil_r in P. rewrite P.
    rewrite overwrite_inside by (unfold zlen in Hin; lia). do 2 f_equal. lia.
  - cbn [bind wav_cursor wav_pcm wav_info]. rewrite Q, schk_ok by (change (2 ^ (64 - 1)) with (2 ^ 63); lia). cbn [bind].
    replace (Z.to_nat c) with (length t) by (unfold zlen in *; lia). rewrite overwrite_end, pcm_app, lo_byte_mod, hi_byte_mod. do 2 f_equal. lia.
Qed.
Lemma write_all_ok p info xs : forall t c, 0 <= c <= zlen t -> c + zlen xs < 2 ^ 63 ->
  foldM (fun w s => wav_write_sample p w (truncate_sample s)) xs (mkWav info (pcm_bytes t) c)
  = Ok (mkWav info (pcm_bytes (overwrite t (Z.to_nat c) (map quantise xs))) (c + zlen xs)).
Proof.
  induction xs as [|x xs IH]; intros t c Hc Hb.
  - cbn [foldM map]. rewrite overwrite_nil. change (zlen (@nil f32)) with 0. now rewrite Z.add_0_r.
  - rewrite zlen_cons in Hb. pose proof (zlen_nonneg xs). cbn [foldM map]. rewrite write_sample_ok by lia. cbn [bind].
    assert (Hl : zlen (overwrite t (Z.to_nat c) [truncate_sample x]) = Z.max (zlen t) (c + 1)).
    { unfold zlen in *. rewrite length_overwrite by lia. cbn [length]. lia. }
    rewrite IH by lia. replace (Z.to_nat (c + 1)) with (S (Z.to_nat c)) by lia. rewrite overwrite_step by (unfold zlen in Hc; lia).
    rewrite zlen_cons. change (quantise x) with (truncate_sample x). do 2 f_equal. lia.
Qed.
Lemma whole_len ch (l : list f32) : 0 < ch -> zlen (whole ch l) = ch * (zlen l / ch).
Proof.
  intros H. unfold whole. rewrite zlen_firstn. pose proof (zlen_nonneg l). pose proof (Z.mul_div_le (zlen l) ch H). pose proof (Z.div_pos (zlen l) ch ltac:(lia) H).
  assert (0 <= ch * (zlen l / ch)) by nia. lia.
Qed.
Lemma encode_ok p info t c samples : let ch := si_channels info in 0 < ch -> 0 <= c <= zlen t -> c + zlen samples < 2 ^ 63 ->
  wav_encode p (mkWav info (pcm_bytes t) c) samples =
  Ok (mkWav info (pcm_bytes (overwrite t (Z.to_nat c) (map quantise (whole ch samples)))) (c + zlen (whole ch samples)), Some (zlen (whole ch samples))).
Proof.
  intros ch Hch Hc Hb. unfold wav_encode. cbn [wav_info]. fold ch. rewrite udiv_ok by lia. cbn [bind].
  replace (zlen samples / ch * ch) with (ch * (zlen samples / ch)) by lia. fold (whole ch samples). rewrite write_all_ok; auto.
  - cbn [bind]. now rewrite whole_len.
  - rewrite whole_len by lia. pose proof (Z.mul_div_le (zlen samples) ch Hch). lia.
Qed.

(** ** Decode *)
Lemma skipn_cons_nth {A} (l : list A) k d : (k < length l)%nat -> skipn k l = nth k l d :: skipn (S k) l.
Proof. revert k; induction l as [|x l IH]; intros k H; [cbn [length] in H; lia|]. destruct k; [reflexivity|]. cbn [skipn nth length] in *. apply IH. lia. Qed.
Lemma read_ok t odd count : forall c, Forall is_i16 t -> 0 <= c ->
  wav_read (pcm_bytes t ++ odd) count c (zlen t) = Ok (c + zlen (firstn count (skipn (Z.to_nat c) t)), firstn count (skipn (Z.to_nat c) (map restore t))).
Proof.
  induction count as [|count IH]; intros c HF Hc; cbn [wav_read].
  - cbn [firstn]. change (zlen (@nil Z)) with 0. now rewrite Z.add_0_r.
  - destruct (Z.ltb_spec c (zlen t)) as [Hin|Hout].
    + rewrite pcm_at_ok by auto. cbn [bind]. rewrite IH by (auto; lia). cbn [bind].
      assert (Hk : (Z.to_nat c < length t)%nat) by (unfold zlen in Hin; lia).
      rewrite (skipn_cons_nth t (Z.to_nat c) 0 Hk). rewrite (skipn_cons_nth (map restore t) (Z.to_nat c) (restore 0)) by now rewrite map_length.
      rewrite map_nth. cbn [firstn]. rewrite zlen_cons. replace (Z.to_nat (c + 1)) with (S (Z.to_nat c)) by lia.
      change (restore (nth (Z.to_nat c) t 0)) with (normalize_sample (nth (Z.to_nat c) t 0)). do 2 f_equal. lia.
    + rewrite !skipn_all2 by (rewrite ?map_length; unfold zlen in Hout; lia). rewrite !firstn_nil. change (zlen (@nil Z)) with 0. now rewrite Z.add_0_r.
Qed.
Lemma decode_ok info t odd c buf : let ch := si_channels info in let rest := skipn (Z.to_nat c) (map restore t) in
  0 < ch -> 0 <= c <= zlen t -> Forall is_i16 t -> (length odd <= 1)%nat ->
  exists n, 0 <= n <= zlen t - c /\ n = Z.min (ch * (zlen buf / ch)) (zlen rest) /\
    wav_decode (mkWav info (pcm_bytes t ++ odd) c) buf
    = Ok (mkWav info (pcm_bytes t ++ odd) (c + n), fst (snd (fill ch rest buf)), snd (snd (fill ch rest buf))) /\
    skipn (Z.to_nat (c + n)) (map restore t) = fst (fill ch rest buf).
Proof.
  intros ch rest Hch Hc HF Ho. set (n := Z.min (ch * (zlen buf / ch)) (zlen rest)).
  assert (Hr : zlen rest = zlen t - c) by (subst rest; rewrite zlen_skipn, zlen_map; lia).
  pose proof (Z.div_pos (zlen buf) ch (zlen_nonneg buf) Hch) as Hq. assert (0 <= ch * (zlen buf / ch)) by nia.
  exists n. split; [lia|]. split; [reflexivity|]. split.
  - unfold wav_decode, wav_num_samples. cbn [wav_info wav_pcm wav_cursor]. fold ch. rewrite udiv_ok by lia. cbn [bind].
    assert (E : zlen (pcm_bytes t ++ odd) / 2 = zlen t).
    { rewrite zlen_app, zlen_pcm. assert (0 <= zlen odd <= 1) by (unfold zlen; lia). symmetry. apply (Z.div_unique _ 2 _ (zlen odd)); lia. }
    rewrite E, read_ok by (auto; lia). cbn [bind]. fold rest. replace (zlen buf / ch * ch) with (ch * (zlen buf / ch)) by lia.
    assert (Z1 : zlen (firstn (Z.to_nat (ch * (zlen buf / ch))) (skipn (Z.to_nat c) t)) = n) by (rewrite zlen_firstn, zlen_skipn; lia).
    assert (Z2 : firstn (Z.to_nat (ch * (zlen buf / ch))) rest = firstn (Z.to_nat n) rest).
    { destruct (Z.le_gt_cases (ch * (zlen buf / ch)) (zlen rest)) as [G|G]; [do 2 f_equal; lia|].
      rewrite !firstn_all2; auto; unfold zlen in *; lia. }
    assert (Z3 : length (firstn (Z.to_nat n) rest) = Z.to_nat n) by (rewrite firstn_length; unfold zlen in *; lia).
    rewrite Z1, Z2. unfold fill. fold n. cbn [fst snd]. rewrite Z3.
    replace (zlen (firstn (Z.to_nat n) rest)) with n by (unfold zlen at 1; rewrite Z3, Z2Nat.id; lia).
    do 2 f_equal. destruct (Z.ltb_spec 0 n), (Z.eqb_spec n 0); auto; lia.
  - unfold fill. fold n. cbn [fst]. subst rest. assert (SS : forall a b (l : list f32), skipn a (skipn b l) = skipn (b + a) l).
    { intros a b; induction b as [|b IH]; intros l; [reflexivity|]. destruct l; [now rewrite !skipn_nil|]. cbn [skipn Nat.add]. apply IH. }
    rewrite SS. f_equal. lia.
Qed.
