(** * The frame each encode call stores for each channel *)
From Coq Require Import ZArith List Bool Lia.
From Verif Require Import Model.Base Model.F32 Model.Sample Model.BitStream Model.CircularStack Model.Frame Model.Adhoc
  Spec.Bits Spec.Codec Spec.Recording Spec.Frames
  Proofs.BaseFacts Proofs.BitStreamFacts Proofs.BitLog Proofs.Rice Proofs.Headers Proofs.FrameFacts Proofs.EncodeFacts Proofs.DecodeFacts
  Proofs.FloatFacts Proofs.RoundTrip.
Import ListNotations.
Open Scope Z_scope.

Lemma diffs_errors qs : forall pre a b c,
  diffs (a, b, c) qs = map (error (pre ++ [a; b; c] ++ qs)) (seq (length pre + 3) (length qs)).
Proof.
  induction qs as [|q qs IH]; intros pre a b c; [reflexivity|].
  cbn [diffs pred_of shift length seq map]. f_equal.
  - assert (N : forall k, nth (length pre + k) (pre ++ [a; b; c] ++ q :: qs) 0 = nth k ([a; b; c] ++ q :: qs) 0).
    { intros k. rewrite app_nth2 by lia. f_equal. lia. }
    unfold error. rewrite N. replace (length pre + 3 - 3)%nat with (length pre + 0)%nat by lia.
    replace (length pre + 3 - 2)%nat with (length pre + 1)%nat by lia.
    replace (length pre + 3 - 1)%nat with (length pre + 2)%nat by lia. rewrite !N. reflexivity.
  - rewrite (IH (pre ++ [a]) b c q). rewrite app_length. cbn [length].
    replace (length pre + 1 + 3)%nat with (S (length pre + 3)) by lia.
    apply map_ext. intros t. f_equal. rewrite <- app_assoc. reflexivity.
Qed.

(** The history after a signal of at least three samples. *)
Lemma fold_shift_last l : (3 <= length l)%nat -> forall t, exists pre a b c,
  l = pre ++ [a; b; c] /\ fold_left shift l t = (a, b, c).
Proof.
  intros H t. 
  assert (E : l = firstn (length l - 3) l ++ skipn (length l - 3) l) by (symmetry; apply firstn_skipn).
  assert (L : length (skipn (length l - 3) l) = 3%nat) by (rewrite skipn_length; lia).
  destruct (skipn (length l - 3) l) as [|a [|b [|c [|]]]]; try discriminate L.
  exists (firstn (length l - 3) l), a, b, c. split; [exact E|]. rewrite E, fold_left_app.
  destruct (fold_left shift (firstn (length l - 3) l) t) as [[x y] z]. reflexivity.
Qed.

(** The state before call [i]. *)
Definition state_at (calls : list (list Z)) (i : nat) : option hist :=
  match i with O => None | _ => Some (fold_left shift (before calls i) (0, 0, 0)) end.

Lemma chan_frames_nth_some t qss i : (i < length qss)%nat ->
  nth_error (chan_frames (Some t) qss) i = Some (make_frame (Some (fold_left shift (concat (firstn i qss)) t)) (nth i qss [])).
Proof.
  revert t i; induction qss as [|qs qss IH]; intros t i Hi; [cbn in Hi; lia|].
  destruct i; [reflexivity|]. cbn [chan_frames nth_error firstn concat nth length next_hist] in *.
  rewrite IH by lia. now rewrite fold_left_app.
Qed.
Lemma chan_frames_nth qss i : (i < length qss)%nat ->
  nth_error (chan_frames None qss) i = Some (make_frame (state_at qss i) (at_call qss i)).
Proof.
  destruct qss as [|qs qss]; cbn [length]; intros Hi; [lia|]. destruct i; [reflexivity|].
  cbn [chan_frames nth_error next_hist]. rewrite chan_frames_nth_some by lia.
  unfold state_at, before, at_call. cbn [firstn concat nth]. now rewrite fold_left_app.
Qed.

Lemma frame_diffs_errors qss i : (i < length qss)%nat -> 3 <= zlen (nth 0 qss []) ->
  frame_diffs (state_at qss i) (at_call qss i) = errors qss i.
Proof.
  intros Hi H3. unfold errors. destruct i as [|i].
  - unfold state_at, before, at_call. cbn [firstn concat app length Nat.add]. rewrite Nat.max_l by lia.
    cbn [frame_diffs]. revert H3. generalize (nth 0 qss []). intros qs H3.
    destruct qs as [|a [|b [|c qs]]]; try (unfold zlen in H3; cbn in H3; lia).
    cbn [nth skipn length]. rewrite (diffs_errors qs [] a b c). cbn [length Nat.add app].
    do 2 f_equal. lia.
  - cbn [state_at frame_diffs].
    assert (L : (3 <= length (before qss (S i)))%nat).
    { unfold before. destruct qss as [|qs qss]; cbn [length] in Hi; [lia|]. cbn [firstn concat nth] in *.
      rewrite app_length. unfold zlen in H3. lia. }
    rewrite Nat.max_r by lia. destruct (fold_shift_last _ L (0, 0, 0)) as (pre & a & b & c & E & ->).
    rewrite (diffs_errors _ pre). rewrite E, app_length. cbn [length]. rewrite <- app_assoc.
    do 2 f_equal. lia.
Qed.

(** Frames in storage order. *)
Lemma concat_nth {A} (d : A) rows n i j : Forall (fun row => length row = n) rows ->
  (i < length rows)%nat -> (j < n)%nat ->
  nth_error (concat rows) (i * n + j) = Some (nth j (nth i rows []) d) /\
  firstn (i * n + j) (concat rows) = concat (firstn i rows) ++ firstn j (nth i rows []).
Proof.
  intros H. revert i; induction H as [|row rows Hr H IH]; intros i Hi Hj; [cbn in Hi; lia|].
  destruct i as [|i].
  - cbn [Nat.mul Nat.add concat nth firstn app]. split.
    + rewrite nth_error_app1 by lia. apply nth_error_nth'. lia.
    + rewrite firstn_app. replace (j - length row)%nat with 0%nat by lia. cbn [firstn]. apply app_nil_r.
  - cbn [length] in Hi. destruct (IH i ltac:(lia) Hj) as [I1 I2]. cbn [Nat.mul concat nth firstn]. split.
    + rewrite nth_error_app2 by lia. rewrite <- I1. f_equal. lia.
    + rewrite firstn_app. rewrite firstn_all2 by lia. rewrite <- app_assoc. f_equal. rewrite <- I2. f_equal. lia.
Qed.

Lemma length_frames_of inv ch pcms : length (frames_of inv ch pcms) = length pcms.
Proof.
  unfold frames_of. generalize (repeat (@None hist) (Z.to_nat ch)), 0%nat.
  induction pcms as [|pcm pcms IH]; intros sts base; cbn [quant_calls make_rows length]; [reflexivity|]. now rewrite IH.
Qed.
Lemma length_channel_calls level ch pcms j : length (channel_calls level ch pcms j) = length pcms.
Proof.
  unfold channel_calls. rewrite map_length. generalize 0%nat.
  induction pcms as [|pcm pcms IH]; intros base; cbn [quant_calls length]; [reflexivity|]. now rewrite IH.
Qed.
Lemma frames_width inv ch pcms : Forall (fun row => length row = Z.to_nat ch) (frames_of inv ch pcms).
Proof.
  pose proof (length_rows (repeat None (Z.to_nat ch)) (quant_calls inv 0 ch pcms)) as L.
  rewrite repeat_length in L. apply L. apply length_quant_calls.
Qed.
Lemma frame_at level ch pcms i j : (i < length pcms)%nat -> (j < Z.to_nat ch)%nat ->
  nth j (nth i (frames_of (inv_gain level) ch pcms) []) (make_frame None []) =
    make_frame (state_at (channel_calls level ch pcms j) i) (at_call (channel_calls level ch pcms j) i).
Proof.
  intros Hi Hj. pose proof (frames_column (inv_gain level) ch pcms j Hj) as C.
  pose proof (chan_frames_nth (channel_calls level ch pcms j) i) as N. rewrite length_channel_calls in N. specialize (N Hi).
  unfold chan_calls in C. fold (channel_calls level ch pcms j) in C. rewrite <- C in N.
  rewrite nth_error_map in N. rewrite (nth_error_nth' _ [] (n := i)) in N by now rewrite length_frames_of.
  cbn [option_map] in N. now injection N.
Qed.

Lemma zlen_concat_rows rows n : Forall (fun row : list frame => length row = n) rows ->
  zlen (concat rows) = zlen rows * Z.of_nat n.
Proof.
  intros H. induction H as [|row rows Hr H IH]; [reflexivity|]. cbn [concat]. rewrite zlen_app, zlen_cons, IH.
  unfold zlen at 1. rewrite Hr. lia.
Qed.

(** What the codec holds about call [i], channel [j]. *)
Theorem frame_law p info level pcms c1 i j :
  let ch := si_channels info in
  let calls := channel_calls level ch pcms j in
  let f := make_frame (state_at calls i) (at_call calls i) in
  let n := Z.of_nat i * ch + Z.of_nat j in
  0 <= level -> recording_ok ch pcms -> encode_all p (new_codec info level) pcms = Ok c1 ->
  (i < length pcms)%nat -> (j < Z.to_nat ch)%nat ->
  exists start, fhs_get (ad_headers c1) n = Ok (Some (header_of start f)) /\
    frame_start c1 n = Ok start /\ frame_start c1 (n + 1) = Ok (start + zlen (fr_bits f)) /\
    fr_size f = zlen (nth i pcms []) / ch /\ frame_diffs (state_at calls i) (at_call calls i) = errors calls i /\
    Forall i16 (at_call calls i).
Proof.
  intros ch calls f n Hl HR E Hi Hj.
  pose proof (encoded_safe p info level pcms c1 HR E) as HS.
  destruct (encode_recording p info level pcms HR HS) as (c1' & E' & S & R & M & O).
  rewrite E in E'. injection E' as <-. rewrite new_codec_inv in * by lia. fold ch in R, M, O.
  set (rows := frames_of (inv_gain level) ch pcms) in *.
  pose proof (frames_width (inv_gain level) ch pcms) as HW. fold rows in HW.
  assert (Lr : length rows = length pcms) by apply length_frames_of.
  destruct (concat_nth (make_frame None []) rows (Z.to_nat ch) i j HW ltac:(lia) Hj) as [N1 N2].
  unfold rows in N1. rewrite frame_at in N1 by auto. fold rows calls in N1. fold f in N1.
  assert (En : Z.to_nat n = (i * Z.to_nat ch + j)%nat) by (subst n; destruct HR; nia).
  rewrite <- En in N1, N2.
  destruct (er_heads _ _ _ _ _ _ R) as [HH HC].
  assert (Hz : zlen (concat rows) + 1 < 2 ^ 32) by apply M.
  assert (Hn0 : 0 <= n) by (subst n; destruct HR; nia).
  assert (Hget : forall k, 0 <= k -> fhs_get (ad_headers c1) k = Ok (nth_error (headers_of 0 (concat rows)) (Z.to_nat k))).
  { intros k Hk. apply fhs_get_rep; auto. rewrite zlen_headers_of. lia. }
  assert (Hn : n < zlen (concat rows)).
  { assert (Z.to_nat n < length (concat rows))%nat by (apply nth_error_Some; rewrite N1; discriminate). unfold zlen. lia. }
  assert (HG : fhs_get (ad_headers c1) n = Ok (Some (header_of (zlen (flat_map fr_bits (firstn (Z.to_nat n) (concat rows)))) f))).
  { rewrite Hget, (headers_of_nth _ _ 0 f) by auto. reflexivity. }
  set (start := zlen (flat_map fr_bits (firstn (Z.to_nat n) (concat rows)))) in *.
  exists start. split; [exact HG|].
  assert (Hlen : fhs_len (ad_headers c1) = zlen (concat rows)) by (rewrite (fhs_rep_len _ _ HH); apply zlen_headers_of).
  assert (Hnext : zlen (flat_map fr_bits (firstn (Z.to_nat (n + 1)) (concat rows))) = start + zlen (fr_bits f)).
  { replace (Z.to_nat (n + 1)) with (Datatypes.S (Z.to_nat n)) by lia.
    assert (HE : firstn (Datatypes.S (Z.to_nat n)) (concat rows) = firstn (Z.to_nat n) (concat rows) ++ [f]).
    { rewrite (firstn_S_nth _ _ f) by (unfold zlen in Hn; lia). do 2 f_equal. now apply nth_error_nth. }
    rewrite HE, flat_map_app, zlen_app. cbn [flat_map]. now rewrite app_nil_r. }
  split. { unfold frame_start. rewrite Hlen. destruct (Z.ltb_spec n (zlen (concat rows))); [|lia]. rewrite HG. reflexivity. }
  split.
  { unfold frame_start. rewrite Hlen. destruct (Z.ltb_spec (n + 1) (zlen (concat rows))) as [Hlt|Hge].
    - rewrite Hget by lia.
      destruct (nth_error (concat rows) (Z.to_nat (n + 1))) as [f'|] eqn:E1.
      + rewrite (headers_of_nth _ _ 0 f' E1). cbn [bind expect header_of fh_bit_cursor]. f_equal. lia.
      + exfalso. apply nth_error_None in E1. unfold zlen in Hlt. lia.
    - f_equal. rewrite firstn_all2 in Hnext by (unfold zlen in Hge; lia).
      rewrite <- Hnext. destruct (er_bits _ _ _ _ _ _ R) as (_ & _ & HB & _). exact HB. }
  pose proof (chan_calls_facts (inv_gain level) 0 ch pcms j ltac:(destruct HR; lia) Hj) as F.
  unfold chan_calls in F. fold (channel_calls level ch pcms j) in F. fold calls in F.
  assert (Li : (i < length calls)%nat) by (subst calls; now rewrite length_channel_calls).
  pose proof (Forall2_nth _ _ _ i [] [] F Li) as [F1 F2]. fold (at_call calls i) in F1, F2.
  assert (H3 : 3 <= zlen (nth 0 calls [])).
  { pose proof (Forall2_nth _ _ _ 0%nat [] [] F ltac:(lia)) as [_ G]. rewrite G.
    destruct HR as (Hch & H3 & _). destruct pcms as [|pcm pcms]; [cbn in Hi; lia|]. cbn [nth].
    apply Z.div_le_lower_bound; lia. }
  split; [|split; [|exact F1]].
  - subst f. rewrite make_frame_size; [exact F2|]. destruct i; [intros _; exact H3|discriminate].
  - now apply frame_diffs_errors.
Qed.

Lemma frame_bits_law calls i : (i < length calls)%nat -> 3 <= zlen (nth 0 calls []) ->
  let f := make_frame (state_at calls i) (at_call calls i) in
  fr_e f = best_exponent (errors calls i) /\ 1 <= fr_e f <= 15 /\
  fr_res f = map limit (errors calls i) /\
  zlen (fr_bits f) = (if (i =? 0)%nat then 48 else 0) + rice_bits (fr_e f) (map limit (errors calls i)).
Proof.
  intros Hi H3 f. pose proof (frame_diffs_errors calls i Hi H3) as D. pose proof (make_frame_e (state_at calls i) (at_call calls i)) as HE.
  fold f in HE.
  assert (A : fr_e f = best_exponent (errors calls i)) by (rewrite <- D; subst f; destruct (state_at calls i); reflexivity).
  assert (B : fr_res f = map limit (errors calls i)) by (rewrite <- D; subst f; destruct (state_at calls i); reflexivity).
  split; [exact A|]. split; [exact HE|]. split; [exact B|].
  rewrite zlen_fr_bits by lia. rewrite B. unfold rice_bits. rewrite zlen_flat_rice by lia. f_equal.
  subst f. destruct i; cbn [state_at make_frame fr_raw Nat.eqb].
  - rewrite zlen_firstn. unfold at_call. lia.
  - reflexivity.
Qed.

(** ** Counting samples *)
Definition sizes (fs : list frame) : Z := fold_right Z.add 0 (map fr_size fs).
Lemma sizes_app a b : sizes (a ++ b) = sizes a + sizes b.
Proof. unfold sizes. induction a; cbn [app map fold_right]; [reflexivity|]. rewrite IHa. lia. Qed.
Lemma sizes_rows rows n : Forall (fun row => length row = n) rows -> Forall (fun row => exists k, row_size k row) rows ->
  sizes (concat rows) = Z.of_nat n * sum_n rows.
Proof.
  intros HL HS. induction rows as [|row rows IH]; [unfold sizes, sum_n; cbn; lia|].
  inversion HL as [|? ? L1 L2]; inversion HS as [|? ? [k S1] S2]; subst. cbn [concat]. rewrite sizes_app, (IH L2 S2).
  unfold sum_n. cbn [map fold_right]. assert (sizes row = zlen row * row_n row); [|unfold zlen in *; lia].
  assert (E : sizes row = zlen row * k).
  { clear - S1. unfold row_size in S1. induction S1 as [|f row Hf S1 IH]; [reflexivity|]. unfold sizes in *. cbn [map fold_right].
    rewrite zlen_cons, IH, Hf. lia. }
  destruct row; [rewrite E; reflexivity|]. inversion S1; subst. exact E.
Qed.
Lemma sizes_nonneg fs : 0 <= sizes fs.
Proof. unfold sizes. induction fs; cbn [map fold_right]; [lia|]. pose proof (fr_size_nonneg a). lia. Qed.
Lemma sizes_bound fs : Forall (fun f => fr_size f <= 65535) fs -> sizes fs <= 65535 * zlen fs.
Proof. intros H. unfold sizes. induction H; cbn [map fold_right]; [reflexivity|]. rewrite zlen_cons. lia. Qed.

Lemma sample_count_spec p c info fs :
  as_info (ad_stream c) = Some info -> 0 < si_channels info ->
  fhs_rep (ad_headers c) (headers_of 0 fs) -> zlen fs + 1 < 2 ^ 32 ->
  Forall (fun f => fr_size f <= 65535) fs ->
  ad_sample_count p c = Ok (sizes fs / si_channels info).
Proof.
  intros Hi Hch HH Hn HS. unfold ad_sample_count, ad_info. rewrite Hi. cbn [expect bind].
  rewrite (fhs_rep_len _ _ HH), zlen_headers_of.
  set (step := fun acc i => _).
  assert (K : forall a b, fs = a ++ b -> foldM step (map Z.of_nat (seq (length a) (length b))) (sizes a) = Ok (sizes fs)).
  { intros a b. revert a. induction b as [|f b IH]; intros a ->; cbn [length seq map foldM].
    - now rewrite app_nil_r.
    - unfold step at 1. rewrite (fhs_get_rep _ _ _ HH) by (rewrite ?zlen_headers_of; lia).
      rewrite Nat2Z.id. rewrite (headers_of_nth _ _ 0 f).
      2: { rewrite nth_error_app2, Nat.sub_diag by lia. reflexivity. }
      cbn [bind header_of fh_size].
      pose proof HS as HS'. apply Forall_app in HS'. destruct HS' as [HS1 HS2].
      inversion HS2 as [|? ? Hf HS3]; subst. pose proof (fr_size_nonneg f). pose proof (sizes_nonneg a).
      pose proof (sizes_bound a HS1). rewrite zlen_app in Hn. pose proof (zlen_nonneg (f :: b)).
      change (2 ^ 32) with 4294967296 in Hn.
      rewrite (uwrap_small 16) by (change (2 ^ 16) with 65536; lia).
      rewrite uchk_ok by (change (2 ^ 64) with 18446744073709551616; lia). cbn [bind].
      specialize (IH (a ++ [f])). rewrite <- app_assoc in IH. specialize (IH eq_refl).
      rewrite app_length in IH. cbn [length] in IH. replace (length a + 1)%nat with (S (length a)) in IH by lia.
      rewrite sizes_app in IH. replace (sizes a + sizes [f]) with (sizes a + fr_size f) in IH by (unfold sizes; cbn; lia).
      exact IH. }
  specialize (K [] fs eq_refl). cbn [length] in K. unfold range. rewrite to_nat_zlen.
  change (sizes []) with 0 in K. rewrite K. cbn [bind]. apply udiv_ok. lia.
Qed.

Lemma rows_ok_sizes p sts rows : rows_ok p sts rows ->
  Forall (fun f => fr_size f <= 65535) (concat rows) /\ Forall (fun row => exists k, row_size k row) rows.
Proof.
  revert sts; induction rows as [|row rows IH]; intros sts H; cbn [concat]; [split; constructor|].
  destruct H as (H1 & H2 & H3). destruct (IH _ H3) as [I1 I2]. split.
  - apply Forall_app. split; auto. clear -H1. induction H1 as [|st f sts row Hf H1 IH]; constructor; auto. apply Hf.
  - constructor; auto.
Qed.
Lemma recording_count p info level pcms c1 :
  let ch := si_channels info in
  0 <= level -> recording_ok ch pcms -> encode_all p (new_codec info level) pcms = Ok c1 ->
  ad_sample_count p c1 = Ok (total_blocks ch pcms).
Proof.
  intros ch Hl HR E. pose proof (encoded_safe p info level pcms c1 HR E) as HS.
  destruct (encode_recording p info level pcms HR HS) as (c1' & E' & _ & R & M & O).
  rewrite E in E'. injection E' as <-. fold ch in R, M, O.
  set (rows := frames_of (ad_inv_scale (new_codec info level)) ch pcms) in *.
  destruct (rows_ok_sizes _ _ _ O) as [O1 O2]. destruct M as (_ & _ & _ & M).
  rewrite (sample_count_spec p c1 info (concat rows)); auto.
  - f_equal. pose proof HR as (Hch & _).
    rewrite (sizes_rows rows (Z.to_nat ch)) by (auto; apply frames_width). rewrite Z2Nat.id by lia.
    fold ch. rewrite Z.mul_comm, Z.div_mul by lia.
    pose proof (frames_sizes (ad_inv_scale (new_codec info level)) ch pcms HR) as F. fold rows in F.
    unfold sum_n, total_blocks. clear -F. induction F as [|row pcm rows pcms Hf F IH]; [reflexivity|].
    cbn [map fold_right]. lia.
  - apply (er_info _ _ _ _ _ _ R).
  - apply HR.
  - apply (er_heads _ _ _ _ _ _ R).
Qed.

(** ** When exponent 15 is chosen *)
Lemma best_fifteen ds : best_exponent ds <= 14 <-> exists k, 1 <= k <= 14 /\ cost k ds <= cost 15 ds.
Proof.
  split.
  - intros H. exists (best_exponent ds). pose proof (best_range ds). split; [lia|]. apply best_optimal. lia.
  - intros (k & Hk & Hc). unfold best_exponent.
    change [2; 3; 4; 5; 6; 7; 8; 9; 10; 11; 12; 13; 14; 15]
      with ([2; 3; 4; 5; 6; 7; 8; 9; 10; 11; 12; 13; 14] ++ [15]).
    rewrite fold_left_app.
    destruct (best_fold ds [2; 3; 4; 5; 6; 7; 8; 9; 10; 11; 12; 13; 14] 1) as (B1 & B2 & B3).
    set (b := fold_left _ _ 1) in *. cbn [fold_left].
    assert (b <= 14) by (cbn [In] in B1; lia).
    assert (cost b ds <= cost k ds).
    { destruct (Z.eq_dec k 1) as [->|]; auto. apply B3. cbn [In]. lia. }
    destruct (Z.ltb_spec (cost 15 ds) (cost b ds)); lia.
Qed.
