(** * AdhocCodec::encode against the specification *)
From Coq Require Import ZArith List Bool Lia.
From Verif Require Import Model.Base Model.F32 Model.Noise Model.Sample Model.BitStream
  Model.CircularStack Model.Frame Model.Adhoc Spec.Bits Spec.Codec Spec.Recording
  Proofs.BaseFacts Proofs.BitStreamFacts Proofs.BitLog Proofs.Rice Proofs.Headers Proofs.FrameFacts.
Import ListNotations.
Open Scope Z_scope.

(** ** Pairing lists *)
Fixpoint zipw {A B C} (f : A -> B -> C) (la : list A) (lb : list B) : list C :=
  match la, lb with
  | a :: la, b :: lb => f a b :: zipw f la lb
  | _, _ => []
  end.
Lemma length_zipw {A B C} (f : A -> B -> C) la lb :
  length la = length lb -> length (zipw f la lb) = length la.
Proof. revert lb; induction la; destruct lb; cbn; intros; try discriminate; auto. Qed.
Lemma nth_zipw {A B C} (f : A -> B -> C) la lb j da db dc :
  length la = length lb -> (j < length la)%nat ->
  nth j (zipw f la lb) dc = f (nth j la da) (nth j lb db).
Proof.
  revert lb j; induction la; destruct lb, j; cbn; intros; try discriminate; try lia; auto.
  apply IHla; lia.
Qed.
Lemma firstn_S_nth {A} (l : list A) j d :
  (j < length l)%nat -> firstn (S j) l = firstn j l ++ [nth j l d].
Proof.
  revert j; induction l; destruct j; cbn [length firstn nth app]; intros; try lia; auto.
  f_equal. apply IHl. lia.
Qed.
Lemma skipn_nth_cons {A} (l : list A) j d :
  (j < length l)%nat -> skipn j l = nth j l d :: skipn (S j) l.
Proof.
  revert j; induction l; destruct j; cbn [length skipn nth]; intros; try lia; auto.
  apply IHl. lia.
Qed.
Lemma replace_mid {A} (a b : list A) j d :
  length a = length b -> (j < length a)%nat ->
  replace_nth j (firstn j a ++ skipn j b) (nth j a d) = firstn (S j) a ++ skipn (S j) b.
Proof.
  intros E H. rewrite replace_nth_app_r by (rewrite firstn_length; lia).
  replace (j - length (firstn j a))%nat with 0%nat by (rewrite firstn_length; lia).
  rewrite (skipn_nth_cons b j d) by lia. cbn [replace_nth].
  rewrite (firstn_S_nth a j d) by lia. now rewrite <- app_assoc.
Qed.
Lemma nth_mid {A} (a b : list A) j d :
  length a = length b -> (j < length a)%nat -> nth j (firstn j a ++ skipn j b) d = nth j b d.
Proof.
  intros E H. rewrite app_nth2 by (rewrite firstn_length; lia).
  replace (j - length (firstn j a))%nat with 0%nat by (rewrite firstn_length; lia).
  rewrite (skipn_nth_cons b j d) by lia. reflexivity.
Qed.
Lemma length_mid {A} (a b : list A) j :
  length a = length b -> length (firstn j a ++ skipn j b) = length b.
Proof. intros. rewrite app_length, firstn_length, skipn_length. lia. Qed.
Lemma Forall2_nth {A B} (R : A -> B -> Prop) l l' j a b :
  Forall2 R l l' -> (j < length l)%nat -> R (nth j l a) (nth j l' b).
Proof.
  intros H; revert j; induction H; destruct j; cbn [length nth]; intros; try lia; auto.
  apply IHForall2. lia.
Qed.
Lemma Forall2_len {A B} (R : A -> B -> Prop) l l' : Forall2 R l l' -> length l = length l'.
Proof. induction 1; cbn; auto. Qed.
Lemma Forall2_replace {A B} (R : A -> B -> Prop) l l' j a b :
  Forall2 R l l' -> R a b -> Forall2 R (replace_nth j l a) (replace_nth j l' b).
Proof.
  intros H HR; revert j; induction H; destruct j; cbn [replace_nth]; constructor; auto.
Qed.

(** ** The noise generator *)
Lemma rnd_range s : 0 <= rnd s < 507961.
Proof. apply Z.mod_pos_bound. reflexivity. Qed.
Lemma rnd_iter_range n : 0 <= rnd_iter n < 507961.
Proof. destruct n; [cbn; lia|apply rnd_range]. Qed.
Lemma rand_spec p s : 0 <= s < 507961 -> rand p s = Ok (rnd s).
Proof.
  intros H. unfold rand, rnd, RAND_A, RAND_B, RAND_M.
  rewrite uchk_ok by (rewrite pow2_64; lia). cbn [bind].
  rewrite uchk_ok by (rewrite pow2_64; lia). reflexivity.
Qed.
Lemma triangle_spec p j : triangle_next p (rnd_iter (2 * j)) = Ok (rnd_iter (2 * S j), noise j).
Proof.
  unfold triangle_next. rewrite rand_spec by apply rnd_iter_range. cbn [bind].
  rewrite rand_spec by apply rnd_range. cbn [bind].
  unfold noise. replace (2 * S j)%nat with (S (S (2 * j))) by lia.
  replace (2 * j + 1)%nat with (S (2 * j)) by lia. replace (2 * j + 2)%nat with (S (S (2 * j))) by lia.
  reflexivity.
Qed.

Lemma dither_sample_spec inv x n : dither_sample inv x n = dithered inv x n.
Proof. reflexivity. Qed.
Lemma truncate_spec s : truncate_sample s = quantise s.
Proof. reflexivity. Qed.

Fixpoint dithered_all (inv : f32) (j : nat) (l : list f32) : list f32 :=
  match l with
  | [] => []
  | x :: l => dithered inv x (noise j) :: dithered_all inv (S j) l
  end.
Lemma dither_spec p inv j l :
  dither p inv (rnd_iter (2 * j)) l = Ok (rnd_iter (2 * (j + length l)), dithered_all inv j l).
Proof.
  revert j; induction l as [|x l IH]; intros j; cbn [dither dithered_all length].
  - now rewrite Nat.add_0_r.
  - rewrite triangle_spec. cbn [bind]. rewrite IH. cbn [bind].
    now replace (j + S (length l))%nat with (S j + length l)%nat by lia.
Qed.
Lemma dithered_all_map {A} inv (f : A -> f32) (l : list A) j :
  dithered_all inv j (map f l) =
  map (fun '(i, a) => dithered inv (f a) (noise (j + i))) (combine (seq 0 (length l)) l).
Proof.
  revert j; induction l as [|a l IH]; intros j; cbn [map dithered_all length seq combine]; auto.
  rewrite Nat.add_0_r. f_equal. rewrite IH, <- seq_shift.
  clear. generalize (length l) as n. intros n. revert l; generalize (seq 0 n) as s.
  induction s as [|i s IH]; intros [|a l]; cbn [map combine]; auto.
  f_equal; [f_equal; f_equal; lia|apply IH].
Qed.
Lemma combine_seq_range n : combine (seq 0 (length (range n))) (range n) =
  map (fun k => (Z.to_nat k, k)) (range n).
Proof.
  rewrite length_range. unfold range. rewrite map_map.
  induction (seq 0 (Z.to_nat n)); cbn [combine map]; auto.
  rewrite Nat2Z.id. now f_equal.
Qed.

(** ** One channel of one call *)
Lemma deinterleave_spec pcm ch c n :
  0 <= c < ch -> n = zlen pcm / ch ->
  deinterleave pcm ch c n = Ok (map (fun k => nth (Z.to_nat (k * ch + c)) pcm f0) (range n)).
Proof.
  intros Hc ->. apply mapM_ok. intros k Hk. apply in_range in Hk. apply index_ok.
  pose proof (Z.mul_div_le (zlen pcm) ch ltac:(lia)).
  assert (k * ch + c < (zlen pcm / ch) * ch) by nia. nia.
Qed.

Definition samples_of (inv : f32) (base : nat) (ch : Z) (pcm : list f32) (c : Z) : list f32 :=
  map (preprocessed inv base ch (zlen pcm / ch) pcm c) (range (zlen pcm / ch)).
Lemma quant_channel_samples inv base ch pcm c :
  quant_channel inv base ch pcm c = map truncate_sample (samples_of inv base ch pcm c).
Proof. unfold quant_channel, samples_of. now rewrite map_map. Qed.

Lemma dither_channel_spec p inv base ch pcm c :
  0 <= c -> 0 < ch ->
  let n := zlen pcm / ch in
  dither p inv (rnd_iter (2 * (base + Z.to_nat (c * n))))
    (map (fun k => nth (Z.to_nat (k * ch + c)) pcm f0) (range n))
  = Ok (rnd_iter (2 * (base + Z.to_nat ((c + 1) * n))), samples_of inv base ch pcm c).
Proof.
  intros Hc Hch n. assert (0 <= n) by (apply Z.div_pos; [apply zlen_nonneg|lia]).
  rewrite dither_spec, map_length, length_range.
  replace (base + Z.to_nat (c * n) + Z.to_nat n)%nat with (base + Z.to_nat ((c + 1) * n))%nat by nia.
  rewrite dithered_all_map, combine_seq_range, map_map. do 2 f_equal.
  unfold samples_of. fold n. apply map_ext_in. intros k Hk. apply in_range in Hk.
  unfold preprocessed. f_equal. f_equal. nia.
Qed.

(** ** Encoder invariant *)
(** [fs]: the frames written so far; [sts]: each channel's history; [base]: noise values drawn. *)
Record enc_rel (c : adhoc) (info : stream_info) (inv : f32) (fs : list frame) (sts : list (option hist))
  (base : nat) : Prop := mkEncRel {
  er_info : as_info (ad_stream c) = Some info;
  er_inv : ad_inv_scale c = inv;
  er_chs : Forall2 fc_rel (ad_channels c) sts;
  er_num : zlen sts = si_channels info;
  er_bits : holds 2 (as_stream (ad_stream c)) (flat_map fr_bits fs);
  er_heads : enc_headers (ad_headers c) fs;
  er_seq : ad_seq c = rnd_iter (2 * base) }.

(** Fields encoding never touches. *)
Definition same_setup (c c' : adhoc) : Prop :=
  ad_level c' = ad_level c /\ ad_scale c' = ad_scale c /\ ad_inv_scale c' = ad_inv_scale c /\
  as_info (ad_stream c') = as_info (ad_stream c).

Definition make_row (sts : list (option hist)) (call : list (list Z)) : list frame :=
  zipw make_frame sts call.
Definition next_sts (sts : list (option hist)) (call : list (list Z)) : list (option hist) :=
  zipw (fun st qs => Some (next_hist st qs)) sts call.

(** A frame the encoder can write in this build. *)
Definition frame_exp_ok (p : profile) (f : frame) : Prop := fr_res f <> [] -> exp_ok p (fr_e f).

Lemma encode_channel_spec p pcm c info inv fs sts base j st :
  let ch := si_channels info in
  let n := zlen pcm / ch in
  enc_rel c info inv fs sts (base + Z.to_nat (j * n)) -> 0 <= j < ch -> nth (Z.to_nat j) sts None = st ->
  (st = None -> 3 <= n) -> n <= 131007 ->
  let qs := quant_channel inv base ch pcm j in
  let f := make_frame st qs in
  frame_exp_ok p f -> zlen fs + 1 < 2 ^ 32 -> zlen (flat_map fr_bits (fs ++ [f])) < 2 ^ 64 ->
  exists c', encode_channel p pcm ch n c j = Ok c' /\
    enc_rel c' info inv (fs ++ [f]) (replace_nth (Z.to_nat j) sts (Some (next_hist st qs)))
      (base + Z.to_nat ((j + 1) * n)) /\ same_setup c c'.
Proof.
  intros ch n [Hi Hinv Hcs Hnum Hb Hh Hseq] Hj Hst H3 Hn qs f He Hfs Hbits.
  unfold encode_channel. rewrite deinterleave_spec by (auto; lia). cbn [bind].
  rewrite Hinv, Hseq.
  pose proof (dither_channel_spec p inv base ch pcm j ltac:(lia) ltac:(lia)) as ED. cbv zeta in ED.
  fold n in ED. rewrite ED. cbn [bind].
  assert (Hl : zlen (ad_channels c) = ch).
  { unfold zlen. rewrite (Forall2_len _ _ _ Hcs). exact Hnum. }
  rewrite (index_ok _ j fc_new) by lia. cbn [bind].
  assert (Hlen : (Z.to_nat j < length (ad_channels c))%nat) by (unfold zlen in Hl; lia).
  pose proof (Forall2_nth _ _ _ (Z.to_nat j) fc_new None Hcs Hlen) as Hfc. rewrite Hst in Hfc.
  set (samples := samples_of inv base ch pcm j) in *.
  assert (Hq : qs = map truncate_sample samples) by apply quant_channel_samples.
  assert (Hs : zlen samples = Z.max 0 n).
  { subst samples. unfold samples_of. rewrite zlen_map, zlen_range. reflexivity. }
  assert (0 <= n) by (apply Z.div_pos; [apply zlen_nonneg|lia]).
  subst f. rewrite Hq in *.
  destruct (encode_frame_spec p _ st _ _ fs samples Hfc Hb Hh) as (fc' & s' & hs' & E & R1 & R2 & R3); auto.
  { intros E0. specialize (H3 E0). lia. } { lia. }
  rewrite E. cbn [bind]. rewrite store_ok by lia. cbn [bind].
  eexists. split; [reflexivity|]. split.
  - constructor; cbn [ad_stream as_info ad_inv_scale ad_channels as_stream ad_headers ad_seq]; auto.
    + apply Forall2_replace; auto.
    + now rewrite zlen_replace_nth.
  - repeat split; cbn [ad_level ad_scale ad_inv_scale ad_stream as_info]; auto.
Qed.

Lemma same_setup_refl c : same_setup c c.
Proof. repeat split. Qed.
Lemma same_setup_trans a b c : same_setup a b -> same_setup b c -> same_setup a c.
Proof. unfold same_setup. intuition congruence. Qed.

Lemma length_make_row sts call : length sts = length call -> length (make_row sts call) = length sts.
Proof. apply length_zipw. Qed.
Lemma length_next_sts sts call : length sts = length call -> length (next_sts sts call) = length sts.
Proof. apply length_zipw. Qed.
Lemma length_quant_call inv base ch pcm : length (quant_call inv base ch pcm) = Z.to_nat ch.
Proof. unfold quant_call. now rewrite map_length, length_range. Qed.
Lemma nth_quant_call inv base ch pcm j :
  0 <= j < ch -> nth (Z.to_nat j) (quant_call inv base ch pcm) [] = quant_channel inv base ch pcm j.
Proof.
  intros H. unfold quant_call.
  rewrite (nth_indep _ [] (quant_channel inv base ch pcm 0)) by (rewrite map_length, length_range; lia).
  rewrite map_nth. now rewrite nth_range.
Qed.

Lemma zlen_firstn_le {A} j (l : list A) : zlen (firstn j l) <= zlen l.
Proof. rewrite zlen_firstn. lia. Qed.
Lemma zlen_flat_firstn {A B} (f : A -> list B) j l : zlen (flat_map f (firstn j l)) <= zlen (flat_map f l).
Proof.
  rewrite <- (firstn_skipn j l) at 2. rewrite flat_map_app, zlen_app.
  pose proof (zlen_nonneg (flat_map f (skipn j l))). lia.
Qed.

(** The first [k] channels of one call. *)
Lemma encode_prefix_spec p pcm c info inv fs sts base k :
  let ch := si_channels info in
  let n := zlen pcm / ch in
  let call := quant_call inv base ch pcm in
  let row := make_row sts call in
  enc_rel c info inv fs sts base -> 0 < ch ->
  (In None sts -> 3 <= n) -> n <= 131007 ->
  Forall (frame_exp_ok p) (firstn k row) -> zlen fs + ch + 1 < 2 ^ 32 ->
  zlen (flat_map fr_bits (fs ++ row)) < 2 ^ 64 -> (k <= Z.to_nat ch)%nat ->
  exists c', foldM (encode_channel p pcm ch n) (range (Z.of_nat k)) c = Ok c' /\
    enc_rel c' info inv (fs ++ firstn k row)
      (firstn k (next_sts sts call) ++ skipn k sts)
      (base + Z.to_nat (Z.of_nat k * n)) /\ same_setup c c'.
Proof.
  intros ch n call row HR Hch H3 Hn He Hfs Hbits Hk.
  assert (Lsts : length sts = Z.to_nat ch).
  { pose proof (er_num _ _ _ _ _ _ HR) as E. unfold zlen in E. fold ch in E. lia. }
  assert (Lcall : length call = Z.to_nat ch) by apply length_quant_call.
  assert (Lrow : length row = Z.to_nat ch) by (subst row; rewrite length_make_row; lia).
  assert (Lnx : length (next_sts sts call) = Z.to_nat ch) by (rewrite length_next_sts; lia).
  assert (Hn0 : 0 <= n) by (apply Z.div_pos; [apply zlen_nonneg|lia]).
  revert He Hk. induction k as [|k IH]; intros He Hk.
    - exists c. change (range (Z.of_nat 0)) with (@nil Z). cbn [foldM firstn skipn app].
      rewrite app_nil_r. change (Z.to_nat (Z.of_nat 0 * n)) with 0%nat. rewrite Nat.add_0_r.
      auto using same_setup_refl.
    - destruct IH as (c1 & E1 & R1 & S1); [|lia|].
      { rewrite (firstn_S_nth row k (make_frame None [])) in He by lia. apply Forall_app in He. tauto. }
      replace (Z.of_nat (S k)) with (Z.of_nat k + 1) by lia.
      rewrite range_succ, foldM_app, E1 by lia. cbn [bind foldM].
      set (sts1 := firstn k (next_sts sts call) ++ skipn k sts) in *.
      assert (Hst : nth (Z.to_nat (Z.of_nat k)) sts1 None = nth k sts None).
      { rewrite Nat2Z.id. subst sts1. apply nth_mid; lia. }
      assert (Hrow : nth k row (make_frame None []) =
                     make_frame (nth k sts None) (quant_channel inv base ch pcm (Z.of_nat k))).
      { subst row. unfold make_row. rewrite (nth_zipw _ _ _ _ None []) by lia. f_equal.
        subst call. rewrite <- (Nat2Z.id k) at 1. apply nth_quant_call. lia. }
      assert (Hnx : nth k (next_sts sts call) None =
                    Some (next_hist (nth k sts None) (quant_channel inv base ch pcm (Z.of_nat k)))).
      { unfold next_sts. rewrite (nth_zipw _ _ _ _ None []) by lia. do 2 f_equal.
        subst call. rewrite <- (Nat2Z.id k) at 1. apply nth_quant_call. lia. }
      assert (HS : firstn (S k) row = firstn k row ++
                [make_frame (nth k sts None) (quant_channel inv base ch pcm (Z.of_nat k))]).
      { rewrite (firstn_S_nth row k (make_frame None [])) by lia. now rewrite Hrow. }
      destruct (encode_channel_spec p pcm c1 info inv _ sts1 base (Z.of_nat k) (nth k sts None) R1)
        as (c2 & E2 & R2 & S2); auto.
      + fold ch. lia.
      + intros E. apply H3. rewrite <- E. apply nth_In. lia.
      + fold ch. rewrite HS in He. apply Forall_app in He. destruct He as [_ He]. now inversion He.
      + rewrite zlen_app. pose proof (zlen_firstn k row) as L. unfold zlen at 2 in L. lia.
      + fold ch. rewrite <- app_assoc, <- HS.
        rewrite flat_map_app, zlen_app. rewrite flat_map_app, zlen_app in Hbits.
        pose proof (zlen_flat_firstn fr_bits (S k) row). lia.
      + fold ch n in E2, R2. rewrite E2. cbn [bind]. eexists. split; [reflexivity|].
        split; [|eapply same_setup_trans; eauto].
        rewrite HS, app_assoc. rewrite Nat2Z.id, <- Hnx in R2. subst sts1.
        rewrite replace_mid in R2 by lia. exact R2.
Qed.

Lemma encode_call_spec p pcm c info inv fs sts base :
  let ch := si_channels info in
  let n := zlen pcm / ch in
  let call := quant_call inv base ch pcm in
  let row := make_row sts call in
  enc_rel c info inv fs sts base -> 0 < ch ->
  (In None sts -> 3 <= n) -> n <= 131007 ->
  Forall (frame_exp_ok p) row -> zlen fs + ch + 1 < 2 ^ 32 ->
  zlen (flat_map fr_bits (fs ++ row)) < 2 ^ 64 ->
  exists c', ad_encode p c pcm = Ok (c', Some (zlen pcm)) /\
    enc_rel c' info inv (fs ++ row) (next_sts sts call) (base + Z.to_nat (ch * n)) /\ same_setup c c'.
Proof.
  intros ch n call row HR Hch H3 Hn He Hfs Hbits.
  assert (Lsts : length sts = Z.to_nat ch).
  { pose proof (er_num _ _ _ _ _ _ HR) as E. unfold zlen in E. fold ch in E. lia. }
  assert (Lcall : length call = Z.to_nat ch) by apply length_quant_call.
  assert (Lrow : length row = Z.to_nat ch) by (subst row; rewrite length_make_row; lia).
  assert (Lnx : length (next_sts sts call) = Z.to_nat ch) by (rewrite length_next_sts; lia).
  assert (Hn0 : 0 <= n) by (apply Z.div_pos; [apply zlen_nonneg|lia]).
  destruct (encode_prefix_spec p pcm c info inv fs sts base (Z.to_nat ch) HR) as (c' & E & R & S); auto.
  { fold ch call row. rewrite firstn_all2 by lia. exact He. }
  fold ch n call row in E, R. exists c'.
  unfold ad_encode, ad_info. rewrite (er_info _ _ _ _ _ _ HR). cbn [expect bind]. fold ch.
  rewrite udiv_ok by lia. cbn [bind]. fold n.
  rewrite Z2Nat.id in E, R by lia. rewrite E. cbn [bind]. split; [reflexivity|]. split; [|exact S].
  rewrite firstn_all2 in R by lia. rewrite firstn_all2 in R by lia.
  rewrite skipn_all2, app_nil_r in R by lia. exact R.
Qed.

(** ** All calls *)
Fixpoint make_rows (sts : list (option hist)) (calls : list (list (list Z))) : list (list frame) :=
  match calls with
  | [] => []
  | call :: calls => make_row sts call :: make_rows (next_sts sts call) calls
  end.
Fixpoint final_sts (sts : list (option hist)) (calls : list (list (list Z))) : list (option hist) :=
  match calls with
  | [] => sts
  | call :: calls => final_sts (next_sts sts call) calls
  end.
Fixpoint total_draws (ch : Z) (pcms : list (list f32)) : nat :=
  match pcms with
  | [] => 0
  | pcm :: pcms => Z.to_nat (ch * (zlen pcm / ch)) + total_draws ch pcms
  end.

Lemma next_sts_some sts call : ~ In None (next_sts sts call).
Proof.
  unfold next_sts. revert call; induction sts; destruct call; cbn; auto.
  intros [|]; [discriminate|]. eapply IHsts; eauto.
Qed.

Definition first_ok (sts : list (option hist)) (ch : Z) (pcms : list (list f32)) : Prop :=
  match pcms with [] => True | pcm :: _ => In None sts -> 3 <= zlen pcm / ch end.

Lemma encode_all_spec p pcms c info inv fs sts base :
  let ch := si_channels info in
  let rows := make_rows sts (quant_calls inv base ch pcms) in
  enc_rel c info inv fs sts base -> 0 < ch ->
  first_ok sts ch pcms ->
  Forall (fun pcm => zlen pcm / ch <= 131007) pcms ->
  Forall (frame_exp_ok p) (concat rows) ->
  zlen fs + ch * zlen pcms + 1 < 2 ^ 32 ->
  zlen (flat_map fr_bits (fs ++ concat rows)) < 2 ^ 64 ->
  exists c', encode_all p c pcms = Ok c' /\
    enc_rel c' info inv (fs ++ concat rows) (final_sts sts (quant_calls inv base ch pcms))
      (base + total_draws ch pcms) /\ same_setup c c'.
Proof.
  cbv zeta. revert c fs sts base; induction pcms as [|pcm pcms IH]; intros c fs sts base HR Hch H3 Hn He Hfs Hb.
  - exists c. cbn [quant_calls make_rows concat final_sts total_draws]. rewrite app_nil_r, Nat.add_0_r.
    auto using same_setup_refl.
  - cbn [quant_calls make_rows concat final_sts total_draws] in *.
    set (ch := si_channels info) in *. set (n := zlen pcm / ch) in *.
    set (call := quant_call inv base ch pcm) in *.
    inversion Hn as [|? ? Hn1 Hn2]; subst.
    apply Forall_app in He. destruct He as [He1 He2].
    rewrite app_assoc in Hb. rewrite zlen_cons in Hfs. pose proof (zlen_nonneg pcms).
    destruct (encode_call_spec p pcm c info inv fs sts base HR) as (c1 & E1 & R1 & S1); auto.
    { fold ch. nia. }
    { fold ch call. rewrite flat_map_app, zlen_app in Hb.
      match type of Hb with _ + zlen ?x < _ => pose proof (zlen_nonneg x) end. lia. }
    fold ch n call in E1, R1.
    destruct (IH c1 (fs ++ make_row sts call) (next_sts sts call) (base + Z.to_nat (ch * n))%nat R1)
      as (c2 & E2 & R2 & S2); auto.
    { destruct pcms; cbn; auto. intros X. now apply next_sts_some in X. }
    { rewrite zlen_app. assert (zlen (make_row sts call) = ch); [|lia].
      unfold zlen. rewrite length_make_row.
      - apply (er_num _ _ _ _ _ _ HR).
      - pose proof (er_num _ _ _ _ _ _ HR) as E. unfold zlen in E. subst call.
        rewrite length_quant_call. fold ch in E. lia. }
    exists c2. split; [|split].
    + unfold encode_all. cbn [foldM]. rewrite E1. cbn [bind]. exact E2.
    + rewrite app_assoc, Nat.add_assoc. exact R2.
    + eapply same_setup_trans; eauto.
Qed.

(** ** A build in which encoding succeeded could encode *)
Lemma foldM_app_inv {S A} (f : S -> A -> outcome S) l1 l2 s s' :
  foldM f (l1 ++ l2) s = Ok s' -> exists s1, foldM f l1 s = Ok s1 /\ foldM f l2 s1 = Ok s'.
Proof. rewrite foldM_app. intros E. inv_bind E. eauto. Qed.

Lemma write_15_panics s e : is_ok (write_compressed Debug s 15 e) = false.
Proof.
  unfold write_compressed. destruct (schk Debug 16 (Z.abs e)) as [mag| |]; cbn [bind]; reflexivity.
Qed.
Lemma encode_samples_exp p s h e samples r : 1 <= e <= 15 ->
  encode_samples p s h e samples = Ok r -> samples <> [] -> exp_ok p e.
Proof.
  intros He E Hne. split; [lia|]. intros ->. destruct samples as [|x samples]; [congruence|].
  cbn [encode_samples] in E. inv_bind E. destruct (Z.eq_dec e 15) as [->|]; [|lia].
  match goal with H : write_compressed _ _ _ ?d = Ok _ |- _ => pose proof (write_15_panics s d) as W; rewrite H in W end.
  discriminate.
Qed.
Lemma encode_raw_hist p s h pcm s' h' :
  encode_raw p s h pcm [0; 1; 2] = Ok (s', h') -> hist_any h -> 3 <= zlen pcm ->
  let qs := map truncate_sample pcm in hist_is h' (nth 0 qs 0, nth 1 qs 0, nth 2 qs 0).
Proof.
  intros E Hh Hl qs. subst qs.
  destruct pcm as [|x0 [|x1 [|x2 pcm]]];
    try (rewrite ?zlen_cons in Hl; change (zlen (@nil f32)) with 0 in Hl; lia).
  cbn [encode_raw] in E.
  rewrite (index_ok _ 0 x0), (index_ok _ 1 x0), (index_ok _ 2 x0) in E by lia. cbn [bind] in E.
  inv_bind E. inv_bind E. inv_bind E. injection E as <- <-.
  cbn [map nth]. now apply hist_is_push3.
Qed.
Lemma encode_frame_exp p c st s hs pcm r :
  fc_rel c st -> (st = None -> 3 <= zlen pcm) -> zlen pcm <= 131007 ->
  encode_frame p c s hs pcm = Ok r -> frame_exp_ok p (make_frame st (map truncate_sample pcm)).
Proof.
  intros [Hbuf Hst] H3 Hn E. unfold encode_frame in E. destruct st as [t|].
  - destruct Hst as [Hs Hist]. rewrite Hs in E. rewrite (optimal_exponent_spec p _ t pcm Hist Hn) in E.
    cbn [bind] in E. inv_bind E. inv_bind E. intros Hne. cbn [make_frame fr_e fr_res] in *.
    eapply encode_samples_exp; [apply best_range|eassumption|].
    intros ->. apply Hne. reflexivity.
  - destruct Hst as [Hs Hist]. rewrite Hs in E. specialize (H3 eq_refl).
    inv_bind E. destruct a as [s1 h1]. pose proof (encode_raw_hist _ _ _ _ _ _ Ha Hist H3) as Hh1.
    cbv zeta in Hh1. inv_bind E. unfold slice_from in Ha0.
    destruct (Z.leb_spec 0 3) as [_|]; [|lia]. destruct (Z.leb_spec 3 (zlen pcm)) as [_|]; [|lia]. cbn [andb] in Ha0.
    change (Z.to_nat 3) with 3%nat in Ha0. assert (a = skipn 3 pcm) as -> by congruence.
    rewrite (optimal_exponent_spec p _ _ (skipn 3 pcm) Hh1) in E by (rewrite zlen_skipn; lia).
    cbn [bind] in E. inv_bind E. inv_bind E. intros Hne. cbn [make_frame fr_e fr_res] in *.
    assert (HR : map truncate_sample (skipn 3 pcm) = skipn 3 (map truncate_sample pcm)).
    { symmetry. apply skipn_map. }
    rewrite HR in Ha2. eapply encode_samples_exp; [apply best_range|eassumption|].
    intros E0. apply Hne. rewrite <- HR, E0. reflexivity.
Qed.
Lemma encode_channel_exp p pcm c info inv fs sts base j st c' :
  let ch := si_channels info in
  let n := zlen pcm / ch in
  enc_rel c info inv fs sts (base + Z.to_nat (j * n)) -> 0 <= j < ch -> nth (Z.to_nat j) sts None = st ->
  (st = None -> 3 <= n) -> n <= 131007 ->
  encode_channel p pcm ch n c j = Ok c' ->
  frame_exp_ok p (make_frame st (quant_channel inv base ch pcm j)).
Proof.
  intros ch n [Hi Hinv Hcs Hnum Hb Hh Hseq] Hj Hst H3 Hn E.
  unfold encode_channel in E. rewrite deinterleave_spec in E by (auto; lia). cbn [bind] in E.
  rewrite Hinv, Hseq in E.
  pose proof (dither_channel_spec p inv base ch pcm j ltac:(lia) ltac:(lia)) as ED. cbv zeta in ED.
  fold n in ED. rewrite ED in E. cbn [bind] in E.
  assert (Hl : zlen (ad_channels c) = ch).
  { unfold zlen. rewrite (Forall2_len _ _ _ Hcs). exact Hnum. }
  rewrite (index_ok _ j fc_new) in E by lia. cbn [bind] in E.
  assert (Hlen : (Z.to_nat j < length (ad_channels c))%nat) by (unfold zlen in Hl; lia).
  pose proof (Forall2_nth _ _ _ (Z.to_nat j) fc_new None Hcs Hlen) as Hfc. rewrite Hst in Hfc.
  rewrite quant_channel_samples.
  assert (0 <= n) by (apply Z.div_pos; [apply zlen_nonneg|lia]).
  assert (Hs : zlen (samples_of inv base ch pcm j) = n).
  { unfold samples_of. rewrite zlen_map, zlen_range. fold n. lia. }
  inv_bind E. destruct a as [[fc' s'] hs']. eapply encode_frame_exp; eauto.
  - intros E0. rewrite Hs. auto.
  - lia.
Qed.
Lemma range_split j n : 0 <= j <= n -> exists l, range n = range j ++ l /\ (j < n -> exists l', l = j :: l').
Proof.
  intros H. unfold range. exists (map Z.of_nat (seq (Z.to_nat j) (Z.to_nat (n - j)))). split.
  - rewrite <- map_app, <- seq_app. do 2 f_equal. lia.
  - intros Hj. replace (Z.to_nat (n - j)) with (S (Z.to_nat (n - j - 1))) by lia. cbn [seq map].
    rewrite Z2Nat.id by lia. eauto.
Qed.
Lemma encode_call_exp p pcm c info inv fs sts base r :
  let ch := si_channels info in
  let n := zlen pcm / ch in
  let call := quant_call inv base ch pcm in
  let row := make_row sts call in
  enc_rel c info inv fs sts base -> 0 < ch ->
  (In None sts -> 3 <= n) -> n <= 131007 -> zlen fs + ch + 1 < 2 ^ 32 ->
  zlen (flat_map fr_bits (fs ++ row)) < 2 ^ 64 ->
  ad_encode p c pcm = Ok r -> Forall (frame_exp_ok p) row.
Proof.
  intros ch n call row HR Hch H3 Hn Hfs Hbits E.
  assert (Lsts : length sts = Z.to_nat ch).
  { pose proof (er_num _ _ _ _ _ _ HR) as E0. unfold zlen in E0. fold ch in E0. lia. }
  assert (Lcall : length call = Z.to_nat ch) by apply length_quant_call.
  assert (Lrow : length row = Z.to_nat ch) by (subst row; rewrite length_make_row; lia).
  assert (Lnx : length (next_sts sts call) = Z.to_nat ch) by (rewrite length_next_sts; lia).
  unfold ad_encode, ad_info in E. rewrite (er_info _ _ _ _ _ _ HR) in E. cbn [expect bind] in E. fold ch in E.
  rewrite udiv_ok in E by lia. cbn [bind] in E. fold n in E. inv_bind E. clear E.
  enough (K : forall k, (k <= Z.to_nat ch)%nat -> Forall (frame_exp_ok p) (firstn k row)).
  { specialize (K (Z.to_nat ch) (le_n _)). now rewrite firstn_all2 in K by lia. }
  induction k as [|k IH]; intros Hk; [constructor|].
  specialize (IH ltac:(lia)).
  destruct (encode_prefix_spec p pcm c info inv fs sts base k HR) as (c1 & E1 & R1 & _); auto; [lia|].
  fold ch n call row in E1, R1.
  destruct (range_split (Z.of_nat k) ch ltac:(lia)) as (l & E2 & E3).
  destruct (E3 ltac:(lia)) as (l' & ->). rewrite E2 in Ha. apply foldM_app_inv in Ha.
  destruct Ha as (c2 & E4 & E5). rewrite E1 in E4. injection E4 as <-. cbn [foldM] in E5. inv_bind E5.
  set (sts1 := firstn k (next_sts sts call) ++ skipn k sts) in *.
  assert (Hst : nth (Z.to_nat (Z.of_nat k)) sts1 None = nth k sts None).
  { rewrite Nat2Z.id. subst sts1. apply nth_mid; lia. }
  assert (Hrow : nth k row (make_frame None []) =
                 make_frame (nth k sts None) (quant_channel inv base ch pcm (Z.of_nat k))).
  { subst row. unfold make_row. rewrite (nth_zipw _ _ _ _ None []) by lia. f_equal.
    subst call. rewrite <- (Nat2Z.id k) at 1. apply nth_quant_call. lia. }
  rewrite (firstn_S_nth row k (make_frame None [])) by lia. apply Forall_app. split; auto.
  constructor; [|constructor]. rewrite Hrow.
  eapply encode_channel_exp; eauto; fold ch; [lia|].
  intros E0. apply H3. rewrite <- E0. apply nth_In. lia.
Qed.
Lemma encode_all_exp p pcms c info inv fs sts base r :
  let ch := si_channels info in
  let rows := make_rows sts (quant_calls inv base ch pcms) in
  enc_rel c info inv fs sts base -> 0 < ch ->
  first_ok sts ch pcms ->
  Forall (fun pcm => zlen pcm / ch <= 131007) pcms ->
  zlen fs + ch * zlen pcms + 1 < 2 ^ 32 ->
  zlen (flat_map fr_bits (fs ++ concat rows)) < 2 ^ 64 ->
  encode_all p c pcms = Ok r -> Forall (frame_exp_ok p) (concat rows).
Proof.
  cbv zeta. revert c fs sts base; induction pcms as [|pcm pcms IH]; intros c fs sts base HR Hch H3 Hn Hfs Hb E.
  - constructor.
  - cbn [quant_calls make_rows concat] in *.
    set (ch := si_channels info) in *. set (n := zlen pcm / ch) in *.
    set (call := quant_call inv base ch pcm) in *.
    inversion Hn as [|? ? Hn1 Hn2]; subst.
    rewrite app_assoc in Hb. rewrite zlen_cons in Hfs. pose proof (zlen_nonneg pcms).
    unfold encode_all in E. cbn [foldM] in E. inv_bind E. inv_bind Ha. destruct a0 as [c1 o]. injection Ha as <-.
    assert (HB : zlen (flat_map fr_bits (fs ++ make_row sts call)) < 2 ^ 64).
    { rewrite flat_map_app, zlen_app in Hb.
      match type of Hb with _ + zlen ?x < _ => pose proof (zlen_nonneg x) end. lia. }
    assert (He1 : Forall (frame_exp_ok p) (make_row sts call)).
    { eapply encode_call_exp; eauto. fold ch. nia. }
    destruct (encode_call_spec p pcm c info inv fs sts base HR) as (c2 & E1 & R1 & S1); auto.
    { fold ch. nia. }
    fold ch n call in E1, R1. rewrite E1 in Ha0. injection Ha0 as <- <-.
    apply Forall_app. split; auto. eapply IH; eauto.
    { destruct pcms; cbn; auto. intros X. now apply next_sts_some in X. }
    { rewrite zlen_app. assert (zlen (make_row sts call) = ch); [|lia].
      unfold zlen. rewrite length_make_row.
      - apply (er_num _ _ _ _ _ _ HR).
      - pose proof (er_num _ _ _ _ _ _ HR) as E0. unfold zlen in E0. subst call.
        rewrite length_quant_call. fold ch in E0. lia. }
Qed.

(** ** Starting points *)
Lemma new_codec_rel info level :
  0 <= si_channels info ->
  enc_rel (new_codec info level) info (ad_inv_scale (new_codec info level)) []
    (repeat None (Z.to_nat (si_channels info))) 0.
Proof.
  intros H. constructor; auto.
  - cbn [new_codec ad_with_level ad_set_info ad_channels ad_new]. unfold resize.
    change (zlen (@nil frame_codec)) with 0. destruct (Z.leb_spec 0 (si_channels info)); [|lia].
    cbn [app length]. rewrite Nat.sub_0_r. induction (Z.to_nat (si_channels info)); constructor; auto.
    repeat split; auto using hist_any_new.
  - rewrite zlen_repeat. lia.
  - apply holds_new.
  - split; [apply fhs_rep_new|reflexivity].
Qed.

(** ** Size of what is written *)
Lemma quant_channel_i16 inv base ch pcm c : Forall i16 (quant_channel inv base ch pcm c).
Proof. rewrite quant_channel_samples. apply map_trunc_i16. Qed.
Lemma zlen_quant_channel inv base ch pcm c : 0 < ch -> zlen (quant_channel inv base ch pcm c) = zlen pcm / ch.
Proof.
  intros. unfold quant_channel. rewrite zlen_map, zlen_range.
  pose proof (Z.div_pos (zlen pcm) ch (zlen_nonneg _) ltac:(lia)). lia.
Qed.

Lemma row_bits sts n call :
  length sts = length call -> Forall (fun qs => Forall i16 qs /\ zlen qs = n) call -> (In None sts -> 3 <= n) ->
  zlen (flat_map fr_bits (make_row sts call)) <=
    18 * n * zlen call + (if existsb (fun o => match o with None => true | _ => false end) sts
                          then 48 * zlen call else 0).
Proof.
  unfold make_row. revert call. induction sts as [|st sts IH]; intros [|qs call] HL HF H3;
    cbn [zipw flat_map existsb]; try discriminate.
  - change (zlen (@nil bool)) with 0. change (zlen (@nil (list Z))) with 0. lia.
  - inversion HF as [|? ? [Hq1 Hq2] HF']; subst. rewrite zlen_app, zlen_cons.
    pose proof (make_frame_bits st qs Hq1) as B. pose proof (zlen_nonneg call).
    specialize (IH call ltac:(cbn in HL; lia) HF' ltac:(intros; apply H3; right; auto)).
    pose proof (zlen_nonneg qs).
    destruct st as [t|]; cbn [orb].
    + specialize (B ltac:(discriminate)).
      destruct (existsb _ sts); lia.
    + specialize (B ltac:(intros; apply H3; left; auto)).
      destruct (existsb _ sts); lia.
Qed.

Fixpoint total_samples (ch : Z) (pcms : list (list f32)) : Z :=
  match pcms with [] => 0 | pcm :: pcms => ch * (zlen pcm / ch) + total_samples ch pcms end.

Lemma rows_bits inv base ch pcms sts :
  0 < ch -> zlen sts = ch -> first_ok sts ch pcms ->
  zlen (flat_map fr_bits (concat (make_rows sts (quant_calls inv base ch pcms)))) <=
    18 * total_samples ch pcms + (if existsb (fun o => match o with None => true | _ => false end) sts
                                   then 48 * ch else 0).
Proof.
  intros Hch. revert sts base; induction pcms as [|pcm pcms IH]; intros sts base Hs H3;
    cbn [quant_calls make_rows concat total_samples].
  - change (zlen (flat_map fr_bits [])) with 0. destruct (existsb _ _); lia.
  - rewrite flat_map_app, zlen_app.
    assert (L : length sts = length (quant_call inv base ch pcm)).
    { rewrite length_quant_call. unfold zlen in Hs. lia. }
    pose proof (row_bits sts (zlen pcm / ch) (quant_call inv base ch pcm) L) as B.
    assert (LC : zlen (quant_call inv base ch pcm) = ch).
    { unfold zlen. rewrite length_quant_call. lia. }
    rewrite LC in B.
    specialize (IH (next_sts sts (quant_call inv base ch pcm)) (base + Z.to_nat (ch * (zlen pcm / ch)))%nat).
    assert (E0 : existsb (fun o => match o with None => true | _ => false end)
                   (next_sts sts (quant_call inv base ch pcm)) = false).
    { destruct (existsb _ _) eqn:E; auto. apply existsb_exists in E. destruct E as ([|] & HI & HE); try discriminate.
      now apply next_sts_some in HI. }
    rewrite E0 in IH.
    specialize (B ltac:(apply Forall_forall; intros qs Hq; apply in_map_iff in Hq; destruct Hq as (c & <- & _);
      split; [apply quant_channel_i16|now apply zlen_quant_channel]) H3).
    specialize (IH ltac:(unfold zlen; rewrite length_next_sts; auto)
                   ltac:(destruct pcms; cbn; auto; intros X; now apply next_sts_some in X)).
    nia.
Qed.
