(** * Property C92: the Gaussian filter *)
From Coq Require Import ZArith List Bool Reals Lra Lia Psatz.
From Flocq Require Import Core Mult_error Relative IEEE754.BinarySingleNaN.
From Verif Require Import Model.Base Model.F32 Model.Gaussian Spec.Gaussian Proofs.BaseFacts Proofs.FloatFacts Proofs.ResampleFacts.
Import ListNotations.
Open Scope R_scope.

Local Instance vexp' : Valid_exp fexp32 := fexp_correct 24 128 prec_pos.

Lemma rnd_le x y : x <= y -> rnd32 x <= rnd32 y.
Proof. intros H. apply round_le; [exact _|apply valid_rnd_N|exact H]. Qed.
Lemma rnd_0 : rnd32 0 = 0.
Proof. apply round_0. apply valid_rnd_N. Qed.
Lemma rnd_pos x : 0 <= x -> 0 <= rnd32 x.
Proof. intros H. rewrite <- rnd_0. now apply rnd_le. Qed.
Lemma rnd_neg x : x <= 0 -> rnd32 x <= 0.
Proof. intros H. rewrite <- rnd_0. now apply rnd_le. Qed.
Lemma rnd_1 : rnd32 1 = 1.
Proof. apply (rnd_IZR 1). lia. Qed.
Lemma rnd_of_val (x : f32) : rnd32 (val x) = val x.
Proof. apply round_generic; [apply valid_rnd_N|apply format_val]. Qed.

Lemma b_lt x a k : Rabs x <= bpow radix2 a -> (a < k)%Z -> Rabs x < bpow radix2 k.
Proof. intros H L. eapply Rle_lt_trans; [exact H|]. now apply bpow_lt. Qed.

(** ** Casts keep the order *)
Lemma cast_R n : (0 <= n <= 2 ^ 63)%Z -> fin (f32_of_Z n) /\ val (f32_of_Z n) = rnd32 (IZR n).
Proof.
  intros H. assert (E : F2R (Float radix2 n 0) = IZR n).
  { unfold F2R. cbn [Fnum Fexp]. change (bpow radix2 0) with 1. ring. }
  assert (B : Rabs (IZR n) <= bpow radix2 63).
  { rewrite Rabs_pos_eq by (apply IZR_le; lia). change (bpow radix2 63) with (IZR (2 ^ 63)). apply IZR_le. lia. }
  pose proof (binary_normalize_correct 24 128 prec_pos prec_lt_emax mode_NE n 0 false) as C. cbv zeta in C.
  rewrite E in C. change (round radix2 (SpecFloat.fexp 24 128) (round_mode mode_NE)) with rnd32 in C.
  rewrite (no_overflow (IZR n) 64) in C; [|lia|eapply b_lt; [exact B|lia]].
  destruct C as (C1 & C2 & _). split; [exact C2|exact C1].
Qed.
Lemma cast_le a b : (0 <= a <= b)%Z -> (b <= 2 ^ 63)%Z -> val (f32_of_Z a) <= val (f32_of_Z b).
Proof.
  intros H B. rewrite (proj2 (cast_R a ltac:(lia))), (proj2 (cast_R b ltac:(lia))).
  apply rnd_le, IZR_le. lia.
Qed.

(** ** The positions *)
Definition share (n k : Z) : f32 := fdiv (f32_of_Z k) (f32_of_Z (n - 1)).
Lemma share_R n k : (2 <= n <= 2 ^ 63)%Z -> (0 <= k < n)%Z ->
  fin (share n k) /\ val (share n k) = rnd32 (val (f32_of_Z k) / val (f32_of_Z (n - 1))) /\ 0 <= val (share n k) <= 1.
Proof.
  intros Hn Hk. destruct (cast_any k) as (Fk & Bk & _); [lia|].
  destruct (cast_any (n - 1)) as (Fn & Bn & On); [lia|]. specialize (On ltac:(lia)).
  pose proof (cast_le k (n - 1) ltac:(lia) ltac:(lia)) as L.
  set (a := val (f32_of_Z k)) in *. set (b := val (f32_of_Z (n - 1))) in *.
  assert (Q : 0 <= a / b <= 1).
  { split; [apply Rmult_le_pos; [lra|left; apply Rinv_0_lt_compat; lra]|].
    apply Rmult_le_reg_r with b; [lra|]. unfold Rdiv. rewrite Rmult_assoc, Rinv_l by lra. lra. }
  destruct (fdiv_R (f32_of_Z k) (f32_of_Z (n - 1)) 1 Fk) as [F V]; [fold b; lra|lia| |].
  { fold a b. change (bpow radix2 1) with 2. rewrite Rabs_pos_eq; lra. }
  fold a b in V. split; [exact F|]. split; [exact V|]. unfold share. rewrite V.
  split; [now apply rnd_pos|]. rewrite <- rnd_1. now apply rnd_le.
Qed.
Definition double_share (n k : Z) : f32 := fmul (share n k) f2.
Lemma double_R n k : (2 <= n <= 2 ^ 63)%Z -> (0 <= k < n)%Z ->
  fin (double_share n k) /\ val (double_share n k) = rnd32 (val (share n k) * 2) /\ 0 <= val (double_share n k) <= 2.
Proof.
  intros Hn Hk. destruct (share_R n k Hn Hk) as (F & _ & B). destruct val_f2 as [F2' V2].
  destruct (fmul_R (share n k) f2 2 F F2') as [G V]; [lia| |].
  { rewrite V2, Rabs_pos_eq by lra. change (bpow radix2 2) with 4. lra. }
  rewrite V2 in V. split; [exact G|]. split; [exact V|]. unfold double_share. rewrite V.
  split; [apply rnd_pos; lra|]. apply Rle_trans with (rnd32 2); [apply rnd_le; lra|]. rewrite (rnd_IZR 2) by lia. lra.
Qed.
Section Filter.
Variables (n : Z) (sigma r : f32).
Hypotheses (Hn : (2 <= n <= 2 ^ 63)%Z) (Hm : moderate sigma r).
Lemma r_range : 0 <= val r <= bpow radix2 30.
Proof.
  destruct Hm as (_ & _ & [_ B] & C). change (B2R r) with (val r) in *.
  rewrite Rabs_pos_eq in B; auto.
Qed.
Definition reach (k : Z) : f32 := fmul (double_share n k) r.
Lemma reach_R k : (0 <= k < n)%Z ->
  fin (reach k) /\ val (reach k) = rnd32 (val (double_share n k) * val r) /\ 0 <= val (reach k) <= bpow radix2 31.
Proof.
  intros Hk. destruct (double_R n k Hn Hk) as (F & _ & B). pose proof r_range as R.
  destruct Hm as (_ & _ & [Fr _] & _).
  assert (E31 : bpow radix2 31 = 2 * bpow radix2 30) by (change 31%Z with (1 + 30)%Z; rewrite bpow_plus; reflexivity).
  assert (Q : 0 <= val (double_share n k) * val r <= bpow radix2 31) by (rewrite E31; nra).
  destruct (fmul_R (double_share n k) r 32 F Fr) as [G V]; [lia| |].
  { apply b_lt with 31%Z; [|lia]. rewrite Rabs_pos_eq; lra. }
  split; [exact G|]. split; [exact V|]. unfold reach. rewrite V. split; [apply rnd_pos; lra|].
  pose proof (rnd_bound (val (double_share n k) * val r) 31 ltac:(lia)) as K.
  rewrite Rabs_pos_eq in K by lra. specialize (K ltac:(lra)). eapply Rle_trans; [apply Rle_abs|exact K].
Qed.
Lemma position_R k : (0 <= k < n)%Z ->
  fin (gauss_position n r k) /\ val (gauss_position n r k) = rnd32 (val (reach k) - val r) /\
  Rabs (val (gauss_position n r k)) <= bpow radix2 31.
Proof.
  intros Hk. destruct (reach_R k Hk) as (F & _ & B). pose proof r_range as R.
  destruct Hm as (_ & _ & [Fr _] & _).
  assert (L : bpow radix2 30 <= bpow radix2 31) by (apply bpow_le; lia).
  assert (Q : Rabs (val (reach k) - val r) <= bpow radix2 31) by (apply Rabs_le; lra).
  destruct (fsub_R (reach k) r 32 F Fr) as [G V]; [lia|apply b_lt with 31%Z; [exact Q|lia]|].
  change (gauss_position n r k) with (fsub (reach k) r).
  split; [exact G|]. split; [exact V|]. rewrite V. apply rnd_bound; [lia|exact Q].
Qed.
Lemma position_grows i j : (0 <= i <= j)%Z -> (j < n)%Z ->
  val (gauss_position n r i) <= val (gauss_position n r j).
Proof.
  intros H L.
  rewrite (proj1 (proj2 (position_R i ltac:(lia)))), (proj1 (proj2 (position_R j ltac:(lia)))).
  apply rnd_le. apply Rplus_le_compat_r.
  rewrite (proj1 (proj2 (reach_R i ltac:(lia)))), (proj1 (proj2 (reach_R j ltac:(lia)))).
  apply rnd_le. apply Rmult_le_compat_r; [apply r_range|].
  rewrite (proj1 (proj2 (double_R n i Hn ltac:(lia)))), (proj1 (proj2 (double_R n j Hn ltac:(lia)))).
  apply rnd_le. apply Rmult_le_compat_r; [lra|].
  rewrite (proj1 (proj2 (share_R n i Hn ltac:(lia)))), (proj1 (proj2 (share_R n j Hn ltac:(lia)))).
  apply rnd_le. apply Rmult_le_compat_r; [|apply cast_le; lia].
  destruct (cast_any (n - 1)) as (_ & _ & On); [lia|]. left. apply Rinv_0_lt_compat.
  specialize (On ltac:(lia)). lra.
Qed.
Lemma position_first : val (gauss_position n r 0) = - val r.
Proof.
  destruct (position_R 0 ltac:(lia)) as (_ & -> & _).
  destruct (reach_R 0 ltac:(lia)) as (_ & -> & _).
  destruct (double_R n 0 Hn ltac:(lia)) as (_ & -> & _).
  destruct (share_R n 0 Hn ltac:(lia)) as (_ & -> & _).
  rewrite (proj2 (f32_of_Z_R 0 ltac:(lia))). unfold Rdiv. rewrite Rmult_0_l, rnd_0, Rmult_0_l, rnd_0, Rmult_0_l, rnd_0, Rminus_0_l.
  apply round_generic; [apply valid_rnd_N|]. apply generic_format_opp, format_val.
Qed.
Lemma position_last : val (gauss_position n r (n - 1)) = val r.
Proof.
  destruct (position_R (n - 1) ltac:(lia)) as (_ & -> & _).
  destruct (reach_R (n - 1) ltac:(lia)) as (_ & -> & _).
  destruct (double_R n (n - 1) Hn ltac:(lia)) as (_ & -> & _).
  destruct (share_R n (n - 1) Hn ltac:(lia)) as (_ & -> & _).
  destruct (cast_any (n - 1)) as (_ & _ & On); [lia|]. specialize (On ltac:(lia)).
  unfold Rdiv. rewrite Rinv_r by lra. rewrite rnd_1, Rmult_1_l, (rnd_IZR 2) by lia.
  assert (E : rnd32 (2 * val r) = 2 * val r).
  { apply round_generic; [apply valid_rnd_N|].
    pose proof (format_val r) as G. rewrite Rmult_comm. apply (mult_bpow_pos_exact_FLT radix2 (-149) 24 (val r) 1); [exact G|lia]. }
  rewrite E. replace (2 * val r - val r) with (val r) by ring. apply rnd_of_val.
Qed.

(** ** The scaled positions *)
Definition scaled (k : Z) : f32 := fdiv (gauss_position n r k) sigma.
Lemma scaled_pos k : (0 <= k < n)%Z ->
  number 61 (scaled k) /\ val (scaled k) = rnd32 (val (gauss_position n r k) / val sigma).
Proof.
  intros Hk. destruct (position_R k Hk) as (F & _ & B). destruct Hm as ([Fs _] & L & _).
  change (B2R sigma) with (val sigma) in L. pose proof (bpow_gt_0 radix2 (-30)) as P30.
  assert (Q : Rabs (val (gauss_position n r k) / val sigma) <= bpow radix2 61).
  { unfold Rdiv. rewrite Rabs_mult, (Rabs_pos_eq (/ _)) by (left; apply Rinv_0_lt_compat; lra).
    change 61%Z with (31 + 30)%Z. rewrite bpow_plus. apply Rmult_le_compat; [apply Rabs_pos|left; apply Rinv_0_lt_compat; lra|exact B|].
    replace (bpow radix2 30) with (/ bpow radix2 (-30)) by (rewrite <- bpow_opp; reflexivity). apply Rinv_le; lra. }
  destruct (fdiv_R (gauss_position n r k) sigma 62 F) as [G V]; [lra|lia|apply b_lt with 61%Z; [exact Q|lia]|].
  split; [split; [exact G|]|exact V]. change (B2R (scaled k)) with (val (scaled k)). unfold scaled. rewrite V.
  apply rnd_bound; [lia|exact Q].
Qed.
Lemma scaled_size i j : (0 <= i < n)%Z -> (0 <= j < n)%Z ->
  Rabs (val (gauss_position n r i)) <= Rabs (val (gauss_position n r j)) -> Rabs (val (scaled i)) <= Rabs (val (scaled j)).
Proof.
  intros Hi Hj L. rewrite (proj2 (scaled_pos i Hi)), (proj2 (scaled_pos j Hj)).
  pose proof (fun x => round_NE_abs radix2 fexp32 x) as A. cbv beta in A. change (Znearest (fun x => negb (Z.even x))) with (round_mode mode_NE) in A. rewrite <- !A. apply rnd_le.
  unfold Rdiv. rewrite !Rabs_mult. apply Rmult_le_compat_r; [apply Rabs_pos|exact L].
Qed.
Lemma root_R : fin (fsqrt (fmul f2 f_3_141)) /\ 2 <= val (fsqrt (fmul f2 f_3_141)) <= 3.
Proof.
  assert (E : B2SF (fsqrt (fmul f2 f_3_141)) = SpecFloat.S754_finite false 10512569 (-22)) by (vm_compute; reflexivity).
  assert (F : is_finite (fsqrt (fmul f2 f_3_141)) = true) by (rewrite <- is_finite_SF_B2SF, E; reflexivity).
  split; [exact F|]. unfold val. rewrite <- SF2R_B2SF, E. unfold SF2R, F2R, cond_Zopp, Fnum, Fexp.
  change (bpow radix2 (-22)) with (/ IZR (2 ^ 22)). change (2 ^ 22)%Z with 4194304%Z. lra.
Qed.
Lemma coef_R : fin (gauss_coef sigma) /\ 0 <= val (gauss_coef sigma) <= bpow radix2 30.
Proof.
  destruct Hm as ([Fs Bs] & L & _). change (B2R sigma) with (val sigma) in *.
  destruct root_R as [Fc Bc]. set (c := fsqrt (fmul f2 f_3_141)) in *.
  pose proof (bpow_gt_0 radix2 (-30)) as P30.
  rewrite Rabs_pos_eq in Bs by lra.
  assert (E32 : bpow radix2 32 = 4 * bpow radix2 30) by (change 32%Z with (2 + 30)%Z; rewrite bpow_plus; reflexivity).
  assert (Q : bpow radix2 (-30) <= val sigma * val c <= bpow radix2 32) by (rewrite E32; nra).
  destruct (fmul_R sigma c 33 Fs Fc) as [Fd Vd]; [lia|apply b_lt with 32%Z; [rewrite Rabs_pos_eq; lra|lia]|].
  assert (D : bpow radix2 (-30) <= val (fmul sigma c)).
  { rewrite Vd. apply round_ge_generic; [exact _|apply valid_rnd_N|apply generic_format_bpow; unfold fexp32, SpecFloat.fexp, SpecFloat.emin; lia|lra]. }
  destruct val_f1 as [F1 V1].
  assert (I : 0 <= 1 / val (fmul sigma c) <= bpow radix2 30).
  { unfold Rdiv. rewrite Rmult_1_l. split; [left; apply Rinv_0_lt_compat; lra|].
    replace (bpow radix2 30) with (/ bpow radix2 (-30)) by (rewrite <- bpow_opp; reflexivity). apply Rinv_le; lra. }
  destruct (fdiv_R f1 (fmul sigma c) 31 F1) as [G V]; [lra|lia|rewrite V1; apply b_lt with 30%Z; [rewrite Rabs_pos_eq; lra|lia]|].
  unfold gauss_coef. fold c. split; [exact G|]. rewrite V, V1. split; [apply rnd_pos; lra|].
  pose proof (rnd_bound (1 / val (fmul sigma c)) 30 ltac:(lia)) as K. rewrite Rabs_pos_eq in K by lra.
  eapply Rle_trans; [apply Rle_abs|apply K; lra].
Qed.
Variables (square exp : f32 -> f32).
Hypotheses (Hs : good_square square) (He : good_exp exp).
Definition exponent (k : Z) : f32 := fmul (flit (-1) (-1)) (square (scaled k)).
Lemma minus_half : fin (flit (-1) (-1)) /\ val (flit (-1) (-1)) = - / 2.
Proof.
  assert (E : F2R (Float radix2 (-1) (-1)) = - / 2) by (unfold F2R; cbn; lra).
  rewrite <- E. apply flit_R; [lia|lia|]. rewrite E. rewrite Rabs_Ropp, Rabs_pos_eq by lra.
  apply Rlt_le_trans with (bpow radix2 1); [change (bpow radix2 1) with 2; lra|apply bpow_le; lia].
Qed.
Lemma exponent_R k : (0 <= k < n)%Z ->
  number 123 (exponent k) /\ val (exponent k) <= 0 /\ val (exponent k) = rnd32 (- / 2 * val (square (scaled k))).
Proof.
  intros Hk. destruct (scaled_pos k Hk) as [N _]. destruct (sq_number _ Hs _ N) as [[F B] S].
  change (B2R (square (scaled k))) with (val (square (scaled k))) in *.
  destruct minus_half as [Fh Vh].
  assert (Q : Rabs (- / 2 * val (square (scaled k))) <= bpow radix2 123).
  { rewrite Rabs_mult, Rabs_Ropp, (Rabs_pos_eq (/ 2)) by lra. pose proof (Rabs_pos (val (square (scaled k)))). lra. }
  destruct (fmul_R (flit (-1) (-1)) (square (scaled k)) 124 Fh F) as [G V]; [lia|rewrite Vh; apply b_lt with 123%Z; [exact Q|lia]|].
  rewrite Vh in V. fold (exponent k) in G, V.
  split; [split; [exact G|]|split; [|exact V]].
  - change (B2R (exponent k)) with (val (exponent k)). rewrite V. apply rnd_bound; [lia|exact Q].
  - rewrite V. apply rnd_neg. lra.
Qed.
Lemma tap_R k : (0 <= k < n)%Z ->
  fin (gauss_tap square exp n sigma r k) /\
  0 <= val (gauss_tap square exp n sigma r k) <= val (gauss_coef sigma) /\
  val (gauss_tap square exp n sigma r k) = rnd32 (val (gauss_coef sigma) * val (exp (exponent k))).
Proof.
  intros Hk. destruct (exponent_R k Hk) as (N & S & _). destruct (exp_number _ He _ N S) as [F B].
  change (B2R (exp (exponent k))) with (val (exp (exponent k))) in *.
  destruct coef_R as [Fc Bc].
  assert (Q : 0 <= val (gauss_coef sigma) * val (exp (exponent k)) <= val (gauss_coef sigma)) by nra.
  destruct (fmul_R (gauss_coef sigma) (exp (exponent k)) 31 Fc F) as [G V]; [lia|apply b_lt with 30%Z; [rewrite Rabs_pos_eq; lra|lia]|].
  change (gauss_tap square exp n sigma r k) with (fmul (gauss_coef sigma) (exp (exponent k))).
  split; [exact G|]. split; [|exact V]. rewrite V. split; [apply rnd_pos; lra|].
  rewrite <- (rnd_of_val (gauss_coef sigma)) at 2. apply rnd_le. lra.
Qed.
Lemma tap_order i j : (0 <= i < n)%Z -> (0 <= j < n)%Z ->
  Rabs (val (gauss_position n r i)) <= Rabs (val (gauss_position n r j)) ->
  val (gauss_tap square exp n sigma r j) <= val (gauss_tap square exp n sigma r i).
Proof.
  intros Hi Hj L. rewrite (proj2 (proj2 (tap_R i Hi))), (proj2 (proj2 (tap_R j Hj))). apply rnd_le.
  apply Rmult_le_compat_l; [apply coef_R|].
  destruct (exponent_R i Hi) as (Ni & Si & Vi). destruct (exponent_R j Hj) as (Nj & Sj & Vj).
  apply (exp_grows _ He _ _ Nj Ni); [|exact Si].
  change (val (exponent j) <= val (exponent i)). rewrite Vi, Vj. apply rnd_le.
  pose proof (sq_grows _ Hs _ _ (proj1 (scaled_pos i Hi)) (proj1 (scaled_pos j Hj)) (scaled_size i j Hi Hj L)) as G.
  change (val (square (scaled i)) <= val (square (scaled j))) in G. lra.
Qed.
(** Where the positions change sign. *)
Lemma middle m : (0 <= m < n)%Z ->
  exists k, (0 <= k <= m)%Z /\ (forall i, (0 <= i <= k)%Z -> val (gauss_position n r i) <= 0) /\
    (forall i, (k < i <= m)%Z -> 0 <= val (gauss_position n r i)).
Proof.
  intros H. assert (K : (0 <= m)%Z) by lia. revert H. pattern m. apply natlike_ind; [| |exact K]; clear m K.
  - intros _. exists 0%Z. split; [lia|]. split; intros i Hi; [|lia]. assert (i = 0)%Z by lia. subst i.
    rewrite position_first. pose proof r_range. lra.
  - intros m Hm0 IH H. destruct IH as (k & Hk & A & B); [lia|].
    destruct (Rle_lt_dec (val (gauss_position n r (Z.succ m))) 0) as [L|L].
    + exists (Z.succ m). split; [lia|]. split; intros i Hi; [|lia].
      eapply Rle_trans; [apply position_grows with (j := Z.succ m); lia|exact L].
    + exists k. split; [lia|]. split; [exact A|]. intros i Hi.
      destruct (Z.eq_dec i (Z.succ m)) as [->|]; [lra|apply B; lia].
Qed.
End Filter.

Lemma tap_of square exp n sigma r k : (0 <= k < n)%Z ->
  nth (Z.to_nat k) (gaussian_filter square exp n sigma r) B754_nan = gauss_tap square exp n sigma r k.
Proof.
  intros H. unfold gaussian_filter. 
  rewrite (nth_indep _ B754_nan (gauss_tap square exp n sigma r 0)).
  - rewrite map_nth. f_equal. apply nth_range. lia.
  - rewrite map_length. unfold range. rewrite map_length, seq_length. lia.
Qed.

(** ** C92 *)
(** The filter always has the asked number of taps. *)
Theorem C92_length : forall square exp n sigma r, (0 <= n)%Z -> zlen (gaussian_filter square exp n sigma r) = n.
Proof. intros. unfold gaussian_filter, zlen, range. rewrite !map_length, seq_length. lia. Qed.
Print Assumptions C92_length.

(** Every tap of a filter of two or more is a number from zero to the peak [1 / (sigma sqrt (2 * 3.141))];
    the first and the last tap are the same; and the taps rise up to some place and fall after it. *)
Theorem C92_bell : forall square exp n sigma r,
  good_square square -> good_exp exp -> (2 <= n <= 2 ^ 63)%Z -> moderate sigma r ->
  let tap k := nth (Z.to_nat k) (gaussian_filter square exp n sigma r) B754_nan in
  (forall k, (0 <= k < n)%Z -> is_finite (tap k) = true /\ 0 <= B2R (tap k) <= B2R (gauss_coef sigma)) /\
  tap 0%Z = tap (n - 1)%Z /\
  exists m, (0 <= m < n)%Z /\
    (forall i j, (0 <= i <= j)%Z -> (j <= m)%Z -> B2R (tap i) <= B2R (tap j)) /\
    (forall i j, (m < i <= j)%Z -> (j < n)%Z -> B2R (tap j) <= B2R (tap i)).
Proof.
  intros square exp n sigma r Hs He Hn Hm tap.
  assert (T : forall k, (0 <= k < n)%Z -> tap k = gauss_tap square exp n sigma r k) by (intros; now apply tap_of).
  split; [|split].
  - intros k Hk. rewrite T by lia. destruct (tap_R n sigma r Hn Hm square exp Hs He k Hk) as (A & B & _). auto.
  - rewrite !T by lia. unfold gauss_tap.
    assert (E : square (fdiv (gauss_position n r 0) sigma) = square (fdiv (gauss_position n r (n - 1)) sigma)); [|now rewrite E].
    assert (L : Rabs (val (gauss_position n r 0)) = Rabs (val (gauss_position n r (n - 1)))).
    { rewrite (position_first n sigma r Hn Hm), (position_last n sigma r Hn Hm). apply Rabs_Ropp. }
    apply (sq_even _ Hs).
    + apply (scaled_pos n sigma r Hn Hm 0). lia.
    + apply (scaled_pos n sigma r Hn Hm (n - 1)). lia.
    + apply Rle_antisym; apply (scaled_size n sigma r Hn Hm); try lia; rewrite L; apply Rle_refl.
  - destruct (middle n sigma r Hn Hm (n - 1)) as (m & Hk & A & B); [lia|].
    exists m. split; [lia|]. split; intros i j Hi Hj; rewrite !T by lia; apply (tap_order n sigma r Hn Hm square exp Hs He); try lia.
    + pose proof (A i ltac:(lia)). pose proof (A j ltac:(lia)).
      pose proof (position_grows n sigma r Hn Hm i j ltac:(lia) ltac:(lia)).
      rewrite !Rabs_left1 by assumption. lra.
    + pose proof (B i ltac:(lia)). pose proof (B j ltac:(lia)).
      pose proof (position_grows n sigma r Hn Hm i j ltac:(lia) ltac:(lia)).
      rewrite !Rabs_pos_eq by assumption. lra.
Qed.
Print Assumptions C92_bell.

(** A filter of one tap is not a number, whatever the parameters: the code divides zero by zero. *)
Theorem C92_one_tap : forall square exp sigma r,
  square B754_nan = B754_nan -> exp B754_nan = B754_nan ->
  gaussian_filter square exp 1 sigma r = [B754_nan].
Proof.
  intros square exp sigma r Hs He. unfold gaussian_filter. change (range 1) with [0%Z]. unfold map, gauss_tap, gauss_position.
  replace (fdiv (f32_of_Z 0) (f32_of_Z (1 - 1))) with (B754_nan : f32)
    by (apply B2SF_inj; vm_compute; reflexivity).
  replace (fmul (B754_nan : f32) f2) with (B754_nan : f32) by reflexivity.
  replace (fmul (B754_nan : f32) r) with (B754_nan : f32) by (destruct r; reflexivity).
  replace (fsub (B754_nan : f32) r) with (B754_nan : f32) by (destruct r; reflexivity).
  replace (fdiv (B754_nan : f32) sigma) with (B754_nan : f32) by (destruct sigma; reflexivity).
  rewrite Hs. replace (fmul (flit (-1) (-1)) (B754_nan : f32)) with (B754_nan : f32) by (apply B2SF_inj; vm_compute; reflexivity).
  rewrite He. destruct (gauss_coef sigma); reflexivity.
Qed.
Print Assumptions C92_one_tap.

(** ** The peak *)
Lemma rel x : bpow radix2 (-126) <= Rabs x -> exists e, Rabs e <= / 16777216 /\ rnd32 x = x * (1 + e).
Proof.
  intros H. destruct (relative_error_N_FLT_ex radix2 (-149) 24 ltac:(lia) (fun x => negb (Z.even x)) x) as (e & He & E); [exact H|].
  exists e. split; [|exact E]. eapply Rle_trans; [exact He|]. change (bpow radix2 (- (24) + 1)) with (/ 8388608). lra.
Qed.
Lemma root_close : exists e, Rabs e <= / 8388608 /\ val (fsqrt (fmul f2 f_3_141)) = sqrt (2 * (3141 / 1000)) * (1 + e).
Proof.
  assert (V : val (fsqrt (fmul f2 f_3_141)) = 10512569 / 4194304).
  { assert (E : B2SF (fsqrt (fmul f2 f_3_141)) = SpecFloat.S754_finite false 10512569 (-22)) by (vm_compute; reflexivity).
    unfold val. rewrite <- SF2R_B2SF, E. unfold SF2R, F2R, cond_Zopp, Fnum, Fexp.
    change (bpow radix2 (-22)) with (/ IZR (2 ^ 22)). change (2 ^ 22)%Z with 4194304%Z. reflexivity. }
  rewrite V. set (q := sqrt (2 * (3141 / 1000))).
  assert (Q : q * q = 6282 / 1000) by (unfold q; rewrite sqrt_sqrt by lra; lra).
  assert (Q0 : 0 <= q) by apply sqrt_pos.
  set (c := 10512569 / 4194304).
  assert (Lo : q * (1 - / 8388608) <= c).
  { apply Rsqr_incr_0_var; [|unfold c; lra]. unfold Rsqr.
    replace (q * (1 - / 8388608) * (q * (1 - / 8388608))) with (q * q * ((1 - / 8388608) * (1 - / 8388608))) by ring.
    rewrite Q. unfold c. lra. }
  assert (Hi : c <= q * (1 + / 8388608)).
  { apply Rsqr_incr_0_var; [|nra]. unfold Rsqr.
    replace (q * (1 + / 8388608) * (q * (1 + / 8388608))) with (q * q * ((1 + / 8388608) * (1 + / 8388608))) by ring.
    rewrite Q. unfold c. lra. }
  assert (P : 0 < q) by nra.
  exists (c / q - 1). split; [|field; lra].
  apply Rabs_le. split.
  - apply Rmult_le_reg_r with q; [exact P|]. unfold Rdiv. rewrite Rmult_minus_distr_r, Rmult_assoc, Rinv_l by lra. lra.
  - apply Rmult_le_reg_r with q; [exact P|]. unfold Rdiv. rewrite Rmult_minus_distr_r, Rmult_assoc, Rinv_l by lra. lra.
Qed.
(** The peak is the height of the density, [1 / (sigma sqrt (2 * 3.141))], to one part in two million. *)
Theorem C92_peak : forall sigma r, moderate sigma r ->
  let height := 1 / (B2R sigma * sqrt (2 * (3141 / 1000))) in
  Rabs (B2R (gauss_coef sigma) - height) <= height / 2097152.
Proof.
  intros sigma r Hm height. destruct Hm as ([Fs Bs] & L & _). change (B2R sigma) with (val sigma) in *.
  change (B2R (gauss_coef sigma)) with (val (gauss_coef sigma)).
  destruct root_R as [Fc Bc]. destruct root_close as (e0 & E0 & Vc). unfold gauss_coef.
  set (c := fsqrt (fmul f2 f_3_141)) in *. set (q := sqrt (2 * (3141 / 1000))) in *.
  pose proof (bpow_gt_0 radix2 (-30)) as P30.
  rewrite Rabs_pos_eq in Bs by lra.
  assert (E32 : bpow radix2 32 = 4 * bpow radix2 30) by (change 32%Z with (2 + 30)%Z; rewrite bpow_plus; reflexivity).
  assert (Q : bpow radix2 (-30) <= val sigma * val c <= bpow radix2 32) by (rewrite E32; nra).
  destruct (fmul_R sigma c 33 Fs Fc) as [Fd Vd]; [lia|apply b_lt with 32%Z; [rewrite Rabs_pos_eq; lra|lia]|].
  destruct (rel (val sigma * val c)) as (e1 & E1 & R1).
  { rewrite Rabs_pos_eq by lra. eapply Rle_trans; [|apply Q]. apply bpow_le. lia. }
  assert (D : bpow radix2 (-30) <= val (fmul sigma c) <= bpow radix2 32).
  { rewrite Vd. split; [apply round_ge_generic|apply round_le_generic]; try exact _; try apply valid_rnd_N; try lra;
    apply generic_format_bpow; unfold fexp32, SpecFloat.fexp, SpecFloat.emin; lia. }
  rewrite R1 in Vd. destruct val_f1 as [F1 V1].
  assert (I : bpow radix2 (-32) <= 1 / val (fmul sigma c) <= bpow radix2 30).
  { unfold Rdiv. rewrite Rmult_1_l. split.
    - replace (bpow radix2 (-32)) with (/ bpow radix2 32) by (rewrite <- bpow_opp; reflexivity). apply Rinv_le; lra.
    - replace (bpow radix2 30) with (/ bpow radix2 (-30)) by (rewrite <- bpow_opp; reflexivity). apply Rinv_le; lra. }
  pose proof (bpow_gt_0 radix2 (-32)) as P32.
  destruct (fdiv_R f1 (fmul sigma c) 31 F1) as [G V]; [lra|lia|rewrite V1; apply b_lt with 30%Z; [rewrite Rabs_pos_eq; lra|lia]|].
  rewrite V1 in V. destruct (rel (1 / val (fmul sigma c))) as (e2 & E2 & R2).
  { rewrite Rabs_pos_eq by lra. eapply Rle_trans; [|apply I]. apply bpow_le. lia. }
  rewrite R2 in V. rewrite V, Vd, Vc.
  apply Rabs_le_inv in E0. apply Rabs_le_inv in E1. apply Rabs_le_inv in E2.
  assert (Pq : 0 < q) by (apply sqrt_lt_R0; lra). assert (Ps : 0 < val sigma) by lra.
  assert (Hh : 0 < height).
  { unfold height. fold q. apply Rdiv_lt_0_compat; [lra|]. apply Rmult_lt_0_compat; lra. }
  set (d := (1 + e0) * (1 + e1)).
  assert (Bd : 1 - 31 / 100000000 * (60 / 100) <= d <= 1 + 31 / 100000000 * (60 / 100)) by (unfold d; split; nra).
  assert (K : 1 / (val sigma * (q * (1 + e0)) * (1 + e1)) * (1 + e2) - 1 / (val sigma * q) = 1 / (val sigma * q) * ((1 + e2 - d) / d)).
  { unfold d. field. repeat split; lra. }
  change (1 / (val sigma * q)) with height in K. rewrite K. unfold Rdiv at 2. rewrite Rabs_mult, (Rabs_pos_eq height) by lra.
  apply Rmult_le_compat_l; [lra|]. apply Rabs_le. split.
  - apply Rmult_le_reg_r with d; [lra|]. unfold Rdiv. rewrite Rmult_assoc, Rinv_l by lra. lra.
  - apply Rmult_le_reg_r with d; [lra|]. unfold Rdiv. rewrite Rmult_assoc, Rinv_l by lra. lra.
Qed.
Print Assumptions C92_peak.

(** ** The hypotheses can be met *)
Definition by_itself (x : f32) : f32 := fmul x x.
(** A ramp from zero at -1 to one at 0. *)
Definition ramp (x : f32) : f32 := if flt x fm1 then f0 else fadd f1 x.
Lemma by_itself_R x : number 61 x -> fin (by_itself x) /\ val (by_itself x) = rnd32 (val x * val x) /\
  0 <= val x * val x <= bpow radix2 122 /\ Bsign (by_itself x) = false.
Proof.
  intros [F B]. change (B2R x) with (val x) in B.
  assert (Q : 0 <= val x * val x <= bpow radix2 122).
  { split; [nra|]. rewrite <- (Rabs_pos_eq (val x * val x)) by nra. rewrite Rabs_mult.
    change 122%Z with (61 + 61)%Z. rewrite bpow_plus. apply Rmult_le_compat; auto using Rabs_pos. }
  pose proof (Bmult_correct 24 128 prec_pos prec_lt_emax mode_NE x x) as C.
  change (round radix2 (SpecFloat.fexp 24 128) (round_mode mode_NE)) with rnd32 in C.
  fold (val x) in C. rewrite (no_overflow (val x * val x) 123) in C; [|lia|apply b_lt with 122%Z; [rewrite Rabs_pos_eq; lra|lia]].
  destruct C as (C1 & C2 & C3). rewrite F in C2. split; [exact C2|]. split; [exact C1|]. split; [exact Q|].
  fold (fmul x x) in C2, C3. unfold by_itself. rewrite C3; [apply xorb_nilpotent|].
  destruct (fmul x x); try reflexivity; discriminate C2.
Qed.
Lemma by_itself_good : good_square by_itself.
Proof.
  split.
  - intros x N. destruct (by_itself_R x N) as (F & V & Q & _).
    change (B2R (by_itself x)) with (val (by_itself x)). split; [split; [exact F|]|]; change (B2R (by_itself x)) with (val (by_itself x)); rewrite V.
    + apply rnd_bound; [lia|]. rewrite Rabs_pos_eq by lra. eapply Rle_trans; [apply Q|apply bpow_le; lia].
    + apply rnd_pos. lra.
  - intros x y Nx Ny E. destruct (by_itself_R x Nx) as (Fx & Vx & _ & Sx). destruct (by_itself_R y Ny) as (Fy & Vy & _ & Sy).
    apply B2R_Bsign_inj; auto; [|congruence].
    change (val (by_itself x) = val (by_itself y)). rewrite Vx, Vy. f_equal.
    change (Rabs (val x) = Rabs (val y)) in E.
    rewrite <- (Rabs_pos_eq (val x * val x)), <- (Rabs_pos_eq (val y * val y)) by nra. rewrite !Rabs_mult, E. reflexivity.
  - intros x y Nx Ny L. destruct (by_itself_R x Nx) as (Fx & Vx & _ & Sx). destruct (by_itself_R y Ny) as (Fy & Vy & _ & Sy).
    change (val (by_itself x) <= val (by_itself y)). rewrite Vx, Vy. apply rnd_le.
    change (Rabs (val x) <= Rabs (val y)) in L.
    rewrite <- (Rabs_pos_eq (val x * val x)), <- (Rabs_pos_eq (val y * val y)) by nra. rewrite !Rabs_mult.
    apply Rmult_le_compat; auto using Rabs_pos.
Qed.
Lemma ramp_R x : fin x -> val x <= 0 -> fin (ramp x) /\ val (ramp x) = rnd32 (Rmax 0 (1 + val x)).
Proof.
  intros F S. destruct val_fm1 as [Fm Vm]. destruct val_f1 as [F1 V1]. unfold ramp. rewrite (flt_R x fm1 F Fm), Vm.
  destruct (Rlt_bool_spec (val x) (-1)) as [L|L].
  - rewrite Rmax_left by lra. rewrite rnd_0. apply (f32_of_Z_R 0). lia.
  - rewrite Rmax_right by lra. rewrite <- V1. apply (fadd_R f1 x 1); auto; [lia|].
    rewrite V1, Rabs_pos_eq by lra. change (bpow radix2 1) with 2. lra.
Qed.
Lemma ramp_good : good_exp ramp.
Proof.
  split.
  - intros x [F _] S. destruct (ramp_R x F S) as [G V]. split; [exact G|]. change (B2R (ramp x)) with (val (ramp x)). rewrite V.
    change (B2R x) with (val x) in S. split; [apply rnd_pos, Rmax_l|]. apply Rle_trans with (rnd32 1); [apply rnd_le, Rmax_lub; lra|]. rewrite rnd_1. lra.
  - intros x y [Fx _] [Fy _] L S. change (val (ramp x) <= val (ramp y)). change (val x <= val y) in L. change (val y <= 0) in S.
    rewrite (proj2 (ramp_R x Fx ltac:(lra))), (proj2 (ramp_R y Fy S)). apply rnd_le.
    apply Rle_max_compat_l. lra.
Qed.
Lemma unit_moderate : moderate f1 f1.
Proof.
  destruct val_f1 as [F V]. unfold moderate, number. change (B2R f1) with (val f1). rewrite V.
  assert (N : is_finite f1 = true /\ Rabs 1 <= bpow radix2 30).
  { split; [exact F|]. rewrite Rabs_pos_eq by lra. change 1 with (bpow radix2 0). apply bpow_le. lia. }
  split; [exact N|]. split; [|split; [exact N|lra]]. change 1 with (bpow radix2 0). apply bpow_le. lia.
Qed.
(** Five taps with sigma and radius one: they meet the hypotheses, and the bell is not flat. *)
Example C92_applies :
  good_square by_itself /\ good_exp ramp /\ moderate f1 f1 /\
  map (fun x => f32_as_i64 (fmul x f1000)) (gaussian_filter by_itself ramp 5 f1 f1) = [199; 349; 398; 349; 199]%Z.
Proof.
  split; [exact by_itself_good|]. split; [exact ramp_good|]. split; [exact unit_moderate|]. vm_compute. reflexivity.
Qed.
(** The taps between the ends need not mirror each other, though a Gaussian is even: with four taps the second
    and the third differ. *)
Theorem C92_mirror_refuted : exists square exp n sigma r k,
  good_square square /\ good_exp exp /\ (2 <= n <= 2 ^ 63)%Z /\ moderate sigma r /\ (0 <= k < n)%Z /\
  nth (Z.to_nat k) (gaussian_filter square exp n sigma r) B754_nan <>
  nth (Z.to_nat (n - 1 - k)) (gaussian_filter square exp n sigma r) B754_nan.
Proof.
  exists by_itself, ramp, 4%Z, f1, f1, 1%Z.
  split; [exact by_itself_good|]. split; [exact ramp_good|]. split; [lia|]. split; [exact unit_moderate|]. split; [lia|].
  intros E. apply (f_equal (@B2SF 24 128)) in E. vm_compute in E. discriminate E.
Qed.
Print Assumptions C92_mirror_refuted.
