(** * How far from the exact time a seek lands *)
From Coq Require Import ZArith Bool Reals Lra Lia Psatz.
From Flocq Require Import Core IEEE754.BinarySingleNaN.
From Verif Require Import Model.Base Model.F32 Model.Sample Spec.Seeking Proofs.BaseFacts Proofs.FloatFacts Proofs.SeekTarget Proofs.WavSeek.
Open Scope R_scope.

Local Notation u := (/ 16777216).
Lemma rnd_between x : / 1000000 <= x -> x * (1 - u) <= rnd32 x <= x * (1 + u).
Proof.
  intros H. assert (N : bpow radix2 (-126) <= Rabs x).
  { rewrite Rabs_nn by lra. apply Rle_trans with (bpow radix2 (-20)); [apply bpow_le; lia|]. change (bpow radix2 (-20)) with (/ 1048576). lra. }
  pose proof (rnd_rel x N) as E. change (bpow radix2 (-24)) with u in E. rewrite (Rabs_nn x) in E by lra. apply Rabs_le_inv in E. lra.
Qed.
Lemma rnd_mono x y : x <= y -> rnd32 x <= rnd32 y.
Proof. intros H. apply round_le; [exact (fexp_correct 24 128 prec_pos)|exact _|exact H]. Qed.

(** One rounding for each number above 2^24, one for the quotient, one for the product. *)
Lemma value_between k a b r m : 1 <= r -> 1 <= m -> 0 <= k <= u ->
  r * (1 - k) <= a <= r * (1 + k) -> m * (1 - k) <= b <= m * (1 + k) ->
  let x := r * m / 1000 in let v := rnd32 (rnd32 (a / 1000) * b) in
  x * ((1 - k) * (1 - k) * ((1 - u) * (1 - u))) <= v <= x * ((1 + k) * (1 + k) * ((1 + u) * (1 + u))).
Proof.
  intros Hr Hm Hk Ha Hb x v.
  assert (A : / 2 <= a) by nra. assert (B : / 2 <= b) by nra.
  destruct (rnd_between (a / 1000)) as [Q1 Q2]; [lra|]. set (q := rnd32 (a / 1000)) in *.
  assert (Qa : r / 1000 * ((1 - k) * (1 - u)) <= q).
  { eapply Rle_trans; [|exact Q1]. unfold Rdiv. replace (r * / 1000 * ((1 - k) * (1 - u))) with (r * (1 - k) * / 1000 * (1 - u)) by ring. nra. }
  assert (Qb : q <= r / 1000 * ((1 + k) * (1 + u))).
  { eapply Rle_trans; [exact Q2|]. unfold Rdiv. replace (r * / 1000 * ((1 + k) * (1 + u))) with (r * (1 + k) * / 1000 * (1 + u)) by ring. nra. }
  assert (Q0 : / 4000 <= q) by nra.
  destruct (rnd_between (q * b)) as [V1 V2]; [nra|].
  assert (P1 : r / 1000 * ((1 - k) * (1 - u)) * (m * (1 - k)) <= q * b).
  { apply Rmult_le_compat; try lra; [|nra]. apply Rmult_le_pos; [lra|]. nra. }
  assert (P2 : q * b <= r / 1000 * ((1 + k) * (1 + u)) * (m * (1 + k))) by (apply Rmult_le_compat; lra).
  unfold v, x. split.
  - eapply Rle_trans; [|exact V1]. eapply Rle_trans; [|apply Rmult_le_compat_r; [lra|exact P1]]. right. field.
  - eapply Rle_trans; [exact V2|]. eapply Rle_trans; [apply Rmult_le_compat_r; [lra|exact P2]|]. right. field.
Qed.

Lemma target_floor info ms : (0 <= si_rate info < 2 ^ 32)%Z -> (0 <= ms < 2 ^ 64)%Z -> (target_block info ms < 2 ^ 64 - 1)%Z ->
  IZR (target_block info ms) <= ms_value info ms < IZR (target_block info ms) + 1.
Proof.
  intros Hr Hm Ht. rewrite target_R in * by lia. pose proof (ms_value_nonneg info ms ltac:(lia) ltac:(lia)) as V.
  rewrite Ztrunc_floor in * by exact V. assert (F0 : (0 <= Zfloor (ms_value info ms))%Z) by (apply Zfloor_lub; exact V).
  rewrite zclamp_eq in * by lia. replace (Z.max 0 (Z.min (2 ^ 64 - 1) (Zfloor (ms_value info ms))))%Z with (Zfloor (ms_value info ms)) in * by lia.
  split; [apply Zfloor_lb|apply Zfloor_ub].
Qed.

Lemma value_0 info ms : si_rate info = 0%Z \/ ms = 0%Z -> ms_value info ms = 0.
Proof.
  assert (Z0 : rnd32 0 = 0) by (apply round_0; exact _).
  intros [H|H]; unfold ms_value; rewrite H.
  - rewrite Z0. replace (0 / 1000) with 0 by field. rewrite Z0, Rmult_0_l. exact Z0.
  - rewrite Z0, Rmult_0_r. exact Z0.
Qed.
Lemma error_of_bounds (N : positive) info ms lo hi : (0 <= si_rate info < 2 ^ 32)%Z -> (0 <= ms < 2 ^ 64)%Z -> (target_block info ms < 2 ^ 64 - 1)%Z ->
  1 - / IZR (Zpos N) <= lo -> hi <= 1 + / IZR (Zpos N) ->
  (let x := IZR (si_rate info) * IZR ms / 1000 in (1 <= si_rate info)%Z -> (1 <= ms)%Z -> x * lo <= ms_value info ms <= x * hi) ->
  (Zpos N * (1000 * target_block info ms - si_rate info * ms) <= si_rate info * ms /\ Zpos N * (si_rate info * ms - 1000 * target_block info ms) <= Zpos N * 1000 + si_rate info * ms)%Z.
Proof.
  intros Hr Hm Ht L H B. pose proof (target_floor info ms Hr Hm Ht) as T. set (t := target_block info ms) in *.
  assert (NP : 1 <= IZR (Zpos N)) by (apply IZR_le; lia).
  destruct (Z.eq_dec (si_rate info) 0) as [E|E]; [|destruct (Z.eq_dec ms 0) as [E'|E']].
  - rewrite value_0 in T by auto. assert (t = 0)%Z as -> by (destruct T as [T1 T2]; apply le_IZR in T1; rewrite <- plus_IZR in T2; apply lt_IZR in T2; lia). rewrite E. lia.
  - rewrite value_0 in T by auto. assert (t = 0)%Z as -> by (destruct T as [T1 T2]; apply le_IZR in T1; rewrite <- plus_IZR in T2; apply lt_IZR in T2; lia). rewrite E'. lia.
  - specialize (B ltac:(lia) ltac:(lia)). cbv zeta in B.
    set (r := IZR (si_rate info)) in *. set (m := IZR ms) in *. set (v := ms_value info ms) in *. set (n := IZR (Zpos N)) in *.
    assert (R1 : 1 <= r) by (apply IZR_le; lia). assert (M1 : 1 <= m) by (apply IZR_le; lia).
    assert (X0 : 1 <= r * m) by nra.
    assert (I : n * / n = 1) by (field; lra).
    assert (U : n * (1000 * IZR t - r * m) <= r * m).
    { assert (1000 * IZR t <= r * m * hi) by lra. assert (r * m * hi <= r * m * (1 + / n)) by (apply Rmult_le_compat_l; lra). nra. }
    assert (D : n * (r * m - 1000 * IZR t) <= n * 1000 + r * m).
    { assert (r * m * lo < 1000 * IZR t + 1000) by lra. assert (r * m * (1 - / n) <= r * m * lo) by (apply Rmult_le_compat_l; lra). nra. }
    unfold n, r, m in U, D. repeat rewrite <- ?mult_IZR, <- ?minus_IZR, <- ?plus_IZR in U. repeat rewrite <- ?mult_IZR, <- ?minus_IZR, <- ?plus_IZR in D. apply le_IZR in U. apply le_IZR in D. lia.
Qed.
Lemma target_error info ms : (0 <= si_rate info < 2 ^ 32)%Z -> (0 <= ms < 2 ^ 64)%Z -> (target_block info ms < 2 ^ 64 - 1)%Z ->
  (4000000 * (1000 * target_block info ms - si_rate info * ms) <= si_rate info * ms /\ 4000000 * (si_rate info * ms - 1000 * target_block info ms) <= 4000000 * 1000 + si_rate info * ms)%Z.
Proof.
  intros Hr Hm Ht. apply (error_of_bounds 4000000 info ms ((1 - u) * (1 - u) * ((1 - u) * (1 - u))) ((1 + u) * (1 + u) * ((1 + u) * (1 + u)))); auto; try lra.
  cbv zeta. intros R1 M1. apply IZR_le in R1. apply IZR_le in M1. apply (value_between u); try lra; apply rnd_between; lra.
Qed.
Lemma target_error_usual info ms : (0 <= si_rate info <= 2 ^ 24)%Z -> (0 <= ms <= 2 ^ 24)%Z ->
  (8000000 * (1000 * target_block info ms - si_rate info * ms) <= si_rate info * ms /\ 8000000 * (si_rate info * ms - 1000 * target_block info ms) <= 8000000 * 1000 + si_rate info * ms)%Z.
Proof.
  intros Hr Hm.
  assert (V : (1 <= si_rate info)%Z -> (1 <= ms)%Z ->
    IZR (si_rate info) * IZR ms / 1000 * ((1 - 0) * (1 - 0) * ((1 - u) * (1 - u))) <= ms_value info ms <=
    IZR (si_rate info) * IZR ms / 1000 * ((1 + 0) * (1 + 0) * ((1 + u) * (1 + u)))).
  { intros R1 M1. apply IZR_le in R1. apply IZR_le in M1. unfold ms_value. rewrite (rnd_IZR (si_rate info)), (rnd_IZR ms) by lia. apply (value_between 0); lra. }
  eapply (error_of_bounds 8000000 info ms); [lia|lia| | | |exact V]; try lra.
  rewrite target_R by lia.
  assert (B : ms_value info ms <= 562949953421312).
  { destruct (Z.eq_dec (si_rate info) 0) as [E|E]; [rewrite value_0 by auto; lra|]. destruct (Z.eq_dec ms 0) as [E'|E']; [rewrite value_0 by auto; lra|].
    destruct V as [_ V]; [lia|lia|]. eapply Rle_trans; [exact V|].
    assert (0 <= IZR (si_rate info) <= 16777216) by (split; apply IZR_le; lia). assert (0 <= IZR ms <= 16777216) by (split; apply IZR_le; lia).
    assert (IZR (si_rate info) * IZR ms <= 281474976710656) by nra. lra. }
  apply Ztrunc_le in B. rewrite (Ztrunc_IZR 562949953421312) in B. rewrite zclamp_eq by lia. lia.
Qed.

(** Later times and higher rates lead to later blocks. *)
Lemma target_mono info info' ms ms' : (0 <= si_rate info <= si_rate info')%Z -> (si_rate info' < 2 ^ 32)%Z -> (0 <= ms <= ms')%Z -> (ms' <= 2 ^ 64)%Z ->
  (target_block info ms <= target_block info' ms')%Z.
Proof.
  intros Hr Hr' Hm Hm'. rewrite !target_R by lia.
  assert (V : ms_value info ms <= ms_value info' ms').
  { unfold ms_value. apply rnd_mono. apply Rmult_le_compat.
    - apply rnd_nonneg. apply Rmult_le_pos; [|lra]. apply rnd_nonneg, IZR_le. lia.
    - apply rnd_nonneg, IZR_le. lia.
    - apply rnd_mono. apply Rmult_le_compat_r; [lra|]. apply rnd_mono, IZR_le. lia.
    - apply rnd_mono, IZR_le. lia. }
  apply Ztrunc_le in V. rewrite !zclamp_eq by lia. lia.
Qed.

(** Single precision has no odd numbers above 2^24. *)
Lemma target_grid info ms k : (0 <= si_rate info < 2 ^ 32)%Z -> (0 <= ms < 2 ^ 64)%Z -> (0 <= k)%Z ->
  (2 ^ (24 + k) <= target_block info ms < 2 ^ 64 - 1)%Z -> (2 ^ (k + 1) | target_block info ms)%Z.
Proof.
  intros Hr Hm Hk [Ht Ht']. pose proof (target_floor info ms Hr Hm Ht') as T. set (t := target_block info ms) in *. set (v := ms_value info ms) in *.
  assert (G : generic_format radix2 fexp32 v) by (unfold v, ms_value; apply generic_format_round; [exact (fexp_correct 24 128 prec_pos)|exact _]).
  assert (P : bpow radix2 (24 + k) <= v).
  { eapply Rle_trans; [|apply T]. rewrite <- IZR_Zpower by lia. apply IZR_le. exact Ht. }
  assert (M : (25 + k <= mag radix2 v)%Z).
  { apply mag_ge_bpow. replace (25 + k - 1)%Z with (24 + k)%Z by lia. rewrite Rabs_nn; [exact P|]. pose proof (bpow_ge_0 radix2 (24 + k)). lra. }
  unfold generic_format, scaled_mantissa, cexp in G. set (e := fexp32 (mag radix2 v)) in *.
  assert (E : (k + 1 <= e)%Z). { unfold e. rewrite fexp_le by lia. lia. }
  set (n := Ztrunc (v * bpow radix2 (- e))) in *. unfold F2R in G. cbn [Fnum Fexp] in G.
  rewrite <- (IZR_Zpower radix2 e) in G by lia. rewrite <- mult_IZR in G. change (radix_val radix2) with 2%Z in G.
  rewrite G in T. destruct T as [T1 T2]. apply le_IZR in T1. rewrite <- plus_IZR in T2. apply lt_IZR in T2.
  assert (t = n * 2 ^ e)%Z as -> by lia. exists (n * 2 ^ (e - (k + 1)))%Z. rewrite <- Z.mul_assoc, <- Z.pow_add_r by lia. f_equal. f_equal. lia.
Qed.
