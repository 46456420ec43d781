(** * The prediction is the quadratic extrapolation to within one step *)
From Coq Require Import ZArith Bool Reals Lra Lia Psatz List.
From Flocq Require Import Core IEEE754.BinarySingleNaN.
From Verif Require Import Model.Base Model.F32 Model.Sample Model.Parabola Model.Adhoc
  Spec.Codec Spec.Recording Proofs.BaseFacts Proofs.FloatFacts.
Open Scope R_scope.

Ltac bound k v := match goal with |- Rabs _ < bpow radix2 k => change (bpow radix2 k) with v; apply Rabs_lt end.

(** The extrapolated value before it is truncated. *)
Lemma eval_R g0 g1 g2 :
  fin g0 -> fin g1 -> fin g2 ->
  -1.0001 <= val g0 <= 1.0001 -> -1.0001 <= val g1 <= 1.0001 -> -1.0001 <= val g2 <= 1.0001 ->
  fin (parabola_eval (compute_coefs g0 g1 g2) f3) /\
  Rabs (val (parabola_eval (compute_coefs g0 g1 g2) f3) - (val g0 - 3 * val g1 + 3 * val g2)) <= / 100000.
Proof.
  intros F0 F1 F2 B0 B1 B2. cbn [parabola_eval compute_coefs].
  destruct val_f2 as [Ff2 V2], val_f3 as [Ff3 V3], val_f4 as [Ff4 V4], val_fhalf as [Fh Vh].
  destruct (fsub_E g1 g0 2 F1 F0) as [Fd Ed]; [lia|bound 2%Z 4; lra|].
  change (bpow radix2 (2 - 25)) with (/ 8388608) in Ed. apply Rabs_le_inv in Ed. set (d := fsub g1 g0) in *.
  destruct (fsub_E g2 g0 2 F2 F0) as [Fe Ee]; [lia|bound 2%Z 4; lra|].
  change (bpow radix2 (2 - 25)) with (/ 8388608) in Ee. apply Rabs_le_inv in Ee. set (e := fsub g2 g0) in *.
  clearbody d e.
  destruct (fmul_E f4 d 4 Ff4 Fd) as [F4d E4d]; [lia|rewrite V4; bound 4%Z 16; lra|].
  rewrite V4 in E4d. change (bpow radix2 (4 - 25)) with (/ 2097152) in E4d. apply Rabs_le_inv in E4d.
  set (d4 := fmul f4 d) in *. clearbody d4.
  destruct (fsub_E d4 e 4 F4d Fe) as [Fs Es]; [lia|bound 4%Z 16; lra|].
  change (bpow radix2 (4 - 25)) with (/ 2097152) in Es. apply Rabs_le_inv in Es.
  set (s := fsub d4 e) in *. clearbody s.
  destruct (fmul_E s fhalf 3 Fs Fh) as [Fc1 Ec1]; [lia|rewrite Vh; bound 3%Z 8; lra|].
  rewrite Vh in Ec1. change (bpow radix2 (3 - 25)) with (/ 4194304) in Ec1. apply Rabs_le_inv in Ec1.
  set (c1 := fmul s fhalf) in *. clearbody c1.
  destruct (fmul_E f2 d 3 Ff2 Fd) as [F2d E2d]; [lia|rewrite V2; bound 3%Z 8; lra|].
  rewrite V2 in E2d. change (bpow radix2 (3 - 25)) with (/ 4194304) in E2d. apply Rabs_le_inv in E2d.
  set (d2 := fmul f2 d) in *. clearbody d2.
  destruct (fsub_E e d2 3 Fe F2d) as [Fu Eu]; [lia|bound 3%Z 8; lra|].
  change (bpow radix2 (3 - 25)) with (/ 4194304) in Eu. apply Rabs_le_inv in Eu.
  set (u := fsub e d2) in *. clearbody u.
  destruct (fmul_E u fhalf 2 Fu Fh) as [Fc2 Ec2]; [lia|rewrite Vh; bound 2%Z 4; lra|].
  rewrite Vh in Ec2. change (bpow radix2 (2 - 25)) with (/ 8388608) in Ec2. apply Rabs_le_inv in Ec2.
  set (c2 := fmul u fhalf) in *. clearbody c2.
  destruct (fmul_E c2 f3 3 Fc2 Ff3) as [Fm Em]; [lia|rewrite V3; bound 3%Z 8; lra|].
  rewrite V3 in Em. change (bpow radix2 (3 - 25)) with (/ 4194304) in Em. apply Rabs_le_inv in Em.
  set (m := fmul c2 f3) in *. clearbody m.
  destruct (fadd_E c1 m 2 Fc1 Fm) as [Fa Ea]; [lia|bound 2%Z 4; lra|].
  change (bpow radix2 (2 - 25)) with (/ 8388608) in Ea. apply Rabs_le_inv in Ea.
  set (a := fadd c1 m) in *. clearbody a.
  destruct (fmul_E a f3 3 Fa Ff3) as [Fb Eb]; [lia|rewrite V3; bound 3%Z 8; lra|].
  rewrite V3 in Eb. change (bpow radix2 (3 - 25)) with (/ 4194304) in Eb. apply Rabs_le_inv in Eb.
  set (b := fmul a f3) in *. clearbody b.
  destruct (fadd_E g0 b 3 F0 Fb) as [Fz Ez]; [lia|bound 3%Z 8; lra|].
  change (bpow radix2 (3 - 25)) with (/ 4194304) in Ez. apply Rabs_le_inv in Ez.
  split; [exact Fz|]. apply Rabs_le. lra.
Qed.

(** [truncate_sample] of a finite value. *)
Lemma truncate_R x : fin x ->
  Rabs (IZR (truncate_sample x) - Rmax (-1) (Rmin 1 (val x)) * 32767) < 1 + / 1024.
Proof.
  intros Fx. destruct (fclamp_R x Fx) as [Fc Vc]. unfold truncate_sample.
  assert (B : -1 <= val (fclamp x fm1 f1) <= 1).
  { rewrite Vc. split; [apply Rmax_l|]. apply Rmax_lub; [lra|apply Rmin_l]. }
  destruct (scaled_R _ Fc B) as (Fs & Bs & Es). rewrite as_i16_R by (auto; lra).
  pose proof (Ztrunc_err (val (fmul (fclamp x fm1 f1) (f32_of_Z 32767)))) as T.
  rewrite Vc in Es. apply Rabs_lt_inv in T. apply Rabs_le_inv in Es. apply Rabs_lt. lra.
Qed.

Lemma extrapolate_R a b c :
  IZR (extrapolate a b c) = Rmax (-32767) (Rmin 32767 (IZR a - 3 * IZR b + 3 * IZR c)).
Proof.
  unfold extrapolate. replace (IZR a - 3 * IZR b + 3 * IZR c) with (IZR (a - 3 * b + 3 * c))
    by (rewrite plus_IZR, minus_IZR, !mult_IZR; lra).
  generalize (a - 3 * b + 3 * c)%Z as n. intros n.
  destruct (Z.min_spec 32767 n) as [[H ->]|[H ->]].
  - rewrite Rmin_left by (apply IZR_le; lia). rewrite Z.max_r by lia. rewrite Rmax_right by lra. reflexivity.
  - rewrite Rmin_right by (apply IZR_le; lia).
    destruct (Z.max_spec (-32767) n) as [[G ->]|[G ->]].
    + rewrite Rmax_right by (apply IZR_le; lia). reflexivity.
    + rewrite Rmax_left by (apply IZR_le; lia). reflexivity.
Qed.

Lemma clamp_case x y : y = Rmax (-1) (Rmin 1 x) -> (x <= -1 /\ y = -1) \/ (-1 <= x <= 1 /\ y = x) \/ (1 <= x /\ y = 1).
Proof.
  intros ->. destruct (Rle_dec 1 x); [rewrite Rmin_left, Rmax_right by lra; lra|]. rewrite Rmin_right by lra.
  destruct (Rle_dec x (-1)); [rewrite Rmax_left by lra; lra|rewrite Rmax_right by lra; lra].
Qed.
Lemma clamp_close x y d : 0 <= d -> Rabs (x - y) <= d ->
  Rabs (Rmax (-1) (Rmin 1 x) - Rmax (-1) (Rmin 1 y)) <= d.
Proof.
  intros Hd H. apply Rabs_le_inv in H. apply Rabs_le.
  pose proof (clamp_case x _ eq_refl). pose proof (clamp_case y _ eq_refl). lra.
Qed.

Theorem predict_close a b c :
  (-32768 <= a <= 32767)%Z -> (-32768 <= b <= 32767)%Z -> (-32768 <= c <= 32767)%Z ->
  (Z.abs (predict a b c - extrapolate a b c) <= 1)%Z.
Proof.
  intros Ha Hb Hc. unfold predict.
  destruct (normalize_R a) as [Fa Ea]; [lia|]. destruct (normalize_R b) as [Fb Eb]; [lia|].
  destruct (normalize_R c) as [Fc Ec]; [lia|].
  apply Rabs_le_inv in Ea, Eb, Ec.
  assert (Ba : -32768 <= IZR a <= 32767) by (split; apply IZR_le; lia).
  assert (Bb : -32768 <= IZR b <= 32767) by (split; apply IZR_le; lia).
  assert (Bc : -32768 <= IZR c <= 32767) by (split; apply IZR_le; lia).
  destruct (eval_R (normalize_sample a) (normalize_sample b) (normalize_sample c)) as [Fe Ee]; auto; try lra.
  set (x := parabola_eval _ _) in *. clearbody x.
  pose proof (truncate_R x Fe) as T. apply Rabs_lt_inv in T.
  assert (Ex : Rabs (val x - (IZR a - 3 * IZR b + 3 * IZR c) / 32767) <= / 90000).
  { apply Rabs_le_inv in Ee. apply Rabs_le. lra. }
  apply clamp_close in Ex; [|lra]. apply Rabs_le_inv in Ex.
  assert (Es : Rmax (-1) (Rmin 1 ((IZR a - 3 * IZR b + 3 * IZR c) / 32767)) * 32767 = IZR (extrapolate a b c)).
  { rewrite extrapolate_R. generalize (IZR a - 3 * IZR b + 3 * IZR c) as r. intros r.
    pose proof (clamp_case (r / 32767) _ eq_refl) as C.
    destruct (Rle_dec 32767 r); [rewrite (Rmin_left 32767), (Rmax_right (-32767)) by lra; lra|].
    rewrite (Rmin_right 32767) by lra.
    destruct (Rle_dec r (-32767)); [rewrite (Rmax_left (-32767)) by lra; lra|].
    rewrite (Rmax_right (-32767)) by lra. lra. }
  assert (D : Rabs (IZR (truncate_sample x - extrapolate a b c)) < 2).
  { rewrite minus_IZR. apply Rabs_lt. lra. }
  rewrite <- abs_IZR in D. apply lt_IZR in D. lia.
Qed.
