(** * Property C89: resampling a signal ([scale_signal])

    [on_line], [place], [at_sample] and [full_scale] are in Spec/Resample.v. *)
From Coq Require Import ZArith List Bool Reals Lra Lia Psatz.
From Flocq Require Import Core IEEE754.BinarySingleNaN.
From Verif Require Import Model.Base Model.F32 Model.Resample Spec.Resample Proofs.BaseFacts Proofs.FloatFacts Proofs.SeekTarget Proofs.ResampleFacts.
Import ListNotations.
Open Scope Z_scope.

(** ** The loop *)
Lemma write_places {A} (f : list A -> Z -> outcome (list A)) (g : Z -> A) (n : Z) :
  (forall l i, 0 <= i < n -> f l i = store l i (g i)) -> forall l : list A, 0 <= n <= zlen l ->
  foldM f (range n) l = Ok (map g (range n) ++ skipn (Z.to_nat n) l).
Proof.
  intros H l Hn. assert (K : forall k : nat, Z.of_nat k <= n -> foldM f (range (Z.of_nat k)) l = Ok (map g (range (Z.of_nat k)) ++ skipn k l)).
  { induction k as [|k IH]; intros Hk; [reflexivity|].
    replace (Z.of_nat (S k)) with (Z.of_nat k + 1) by lia. rewrite range_succ by lia. rewrite foldM_app, IH by lia. cbn [bind foldM].
    rewrite H by lia. unfold store. rewrite zlen_app, zlen_map, zlen_range by lia.
    assert (L : (length (map g (range (Z.of_nat k))) = k)%nat).
    { pose proof (zlen_map g (range (Z.of_nat k))) as Z. rewrite zlen_range in Z by lia. unfold zlen in Z. lia. }
    assert (LS : (length (skipn k l) = length l - k)%nat) by apply skipn_length.
    assert (HL : (k < length l)%nat) by (unfold zlen in Hn; lia).
    unfold zlen at 1. rewrite LS.
    match goal with |- context [if ?b then _ else _] => replace b with true end.
    2: { symmetry. rewrite andb_true_iff, Z.leb_le, Z.ltb_lt. lia. }
    cbn [bind]. f_equal. rewrite Nat2Z.id, map_app. cbn [map].
    destruct (skipn k l) as [|x t] eqn:E; [cbn in LS; lia|].
    assert (T : skipn (S k) l = t).
    { clear -E. revert l E. induction k as [|k IH]; intros [|y l] E; cbn in E; try discriminate; [now injection E as _ ->|]. now apply IH. }
    rewrite T. revert L. generalize (g (Z.of_nat k)) as v. generalize (map g (range (Z.of_nat k))). clear. intros p v. revert k.
    induction p as [|y p IH]; intros k L; cbn in L; subst k; [reflexivity|]. cbn. f_equal. now apply IH. }
  specialize (K (Z.to_nat n) ltac:(lia)). rewrite Z2Nat.id in K by lia. exact K.
Qed.
Lemma write_short {A} (f : list A -> Z -> outcome (list A)) (g : Z -> A) (n : Z) :
  (forall l i, 0 <= i < n -> f l i = store l i (g i)) -> forall l : list A, zlen l < n ->
  foldM f (range n) l = Panic IndexOutOfBounds.
Proof.
  intros H l Hn. pose proof (zlen_nonneg l) as N0.
  assert (R : exists r, range n = range (zlen l) ++ zlen l :: r).
  { unfold range. exists (map Z.of_nat (seq (S (length l)) (Z.to_nat n - S (length l)))).
    assert (D : Z.to_nat n = (length l + (1 + (Z.to_nat n - S (length l))))%nat) by (unfold zlen in Hn; lia).
    rewrite D at 1. rewrite seq_app, map_app. unfold zlen at 1. rewrite Nat2Z.id. cbn [Nat.add seq map].
    reflexivity. }
  destruct R as [r ->]. rewrite foldM_app.
  rewrite (write_places f g (zlen l)) by (auto; try lia; intros; apply H; lia). cbn [bind foldM].
  rewrite H by lia. unfold store. rewrite zlen_app, zlen_map, zlen_range, zlen_skipn by lia.
  replace (zlen l <? _) with false by (symmetry; apply Z.ltb_ge; lia). now rewrite andb_false_r.
Qed.

Definition factor (m n : Z) : f32 := fdiv (f32_of_Z (m - 1)) (f32_of_Z (n - 1)).
Definition spot (m n k : Z) : f32 := fmul (f32_of_Z k) (factor m n).
Definition pick (input : list f32) (n k : Z) : f32 :=
  let last := zlen input - 1 in
  let w0 := Z.min (f32_as_usize (ffloor (spot (zlen input) n k))) last in
  blend (nth (Z.to_nat w0) input f0) (nth (Z.to_nat (Z.min (w0 + 1) last)) input f0) (ffract (spot (zlen input) n k)).

Lemma scale_at_eq p input n out k : 1 <= zlen input < 2 ^ 63 -> 
  scale_at p input (factor (zlen input) n) out k = store out k (pick input n k).
Proof.
  intros H. unfold scale_at. fold (spot (zlen input) n k). set (q := spot (zlen input) n k).
  unfold uchk, in_u. pose proof (as_u64_nonneg (ffloor q)) as N. fold (f32_as_usize (ffloor q)) in N.
  replace ((0 <=? zlen input - 1) && (zlen input - 1 <? 2 ^ 64)) with true
    by (symmetry; rewrite andb_true_iff, Z.leb_le, Z.ltb_lt; lia). cbn [bind].
  unfold pick. cbv zeta. fold q. set (w0 := Z.min (f32_as_usize (ffloor q)) (zlen input - 1)).
  assert (W : 0 <= w0 <= zlen input - 1) by (unfold w0; lia). clearbody w0.
  replace ((0 <=? w0 + 1) && (w0 + 1 <? 2 ^ 64)) with true
    by (symmetry; rewrite andb_true_iff, Z.leb_le, Z.ltb_lt; lia). cbn [bind].
  assert (I : forall i, 0 <= i < zlen input -> index input i = Ok (nth (Z.to_nat i) input f0)).
  { intros i Hi. unfold index. replace ((0 <=? i) && (i <? zlen input)) with true
      by (symmetry; rewrite andb_true_iff, Z.leb_le, Z.ltb_lt; lia).
    rewrite (nth_error_nth' input f0) by (unfold zlen in Hi; lia). reflexivity. }
  rewrite !I by lia. cbn [bind]. reflexivity.
Qed.

(** What is written does not depend on the build or on what was there. *)
Lemma scale_ok p input n output : 1 <= zlen input < 2 ^ 63 -> 1 <= n <= zlen output -> n < 2 ^ 63 ->
  scale_signal p input n output = Ok (map (pick input n) (range n) ++ skipn (Z.to_nat n) output).
Proof.
  intros H Hn H63. unfold scale_signal, uchk, in_u.
  replace ((0 <=? zlen input - 1) && (zlen input - 1 <? 2 ^ 64)) with true
    by (symmetry; rewrite andb_true_iff, Z.leb_le, Z.ltb_lt; lia). cbn [bind].
  replace ((0 <=? n - 1) && (n - 1 <? 2 ^ 64)) with true
    by (symmetry; rewrite andb_true_iff, Z.leb_le, Z.ltb_lt; lia). cbn [bind].
  fold (factor (zlen input) n).
  rewrite (write_places _ (pick input n) n) by (try lia; intros; now apply scale_at_eq). cbn [bind].
  rewrite zlen_app, zlen_map, zlen_range, zlen_skipn by lia.
  replace (_ <? n) with false by (symmetry; apply Z.ltb_ge; lia). reflexivity.
Qed.
Lemma scale_short p input n output : 1 <= zlen input < 2 ^ 63 -> zlen output < n < 2 ^ 63 ->
  scale_signal p input n output = Panic IndexOutOfBounds.
Proof.
  intros H Hn. pose proof (zlen_nonneg output). unfold scale_signal, uchk, in_u.
  replace ((0 <=? zlen input - 1) && (zlen input - 1 <? 2 ^ 64)) with true
    by (symmetry; rewrite andb_true_iff, Z.leb_le, Z.ltb_lt; lia). cbn [bind].
  replace ((0 <=? n - 1) && (n - 1 <? 2 ^ 64)) with true
    by (symmetry; rewrite andb_true_iff, Z.leb_le, Z.ltb_lt; lia). cbn [bind].
  fold (factor (zlen input) n).
  rewrite (write_short _ (pick input n) n) by (try lia; intros; now apply scale_at_eq). reflexivity.
Qed.

(** ** Where a place falls *)
Section Places.
Local Open Scope R_scope.
Lemma spot_any m n k : (1 <= m <= 2 ^ 63)%Z -> (2 <= n <= 2 ^ 63)%Z -> (0 <= k < n)%Z ->
  fin (spot m n k) /\ 0 <= val (spot m n k).
Proof.
  intros Hm Hn Hk. destruct (cast_any (m - 1) ltac:(lia)) as (Fm & Bm & _). destruct (cast_any (n - 1) ltac:(lia)) as (Fn & Bn & On).
  destruct (cast_any k ltac:(lia)) as (Fk & Bk & _). specialize (On ltac:(lia)).
  assert (Q : 0 <= val (f32_of_Z (m - 1)) / val (f32_of_Z (n - 1)) <= bpow radix2 63).
  { assert (0 < / val (f32_of_Z (n - 1)) <= 1).
    { split; [apply Rinv_0_lt_compat; lra|]. rewrite <- Rinv_1. apply Rinv_le; lra. }
    unfold Rdiv. split; [apply Rmult_le_pos; lra|]. apply Rle_trans with (val (f32_of_Z (m - 1)) * 1); [apply Rmult_le_compat_l; lra|lra]. }
  assert (P63 : bpow radix2 63 < bpow radix2 64) by (apply bpow_lt; lia).
  destruct (fdiv_R (f32_of_Z (m - 1)) (f32_of_Z (n - 1)) 64 Fm) as [Ff Vf]; [lra|lia|rewrite Rabs_pos_eq by lra; lra|].
  fold (factor m n) in Ff, Vf.
  assert (Bf : 0 <= val (factor m n) <= bpow radix2 63).
  { rewrite Vf. split.
    - apply round_ge_generic; [exact (fexp_correct 24 128 prec_pos)|apply valid_rnd_N|apply generic_format_0|lra].
    - apply Rabs_le_inv. apply rnd_bound; [lia|]. rewrite Rabs_pos_eq; lra. }
  assert (B : 0 <= val (f32_of_Z k) * val (factor m n) <= bpow radix2 126).
  { split; [apply Rmult_le_pos; lra|]. change 126%Z with (63 + 63)%Z. rewrite bpow_plus. apply Rmult_le_compat; lra. }
  assert (P : bpow radix2 126 < bpow radix2 127) by (apply bpow_lt; lia).
  destruct (fmul_R (f32_of_Z k) (factor m n) 127 Fk Ff) as [Fs Vs]; [lia|rewrite Rabs_pos_eq by lra; lra|].
  fold (spot m n k) in Fs, Vs. split; auto. rewrite Vs.
  apply round_ge_generic; [exact (fexp_correct 24 128 prec_pos)|apply valid_rnd_N|apply generic_format_0|lra].
Qed.
Lemma spot_near m n k : (1 <= m <= 2 ^ 24)%Z -> (2 <= n <= 2 ^ 24)%Z -> (0 <= k < n)%Z ->
  Rabs (val (spot m n k) - place m n k) <= / 4194304 * place m n k.
Proof.
  intros Hm Hn Hk. destruct (f32_of_Z_R (m - 1) ltac:(lia)) as [Fm Vm]. destruct (f32_of_Z_R (n - 1) ltac:(lia)) as [Fn Vn].
  destruct (f32_of_Z_R k ltac:(lia)) as [Fk Vk].
  assert (Bm : 0 <= IZR (m - 1) <= IZR (2 ^ 24)) by (split; apply IZR_le; lia).
  assert (Bn : 1 <= IZR (n - 1) <= IZR (2 ^ 24)) by (split; apply IZR_le; lia).
  assert (Bk : 0 <= IZR k <= IZR (2 ^ 24)) by (split; apply IZR_le; lia).
  change (IZR (2 ^ 24)) with 16777216 in *. unfold place.
  set (s := IZR (m - 1) / IZR (n - 1)). 
  assert (In : / 16777216 <= / IZR (n - 1) <= 1).
  { split; [apply Rinv_le; lra|]. rewrite <- Rinv_1. apply Rinv_le; lra. }
  assert (Bs : 0 <= s <= 16777216) by (unfold s, Rdiv; split; nra).
  assert (P : bpow radix2 127 > 16777216 * 16777216 * 4).
  { apply Rlt_gt. change (16777216 * 16777216 * 4) with (IZR (2 ^ 24) * IZR (2 ^ 24) * IZR (2 ^ 2)). rewrite <- !mult_IZR.
    change (bpow radix2 127) with (IZR (2 ^ 127)). apply IZR_lt. reflexivity. }
  destruct (fdiv_R (f32_of_Z (m - 1)) (f32_of_Z (n - 1)) 127 Fm) as [Ff Vf];
    [rewrite Vn; lra|lia|rewrite Vm, Vn; fold s; rewrite Rabs_pos_eq by lra; lra|].
  rewrite Vm, Vn in Vf. fold s in Vf. fold (factor m n) in Ff, Vf.
  assert (R1 : Rabs (val (factor m n) - s) <= / 16777216 * s).
  { rewrite Vf. destruct (Z.eq_dec m 1) as [->|N1].
    - replace s with 0. { rewrite round_0 by apply valid_rnd_N. rewrite Rminus_0_r, Rabs_R0. lra. }
      unfold s. change (1 - 1)%Z with 0%Z. unfold Rdiv. now rewrite Rmult_0_l.
    - assert (1 <= IZR (m - 1)) by (apply IZR_le; lia).
      assert (L : / 16777216 <= s) by (unfold s, Rdiv; nra).
      pose proof (rnd_rel s) as E. rewrite (Rabs_pos_eq s) in E by lra.
      change (bpow radix2 (-24)) with (/ 16777216) in E. apply E.
      apply Rle_trans with (bpow radix2 (-24)); [apply bpow_le; lia|exact L]. }
  apply Rabs_le_inv in R1.
  assert (Bf : 0 <= val (factor m n) <= 2 * 16777216) by lra.
  destruct (fmul_R (f32_of_Z k) (factor m n) 127 Fk Ff) as [Fs Vs]; [lia|rewrite Vk, Rabs_pos_eq; nra|].
  rewrite Vk in Vs. fold (spot m n k) in Fs, Vs. rewrite Vs.
  assert (R2 : Rabs (rnd32 (IZR k * val (factor m n)) - IZR k * val (factor m n)) <= / 16777216 * (IZR k * val (factor m n))).
  { destruct (Z.eq_dec k 0) as [->|Nk].
    { rewrite Rmult_0_l, round_0 by apply valid_rnd_N. rewrite Rminus_0_r, Rabs_R0. lra. }
    destruct (Z.eq_dec m 1) as [M1|M1].
    { assert (S0 : s = 0) by (unfold s; rewrite M1; change (1 - 1)%Z with 0%Z; unfold Rdiv; now rewrite Rmult_0_l).
      assert (F0 : val (factor m n) = 0) by lra. rewrite F0, Rmult_0_r, round_0 by apply valid_rnd_N. rewrite Rminus_0_r, Rabs_R0. lra. }
    assert (1 <= IZR (m - 1)) by (apply IZR_le; lia). assert (1 <= IZR k) by (apply IZR_le; lia).
    assert (L : / 16777216 <= s) by (unfold s, Rdiv; nra).
    assert (L2 : / 16777216 * / 2 <= IZR k * val (factor m n)) by nra.
    pose proof (rnd_rel (IZR k * val (factor m n))) as E. rewrite (Rabs_pos_eq (IZR k * val (factor m n))) in E by lra.
    change (bpow radix2 (-24)) with (/ 16777216) in E. apply E.
    apply Rle_trans with (bpow radix2 (-25)); [apply bpow_le; lia|]. change (bpow radix2 (-25)) with (/ 33554432). lra. }
  apply Rabs_le_inv in R2. 
  assert (K1 : - (/ 16777216 * (IZR k * s)) <= IZR k * val (factor m n) - IZR k * s <= / 16777216 * (IZR k * s)) by (split; nra).
  assert (0 <= IZR k * s) by (apply Rmult_le_pos; lra).
  apply Rabs_le. lra.
Qed.

(** ** One place *)
Lemma pick_inside input n k : (1 <= zlen input <= 2 ^ 62)%Z -> (2 <= n <= 2 ^ 62)%Z -> (0 <= k < n)%Z ->
  Forall full_scale input -> full_scale (pick input n k).
Proof.
  intros Hm Hn Hk HF. destruct (spot_any (zlen input) n k ltac:(lia) ltac:(lia) Hk) as [Fq Pq].
  destruct (fract_R _ Fq Pq) as (Ft & _ & Bt). unfold pick. cbv zeta.
  pose proof (as_u64_nonneg (ffloor (spot (zlen input) n k))) as N. fold (f32_as_usize (ffloor (spot (zlen input) n k))) in N.
  set (w0 := Z.min _ (zlen input - 1)). assert (W : (0 <= w0 <= zlen input - 1)%Z) by (unfold w0; lia). clearbody w0.
  rewrite Forall_forall in HF.
  apply blend_R; auto; apply HF, nth_In; unfold zlen in *; lia.
Qed.
Lemma pick_line input n k : (1 <= zlen input <= 2 ^ 24)%Z -> (2 <= n <= 2 ^ 24)%Z -> (0 <= k < n)%Z ->
  Forall full_scale input ->
  Rabs (val (pick input n k) - on_line input (val (spot (zlen input) n k))) <= / 4194304.
Proof.
  intros Hm Hn Hk HF. destruct (spot_any (zlen input) n k ltac:(lia) ltac:(lia) Hk) as [Fq Pq].
  pose proof (spot_near (zlen input) n k Hm Hn Hk) as E.
  assert (Lq : val (spot (zlen input) n k) < 2 ^ 63).
  { apply Rabs_le_inv in E. assert (P : place (zlen input) n k <= 16777216 * 16777216).
    { unfold place. assert (0 <= IZR (zlen input - 1) <= 16777216) by (split; apply IZR_le; lia).
      assert (1 <= IZR (n - 1)) by (apply IZR_le; lia). assert (0 <= IZR k <= 16777216) by (split; apply IZR_le; lia).
      assert (0 < / IZR (n - 1) <= 1). { split; [apply Rinv_0_lt_compat; lra|]. rewrite <- Rinv_1. apply Rinv_le; lra. }
      assert (IZR (zlen input - 1) / IZR (n - 1) <= 16777216) by (unfold Rdiv; nra).
      assert (0 <= IZR (zlen input - 1) / IZR (n - 1)) by (unfold Rdiv; nra). apply Rmult_le_compat; lra. }
    replace (2 ^ 63) with (IZR (2 ^ 63)) by (rewrite (pow_IZR 2 63); reflexivity).
    apply Rle_lt_trans with (2 * (16777216 * 16777216)); [lra|]. change (2 * (16777216 * 16777216)) with (2 * (IZR (2 ^ 24) * IZR (2 ^ 24))).
    rewrite <- !mult_IZR. apply IZR_lt. reflexivity. }
  destruct (fract_R _ Fq Pq) as (Ft & Vt & Bt). destruct (floor_R _ Fq) as [Ff Vf].
  set (q := spot (zlen input) n k) in *.
  assert (N : (0 <= Zfloor (val q))%Z) by (apply Zfloor_lub; exact Pq).
  assert (U : f32_as_usize (ffloor q) = Zfloor (val q)).
  { unfold f32_as_usize. rewrite as_u64_R; auto; rewrite Vf; [now rewrite Zfloor_IZR|]. split; [now apply IZR_le|].
    eapply Rle_lt_trans; [apply Zfloor_lb|exact Lq]. }
  unfold pick. cbv zeta. fold q. rewrite U. set (i := Zfloor (val q)) in *.
  set (a := nth _ input f0). set (b := nth (Z.to_nat (Z.min (Z.min i (zlen input - 1) + 1) (zlen input - 1))) input f0).
  rewrite Forall_forall in HF.
  assert (Ia : full_scale a) by (apply HF, nth_In; unfold zlen in *; lia).
  assert (Ib : full_scale b) by (apply HF, nth_In; unfold zlen in *; lia).
  destruct (blend_R a b (ffract q) Ia Ib Ft Bt) as [_ Eb].
  unfold on_line. fold i. rewrite Vt in Eb.
  assert (Aa : at_sample input i = val a) by reflexivity.
  assert (Ab : at_sample input (i + 1) = val b).
  { unfold at_sample, b, val. do 2 f_equal. unfold zlen. f_equal. lia. }
  rewrite Aa, Ab. exact Eb.
Qed.
(** Exactly on a sample. *)
Lemma pick_on input n k j : (1 <= zlen input <= 2 ^ 62)%Z -> (2 <= n <= 2 ^ 62)%Z -> (0 <= k < n)%Z -> 
  (0 <= j < zlen input)%Z -> Forall (fun x => fin x /\ Rabs (val x) < bpow radix2 127) input ->
  val (spot (zlen input) n k) = IZR j ->
  fin (pick input n k) /\ val (pick input n k) = val (nth (Z.to_nat j) input f0).
Proof.
  intros Hm Hn Hk Hj HF Hq. destruct (spot_any (zlen input) n k ltac:(lia) ltac:(lia) Hk) as [Fq Pq].
  destruct (fract_R _ Fq Pq) as (Ft & Vt & _). destruct (floor_R _ Fq) as [Ff Vf].
  set (q := spot (zlen input) n k) in *. rewrite Hq, Zfloor_IZR in Vt, Vf.
  assert (U : f32_as_usize (ffloor q) = j).
  { unfold f32_as_usize. rewrite as_u64_R; auto; rewrite Vf; [now rewrite Zfloor_IZR|]. split; [apply IZR_le; lia|].
    replace (2 ^ 63) with (IZR (2 ^ 63)) by (rewrite (pow_IZR 2 63); reflexivity). apply IZR_lt. lia. }
  unfold pick. cbv zeta. fold q. rewrite U. replace (Z.min j (zlen input - 1)) with j by lia.
  rewrite Forall_forall in HF.
  destruct (HF (nth (Z.to_nat j) input f0)) as [Fa La]; [apply nth_In; unfold zlen in *; lia|].
  destruct (HF (nth (Z.to_nat (Z.min (j + 1) (zlen input - 1))) input f0)) as [Fb _]; [apply nth_In; unfold zlen in *; lia|].
  apply blend_0; auto. rewrite Vt. lra.
Qed.
End Places.

(** ** Theorems *)
(** A number below [2^127] in size: its double is still an f32. *)
Definition moderate (x : f32) : Prop := is_finite x = true /\ (Rabs (B2R x) < bpow radix2 127)%R.

(** With a signal and at least one place to fill, the two builds fill the places with the same
    [n] samples whatever was there before, leave the rest of the output alone, and panic if
    there are too few. *)
Theorem C89_fills : forall input n, 1 <= zlen input <= 2 ^ 61 -> 1 <= n <= 2 ^ 61 ->
  exists r, zlen r = n /\ forall p output,
  (n <= zlen output -> scale_signal p input n output = Ok (r ++ skipn (Z.to_nat n) output)) /\
  (zlen output < n -> scale_signal p input n output = Panic IndexOutOfBounds).
Proof.
  intros input n Hi Hn. exists (map (pick input n) (range n)). split; [rewrite zlen_map, zlen_range; lia|].
  intros p output. split; intros H; [apply scale_ok; lia|apply scale_short; lia].
Qed.

(** The samples that are written, in a form that the following theorems share. *)
Lemma scaled_places p input n output r rest : 1 <= zlen input <= 2 ^ 61 -> 1 <= n <= 2 ^ 61 -> zlen r = n ->
  scale_signal p input n output = Ok (r ++ rest) -> r = map (pick input n) (range n).
Proof.
  intros Hi Hn Hr E. destruct (Z_lt_le_dec (zlen output) n) as [S|S].
  { rewrite scale_short in E by lia. discriminate. }
  rewrite scale_ok in E by lia. injection E as E. 
  assert (L : length r = length (map (pick input n) (range n))).
  { apply Nat2Z.inj. change (zlen r = zlen (map (pick input n) (range n))). rewrite zlen_map, zlen_range; lia. }
  assert (F : forall a b : list f32, firstn (length a) (a ++ b) = a).
  { intros a b. now rewrite firstn_app, Nat.sub_diag, firstn_all, app_nil_r. }
  rewrite <- (F r rest), <- E, L. apply F.
Qed.
Lemma nth_places input n k : 0 <= k < n -> nth (Z.to_nat k) (map (pick input n) (range n)) f0 = pick input n k.
Proof.
  intros H. unfold range. rewrite map_map. rewrite (nth_indep _ f0 (pick input n (Z.of_nat 0))).
  2: { rewrite map_length, seq_length. lia. }
  rewrite (map_nth (fun x => pick input n (Z.of_nat x))), seq_nth by lia. f_equal. lia.
Qed.

(** A signal from -1 to 1 stays from -1 to 1, whatever the lengths. *)
Theorem C89_range : forall p input n output r rest,
  1 <= zlen input <= 2 ^ 61 -> 2 <= n <= 2 ^ 61 -> zlen r = n -> Forall full_scale input ->
  scale_signal p input n output = Ok (r ++ rest) -> Forall full_scale r.
Proof.
  intros p input n output r rest Hi Hn Hr HF E. rewrite (scaled_places p input n output r rest) by (auto; lia).
  rewrite Forall_forall. intros x Hx. apply in_map_iff in Hx. destruct Hx as (k & <- & Hk).
  apply in_range in Hk. apply pick_inside; auto; lia.
Qed.

(** Place [k] is read from the straight line between two samples, at a position that is off by
    at most one part in 2^22, with an error of at most 2^-22. *)
Theorem C89_interpolates : forall p input n output r rest k,
  1 <= zlen input <= 2 ^ 24 -> 2 <= n <= 2 ^ 24 -> zlen r = n -> Forall full_scale input ->
  scale_signal p input n output = Ok (r ++ rest) -> 0 <= k < n ->
  exists q : R, (0 <= q /\ Rabs (q - place (zlen input) n k) <= / 4194304 * place (zlen input) n k /\
  Rabs (B2R (nth (Z.to_nat k) r f0) - on_line input q) <= / 4194304)%R.
Proof.
  intros p input n output r rest k Hi Hn Hr HF E Hk. rewrite (scaled_places p input n output r rest) by (auto; lia).
  exists (val (spot (zlen input) n k)). rewrite nth_places by lia.
  split; [apply spot_any; lia|]. split; [apply spot_near; lia|apply pick_line; auto; lia].
Qed.

(** The first sample is kept. *)
Theorem C89_first : forall p input n output r rest,
  1 <= zlen input <= 2 ^ 61 -> 2 <= n <= 2 ^ 61 -> zlen r = n -> Forall moderate input ->
  scale_signal p input n output = Ok (r ++ rest) ->
  is_finite (hd f0 r) = true /\ B2R (hd f0 r) = B2R (hd f0 input).
Proof.
  intros p input n output r rest Hi Hn Hr HF E. rewrite (scaled_places p input n output r rest) by (auto; lia).
  assert (HN : forall l : list f32, hd f0 l = nth (Z.to_nat 0) l f0) by (intros []; reflexivity).
  rewrite !HN. rewrite nth_places by lia. apply pick_on; try lia; auto.
  destruct (spot_any (zlen input) n 0 ltac:(lia) ltac:(lia) ltac:(lia)) as [F _].
  unfold spot in *. destruct (factor (zlen input) n); try discriminate F; reflexivity.
Qed.

(** Resampling to the same length changes no value. *)
Theorem C89_same_length : forall p input output r rest,
  2 <= zlen input <= 2 ^ 24 -> zlen r = zlen input -> Forall moderate input ->
  scale_signal p input (zlen input) output = Ok (r ++ rest) ->
  map (@B2R 24 128) r = map (@B2R 24 128) input /\ Forall (fun x => is_finite x = true) r.
Proof.
  intros p input output r rest Hi Hr HF E. pose proof (scaled_places p input (zlen input) output r rest ltac:(lia) ltac:(lia) Hr E) as R.
  assert (P : forall k, 0 <= k < zlen input -> fin (pick input (zlen input) k) /\ val (pick input (zlen input) k) = val (nth (Z.to_nat k) input f0)).
  { intros k Hk. apply pick_on; auto; try lia. unfold spot, factor.
    destruct (f32_of_Z_R (zlen input - 1) ltac:(lia)) as [Fn Vn]. destruct (f32_of_Z_R k ltac:(lia)) as [Fk Vk].
    assert (B : (1 <= IZR (zlen input - 1))%R) by (apply IZR_le; lia).
    destruct (fdiv_R _ (f32_of_Z (zlen input - 1)) 1 Fn) as [Ff Vf]; rewrite ?Vn in *; try lra; try lia.
    { unfold Rdiv. rewrite Rinv_r, Rabs_R1 by lra. change (bpow radix2 1) with 2%R. lra. }
    unfold Rdiv in Vf. rewrite Rinv_r, (rnd_IZR 1) in Vf by (lra || lia).
    destruct (fmul_R _ _ 25 Fk Ff) as [Fm Vm]; [lia| |].
    { rewrite Vk, Vf, Rmult_1_r, <- abs_IZR. change (bpow radix2 25) with (IZR (2 ^ 25)). apply IZR_lt. lia. }
    rewrite Vm, Vk, Vf, Rmult_1_r. apply rnd_IZR. lia. }
  assert (LR : length r = length input) by (unfold zlen in Hr; lia).
  split.
  - apply (nth_ext _ _ (B2R f0) (B2R f0)); rewrite !map_length; [exact LR|]. intros i Hi'.
    assert (Hi2 : (i < length input)%nat) by (rewrite <- LR; exact Hi'). rewrite !map_nth.
    replace i with (Z.to_nat (Z.of_nat i)) by lia. rewrite R, nth_places by (unfold zlen; lia). apply P. unfold zlen. lia.
  - rewrite R, Forall_forall. intros x Hx. apply in_map_iff in Hx. destruct Hx as (k & <- & Hk). apply in_range in Hk. now apply P.
Qed.

(** One place cannot be filled: whatever the signal, it gets NaN. *)
Theorem C89_one_place_refuted : forall p input x rest, 1 <= zlen input <= 2 ^ 61 ->
  scale_signal p input 1 (x :: rest) = Ok (B754_nan :: rest).
Proof.
  intros p input x rest Hi. pose proof (zlen_nonneg rest). rewrite scale_ok by (rewrite ?zlen_cons; lia).
  change (range 1) with [0]. cbn [map app]. change (Z.to_nat 1) with 1%nat. cbn [skipn]. do 2 f_equal.
  assert (S : spot (zlen input) 1 0 = B754_nan).
  { unfold spot, factor. destruct (cast_any (zlen input - 1) ltac:(lia)) as [F _].
    change (f32_of_Z (1 - 1)) with (B754_zero false : f32). change (f32_of_Z 0) with (B754_zero false : f32).
    destruct (f32_of_Z (zlen input - 1)) as [s|s| |s m e B]; try discriminate F; reflexivity. }
  unfold pick. cbv zeta. rewrite S. unfold blend.
  change (ffract B754_nan) with (B754_nan : f32). change (fsub f1 B754_nan) with (B754_nan : f32).
  set (a := nth _ input f0). set (b := nth _ input f0). clearbody a b.
  assert (M : fmul a B754_nan = B754_nan) by (destruct a; reflexivity). rewrite M. reflexivity.
Qed.

(** An empty signal, or no place to fill: a debug build panics; a release build leaves the
    output alone if there is no place to fill, and otherwise panics. *)
Theorem C89_empty : forall input n output, zlen input = 0 \/ n = 0 -> zlen input <= 2 ^ 61 -> 0 <= n <= 2 ^ 61 ->
  scale_signal Debug input n output = Panic ArithmeticOverflow /\
  scale_signal Release input n output = if n =? 0 then Ok output else Panic IndexOutOfBounds.
Proof.
  intros input n output H Hi Hn. pose proof (zlen_nonneg input) as Ni.
  assert (T : forall z, 0 <= z <= 2 ^ 61 -> in_u 64 (z - 1) = negb (z =? 0)).
  { intros z Hz. unfold in_u. destruct (z =? 0) eqn:B; [apply Z.eqb_eq in B; subst; reflexivity|]. apply Z.eqb_neq in B.
    cbn [negb]. rewrite andb_true_iff, Z.leb_le, Z.ltb_lt. lia. }
  unfold scale_signal, uchk. rewrite !T by lia. split.
  - destruct (zlen input =? 0) eqn:B; cbn [negb bind]; [reflexivity|]. apply Z.eqb_neq in B.
    destruct H as [H|H]; [lia|]. subst n. reflexivity.
  - destruct (n =? 0) eqn:B.
    + apply Z.eqb_eq in B. subst n. change (range 0) with (@nil Z). pose proof (zlen_nonneg output).
      destruct (zlen input =? 0); cbn [negb bind foldM Z.eqb]; (replace (zlen output <? 0) with false by (symmetry; apply Z.ltb_ge; lia)); reflexivity.
    + apply Z.eqb_neq in B. destruct H as [H|H]; [|lia]. rewrite H. cbn [Z.eqb negb bind].
      assert (E : input = []) by (destruct input; [reflexivity|rewrite zlen_cons in H; pose proof (zlen_nonneg input); lia]). subst input.
      assert (R : exists l, range n = 0 :: l).
      { exists (map (Z.add 1) (range (n - 1))). replace n with (n - 1 + 1) at 1 by lia. apply range_shift. lia. }
      destruct R as [l ->]. cbn [foldM].
      assert (S : forall f o, scale_at Release [] f o 0 = Panic IndexOutOfBounds).
      { intros f o. unfold scale_at, uchk. change (in_u 64 (zlen (@nil f32) - 1)) with false. cbn [bind].
        destruct (in_u 64 _); cbn [bind]; unfold index; change (zlen (@nil f32)) with 0;
          (match goal with |- context [(0 <=? ?w) && (?w <? 0)] => replace ((0 <=? w) && (w <? 0)) with false by (symmetry; apply andb_false_iff; rewrite Z.leb_gt, Z.ltb_ge; lia) end); reflexivity. }
      rewrite S. reflexivity.
Qed.

(** The last sample is not always kept: spreading two samples over 42 places ends next to the
    second one, not on it. *)
Definition differ (x y : f32) : bool := negb (match Bcompare x y with Some Eq => true | _ => false end).
Theorem C89_last_refuted : exists input n r rest, Forall full_scale input /\ zlen r = n /\
  scale_signal Release input n (repeat f0 42) = Ok (r ++ rest) /\ differ (last r f0) (last input f0) = true.
Proof.
  destruct (C89_fills [f1; f0] 42) as (r & Hr & H); [vm_compute; intuition congruence|vm_compute; intuition congruence|].
  exists [f1; f0], 42, r, []. destruct (H Release (repeat f0 42)) as [K _]. specialize (K ltac:(vm_compute; congruence)).
  split; [|split; [exact Hr|split]].
  - destruct val_f1 as [F1 V1], val_f0 as [F0 V0]. constructor; [|constructor; [|constructor]]; (split; [assumption|]).
    + unfold val in V1. rewrite V1. lra.
    + unfold val in V0. rewrite V0. lra.
  - rewrite K. reflexivity.
  - rewrite (scaled_places Release [f1; f0] 42 (repeat f0 42) r [] ltac:(vm_compute; intuition congruence) ltac:(vm_compute; intuition congruence) Hr K).
    vm_compute. reflexivity.
Qed.

(** Non-vacuity: three samples spread over five places, and brought down to two. *)
Definition three : list f32 := [f1; fhalf; fm1].
Definition out6 : list f32 := [f0; f0; f0; f0; f0; f2].
Lemma three_full : Forall full_scale three /\ Forall moderate three.
Proof.
  destruct val_f1 as [F1 V1], val_fhalf as [Fh Vh], val_fm1 as [Fm Vm]. unfold val in *.
  assert (P : (2 <= bpow radix2 127)%R) by (change 2%R with (bpow radix2 1); apply bpow_le; lia).
  split; (constructor; [|constructor; [|constructor; [|constructor]]]); (split; [assumption|]); rewrite ?V1, ?Vh, ?Vm; try lra; apply Rabs_lt; lra.
Qed.
Example C89_applies : exists r5 r2 r3,
  map (@B2SF 24 128) r5 = map (@B2SF 24 128) [f1; flit 3 (-2); fhalf; flit (-1) (-2); fm1] /\
  map (@B2SF 24 128) r2 = map (@B2SF 24 128) [f1; fm1] /\ map (@B2SF 24 128) r3 = map (@B2SF 24 128) three /\
  scale_signal Debug three 5 out6 = Ok (r5 ++ [f2]) /\ Forall full_scale r5 /\
  scale_signal Debug three 2 out6 = Ok (r2 ++ skipn 2 out6) /\ scale_signal Debug three 3 out6 = Ok (r3 ++ skipn 3 out6) /\
  scale_signal Debug three 7 out6 = Panic IndexOutOfBounds.
Proof.
  assert (H3 : 1 <= zlen three <= 2 ^ 61) by (vm_compute; intuition congruence).
  exists (map (pick three 5) (range 5)), (map (pick three 2) (range 2)), (map (pick three 3) (range 3)).
  assert (L : forall n, 1 <= n <= 6 -> scale_signal Debug three n out6 = Ok (map (pick three n) (range n) ++ skipn (Z.to_nat n) out6)).
  { intros n Hn. apply scale_ok; try lia. change (zlen out6) with 6. lia. }
  split; [vm_compute; reflexivity|]. split; [vm_compute; reflexivity|]. split; [vm_compute; reflexivity|].
  pose proof (L 5 ltac:(lia)) as E5. change (skipn (Z.to_nat 5) out6) with [f2] in E5.
  split; [exact E5|]. split.
  { apply (C89_range Debug three 5 out6 _ [f2] H3 ltac:(lia)); [rewrite zlen_map, zlen_range; lia|apply three_full|exact E5]. }
  split; [exact (L 2 ltac:(lia))|]. split; [exact (L 3 ltac:(lia))|].
  apply scale_short; [lia|]. change (zlen out6) with 6. lia.
Qed.

Print Assumptions C89_fills.
Print Assumptions C89_range.
Print Assumptions C89_interpolates.
Print Assumptions C89_first.
Print Assumptions C89_same_length.
Print Assumptions C89_one_place_refuted.
Print Assumptions C89_empty.
Print Assumptions C89_last_refuted.
