(** * Facts about the bits of an f32 and the two convolutions *)
From Coq Require Import ZArith List Bool Reals Lra Lia.
From Flocq Require Import Core IEEE754.BinarySingleNaN.
From Verif Require Import Model.Base Model.F32 Model.Signal Proofs.BaseFacts Proofs.FloatFacts.
Import ListNotations.
Open Scope Z_scope.

Lemma flit_finite (s : bool) m e (H : SpecFloat.bounded 24 128 m e = true) : flit (if s then - Z.pos m else Z.pos m) e = (B754_finite s m e H : f32).
Proof.
  set (x := B754_finite s m e H : f32). set (z := if s then - Z.pos m else Z.pos m).
  assert (V : B2R x = F2R (Float radix2 z e)) by (subst x z; destruct s; reflexivity).
  assert (NZ : B2R x <> 0%R).
  { rewrite V. intros E. apply eq_0_F2R in E. subst z. destruct s; discriminate E. }
  pose proof (binary_normalize_correct 24 128 prec_pos prec_lt_emax mode_NE z e false) as C. cbv zeta in C. rewrite <- V in C.
  rewrite round_generic in C; [|exact (valid_rnd_N _)|apply generic_format_B2R].
  rewrite Rlt_bool_true in C by apply abs_B2R_lt_emax. destruct C as (E & _ & _).
  apply B2R_inj; [apply is_finite_strict_B2R; unfold flit; rewrite E; exact NZ|reflexivity|exact E].
Qed.
Lemma canonical_cases m e : SpecFloat.bounded 24 128 m e = true ->
  (Z.pos m < 2 ^ 23 /\ e = -149) \/ (2 ^ 23 <= Z.pos m < 2 ^ 24 /\ -149 <= e <= 104).
Proof.
  unfold SpecFloat.bounded, SpecFloat.canonical_mantissa. rewrite andb_true_iff. intros [H1 H2].
  apply Zeq_bool_eq in H1. apply Zle_bool_imp_le in H2. unfold SpecFloat.fexp, SpecFloat.emin in H1. change (128 - 24) with 104 in H2.
  change (3 - 128 - 24) with (-149) in H1. rewrite Digits.Zpos_digits2_pos in H1. set (d := Digits.Zdigits radix2 (Z.pos m)) in *.
  pose proof (Digits.Zdigits_correct radix2 (Z.pos m)) as D. fold d in D. rewrite Z.abs_eq in D by lia. change (Zpower radix2 (d - 1)) with (2 ^ (d - 1)) in D. change (Zpower radix2 d) with (2 ^ d) in D.
  assert (0 < d). { destruct (Z.le_gt_cases d 0) as [L|]; [|assumption]. exfalso. assert (2 ^ d <= 2 ^ 0) by (destruct (Z.eq_dec d 0) as [->|]; [lia|rewrite Z.pow_neg_r by lia; lia]). lia. }
  destruct (Z.lt_ge_cases (Z.pos m) (2 ^ 23)) as [L|L].
  - left. split; [exact L|]. assert (d <= 23). { destruct (Z.le_gt_cases d 23); [assumption|]. assert (2 ^ 23 <= 2 ^ (d - 1)) by (apply Z.pow_le_mono_r; lia). lia. } lia.
  - right. assert (24 <= d). { destruct (Z.le_gt_cases 24 d); [assumption|]. assert (2 ^ d <= 2 ^ 23) by (apply Z.pow_le_mono_r; lia). lia. }
    assert (E : d = 24) by lia. clearbody d. subst d. change (2 ^ (24 - 1)) with (2 ^ 23) in D. lia.
Qed.
Lemma sign_bit (s : bool) r : 0 <= r < 2 ^ 31 -> (2 ^ 31 <=? (if s then 2 ^ 31 else 0) + r) = s /\ ((if s then 2 ^ 31 else 0) + r) mod 2 ^ 31 = r.
Proof.
  intros H. split.
  - destruct s; [apply Z.leb_le|apply Z.leb_gt]; lia.
  - destruct s; [rewrite Z.add_comm, <- (Z.mul_1_l (2 ^ 31)) at 1|]; rewrite ?Z.mod_add by lia; apply Z.mod_small; lia.
Qed.
Lemma from_to_bits x : f32_from_bits (f32_to_bits x) = x.
Proof.
  destruct x as [s|s| |s m e H].
  - destruct s; reflexivity.
  - destruct s; reflexivity.
  - reflexivity.
  - unfold f32_to_bits. set (r := if Z.pos m <? 2 ^ 23 then Z.pos m else _).
    pose proof (canonical_cases m e H) as C. unfold f32_from_bits.
    assert (R : 0 <= r < 2 ^ 31). { subst r. destruct (Z.ltb_spec (Z.pos m) (2 ^ 23)); lia. }
    destruct (sign_bit s r R) as [-> ->]. cbv zeta.
    destruct C as [[L ->]|[L E]]; subst r.
    + destruct (Z.ltb_spec (Z.pos m) (2 ^ 23)); [|lia]. rewrite (Z.div_small (Z.pos m)), (Z.mod_small (Z.pos m)) by lia. cbn [Z.eqb andb]. apply flit_finite.
    + destruct (Z.ltb_spec (Z.pos m) (2 ^ 23)); [lia|]. rewrite Z.add_comm, Z.div_add, Z.mod_add by lia.
      rewrite (Z.div_small (Z.pos m - 2 ^ 23)), (Z.mod_small (Z.pos m - 2 ^ 23)) by lia. rewrite Z.add_0_l.
      destruct (Z.eqb_spec (e + 150) 255); [lia|]. destruct (Z.eqb_spec (e + 150) 0); [lia|]. cbn [andb].
      replace (Z.pos m - 2 ^ 23 + 2 ^ 23) with (Z.pos m) by lia. replace (e + 150 - 150) with e by lia. apply flit_finite.
Qed.
Lemma to_bits_range x : 0 <= f32_to_bits x < 2 ^ 32.
Proof.
  destruct x as [s|s| |s m e H]; [destruct s; cbn [f32_to_bits]; lia|destruct s; cbn [f32_to_bits]; lia|cbn [f32_to_bits]; lia|].
  unfold f32_to_bits. pose proof (canonical_cases m e H). destruct (Z.ltb_spec (Z.pos m) (2 ^ 23)); destruct s; lia.
Qed.

Lemma tap_same samples idx : samples <> [] -> tap_branchless samples idx = tap samples idx.
Proof.
  intros HN. assert (0 < zlen samples) by (destruct samples; [congruence|]; rewrite zlen_cons; pose proof (zlen_nonneg samples); lia).
  unfold tap_branchless, tap. unfold clampP. destruct (Z.leb_spec 0 (zlen samples - 1)); [|lia]. cbn [bind].
  assert (RC : 0 <= zclamp idx 0 (zlen samples - 1) < zlen samples) by (rewrite zclamp_eq by lia; lia).
  rewrite (index_ok samples _ f0 RC). cbn [bind].
  destruct ((idx <? 0) || (zlen samples <=? idx)) eqn:B.
  - change (oob_mask true) with (2 ^ 32 - 1). change (2 ^ 32 - 1 - (2 ^ 32 - 1)) with 0. rewrite Z.land_0_l, Z.lor_0_r. reflexivity.
  - change (oob_mask false) with 0. rewrite Z.land_0_l, Z.lor_0_l. change (2 ^ 32 - 1 - 0) with (Z.ones 32). rewrite Z.land_comm, Z.land_ones by lia.
    rewrite Z.mod_small by apply to_bits_range. rewrite from_to_bits. apply orb_false_iff in B. destruct B as [B1 B2].
    apply Z.ltb_ge in B1. apply Z.leb_gt in B2. rewrite (index_ok samples idx f0) by lia. rewrite zclamp_id by lia. reflexivity.
Qed.
Lemma foldM_ext {A B} (f g : B -> A -> outcome B) l : (forall b a, In a l -> f b a = g b a) -> forall b, foldM f l b = foldM g l b.
Proof.
  induction l as [|a l IH]; intros H b; [reflexivity|]. cbn [foldM]. rewrite H by (now left). destruct (g b a); cbn [bind]; auto. apply IH. intros b' a' Ha. apply H. now right.
Qed.
Lemma convolve_at_same samples kernel i : samples <> [] -> convolve_branchless_at samples kernel i = convolve_at samples kernel i.
Proof.
  intros HN. unfold convolve_branchless_at, convolve_at. apply foldM_ext. intros sum j _. rewrite tap_same by exact HN.
  pose proof (zlen_nonneg kernel). rewrite Z.shiftr_div_pow2, Z.quot_div_nonneg by lia. change (2 ^ 1) with 2.
  replace (j + (i - zlen kernel / 2)) with (j + i - zlen kernel / 2) by lia. reflexivity.
Qed.
Lemma convolve_same samples kernel result : convolve_1d_branchless samples kernel result = convolve_1d samples kernel result.
Proof.
  destruct samples as [|s samples]; [reflexivity|]. unfold convolve_1d_branchless, convolve_1d. apply foldM_ext. intros r i _. now rewrite convolve_at_same by discriminate.
Qed.

(** ** What they compute *)
Lemma tap_ok samples idx : tap samples idx = Ok (if (idx <? 0) then f0 else nth (Z.to_nat idx) samples f0).
Proof.
  unfold tap. destruct (Z.ltb_spec idx 0); [reflexivity|]. cbn [orb]. destruct (Z.leb_spec (zlen samples) idx).
  - rewrite nth_overflow; [reflexivity|]. unfold zlen in *. lia.
  - apply index_ok. lia.
Qed.
