(** * write_compressed / read_compressed and the Golomb-Rice code *)
From Coq Require Import ZArith List Bool Lia.
From Verif Require Import Model.Base Model.BitStream Proofs.BaseFacts Proofs.BitStreamFacts
  Proofs.BitLog Spec.Bits.
Import ListNotations.
Open Scope Z_scope.

Lemma pow16 : 2 ^ (16 - 1) = 32768. Proof. reflexivity. Qed.

(** ** Length and shape *)
Lemma zlen_rice e v :
  0 <= e -> zlen (rice e v) = Z.abs v / 2 ^ e + e + 2.
Proof.
  intros; unfold rice.
  rewrite zlen_cons, zlen_app, zlen_repeat, zlen_cons, zlen_bits_le.
  assert (0 <= Z.abs v / 2 ^ e) by (apply Z.div_pos; [lia|apply Z.pow_pos_nonneg; lia]). lia.
Qed.

Lemma bits_le_ones n k : (n <= k)%nat -> bits_le n (2 ^ Z.of_nat k - 1) = repeat true n.
Proof.
  intros H. apply nth_ext with (d := false) (d' := true).
  - now rewrite length_bits_le, repeat_length.
  - rewrite length_bits_le. intros j Hj.
    rewrite nth_bits_le by lia.
    change (2 ^ Z.of_nat k - 1) with (Z.pred (2 ^ Z.of_nat k)).
    rewrite <- Z.ones_equiv, Z.testbit_ones_nonneg by lia.
    rewrite nth_repeat. apply Z.ltb_lt; lia.
Qed.

Lemma bits_le_ones128 n : (n <= 128)%nat -> bits_le n (2 ^ 128 - 1) = repeat true n.
Proof. exact (bits_le_ones n 128). Qed.

(** ** Writing *)
Lemma write_unary_spec {k} p fuel s bs q :
  holds k s bs -> 0 <= q <= 128 * Z.of_nat fuel -> (1 <= fuel)%nat -> zlen bs + q < 2 ^ 64 ->
  exists s', write_unary p fuel s q = Ok s' /\ holds k s' (bs ++ repeat true (Z.to_nat q)).
Proof.
  revert s bs q; induction fuel; intros s bs q Hs Hq Hf Hb; [lia|].
  pose proof (zlen_nonneg bs).
  cbn [write_unary]. destruct (Z.ltb_spec 0 q).
  - destruct (Z.ltb_spec 128 q).
    + destruct (holds_write_bits p s bs (2 ^ 128 - 1) 128 Hs ltac:(lia)
                  ltac:(rewrite pow2_128; lia) ltac:(lia)) as (s' & E & Hs').
      change (Z.of_nat 128) with 128 in E. rewrite E. cbn [bind].
      destruct (IHfuel s' _ (q - 128) Hs') as (s'' & E' & Hs'').
      * lia.
      * lia.
      * rewrite zlen_app, zlen_bits_le. lia.
      * exists s''; split; auto.
        rewrite <- app_assoc in Hs''. rewrite bits_le_ones128 in Hs'' by lia.
        rewrite <- repeat_app in Hs''. replace (Z.to_nat q) with (128 + Z.to_nat (q - 128))%nat by lia.
        exact Hs''.
    + destruct (holds_write_bits p s bs (2 ^ 128 - 1) (Z.to_nat q) Hs ltac:(lia)
                  ltac:(rewrite pow2_128; lia) ltac:(lia)) as (s' & E & Hs').
      rewrite Z2Nat.id in E by lia. rewrite E. exists s'; split; auto.
      rewrite bits_le_ones128 in Hs' by lia. exact Hs'.
  - exists s; split; auto. replace q with 0 by lia. cbn. now rewrite app_nil_r.
Qed.

(** The profiles in which an exponent can be used without panicking. *)
Definition exp_ok (p : profile) (e : Z) : Prop :=
  0 <= e <= 15 /\ (p = Debug -> e <= 14).

Lemma exp_ok_release e : 0 <= e <= 15 -> exp_ok Release e.
Proof. split; [auto|discriminate]. Qed.
Lemma exp_ok_small p e : 0 <= e <= 14 -> exp_ok p e.
Proof. split; [lia|intros; lia]. Qed.

Lemma write_compressed_mask p e :
  exp_ok p e ->
  bind (sshl p 16 1 e) (fun one => schk p 16 (one - 1)) = Ok (2 ^ e - 1).
Proof.
  intros [He Hp].
  assert (C : e = 15 \/ 0 <= e <= 14) by lia. destruct C as [->|C].
  - destruct p; [specialize (Hp eq_refl); lia|reflexivity].
  - unfold sshl, in_u. rewrite pow2_32.
    destruct (Z.leb_spec 0 e); [|lia]. destruct (Z.ltb_spec e 4294967296); [|lia].
    destruct (Z.ltb_spec e 16); [|lia]. cbn [andb bind].
    assert (0 < 2 ^ e) by (apply Z.pow_pos_nonneg; lia).
    assert (2 ^ e <= 2 ^ 14) by (apply Z.pow_le_mono_r; lia).
    change (2 ^ 14) with 16384 in *.
    rewrite Z.shiftl_1_l, swrap_small by (rewrite ?pow16; lia).
    apply schk_ok. rewrite pow16; lia.
Qed.

Theorem write_compressed_spec {k} p s bs e v :
  holds k s bs -> exp_ok p e -> -32767 <= v <= 32767 ->
  zlen bs + zlen (rice e v) < 2 ^ 64 ->
  exists s', write_compressed p s e v = Ok s' /\ holds k s' (bs ++ rice e v).
Proof.
  intros Hs He Hv Hb. pose proof He as [He' _].
  rewrite zlen_rice in Hb by lia. pose proof (zlen_nonneg bs).
  assert (Hpe : 0 < 2 ^ e) by (apply Z.pow_pos_nonneg; lia).
  assert (Hpe' : 2 ^ e <= 2 ^ 15) by (apply Z.pow_le_mono_r; lia).
  change (2 ^ 15) with 32768 in Hpe'.
  set (a := Z.abs v) in *. assert (Ha : 0 <= a <= 32767) by (unfold a; lia).
  assert (Hq : 0 <= a / 2 ^ e <= a).
  { split; [apply Z.div_pos; lia|]. apply Z.div_le_upper_bound; nia. }
  pose proof (Z.mod_pos_bound a (2 ^ e) Hpe) as Hr.
  unfold write_compressed. fold a.
  rewrite schk_ok by (rewrite pow16; lia). cbn [bind].
  assert (E1 : shr p 16 a e = Ok (a / 2 ^ e)).
  { unfold shr, in_u. rewrite pow2_32.
    destruct (Z.leb_spec 0 e); [|lia]. destruct (Z.ltb_spec e 4294967296); [|lia].
    destruct (Z.ltb_spec e 16); [|lia]. cbn [andb]. now rewrite Z.shiftr_div_pow2 by lia. }
  rewrite E1. cbn [bind].
  match goal with |- context [bind (sshl p 16 1 e) ?k] =>
    replace (bind (sshl p 16 1 e) k) with
      (bind (bind (sshl p 16 1 e) (fun one => schk p 16 (one - 1)))
            (fun mask =>
               let remainder := Z.land a mask in
               let remainder_size := uwrap 64 e in
               s <- write_bit p s (if v <? 0 then 1 else 0) ;;
               s <- write_unary p 257 s (a / 2 ^ e) ;;
               s <- write_bit p s 0 ;;
               write_bits p s (uwrap 32 remainder) remainder_size))
      by apply bind_assoc end.
  rewrite write_compressed_mask by auto. cbn [bind].
  assert (E2 : Z.land a (2 ^ e - 1) = a mod 2 ^ e).
  { change (2 ^ e - 1) with (Z.pred (2 ^ e)). rewrite <- Z.ones_equiv. apply Z.land_ones; lia. }
  rewrite E2. rewrite (uwrap_small 32) by (rewrite pow2_32; lia).
  rewrite (uwrap_small 64) by (rewrite pow2_64; lia).
  destruct (holds_write_bit p s bs (if v <? 0 then 1 else 0) Hs ltac:(lia)) as (s1 & F1 & H1).
  rewrite F1; cbn [bind].
  destruct (write_unary_spec p 257 s1 _ (a / 2 ^ e) H1 ltac:(lia) ltac:(lia)
              ltac:(rewrite zlen_app; change (zlen [Z.odd (if v <? 0 then 1 else 0)]) with 1; lia))
    as (s2 & F2 & H2).
  rewrite F2; cbn [bind].
  destruct (holds_write_bit p s2 _ 0 H2) as (s3 & F3 & H3).
  { rewrite !zlen_app, zlen_repeat; change (zlen [Z.odd (if v <? 0 then 1 else 0)]) with 1. lia. }
  rewrite F3; cbn [bind].
  destruct (holds_write_bits p s3 _ (a mod 2 ^ e) (Z.to_nat e) H3 ltac:(lia)) as (s4 & F4 & H4).
  { rewrite pow2_128; lia. }
  { rewrite !zlen_app, zlen_repeat; change (zlen [Z.odd (if v <? 0 then 1 else 0)]) with 1.
    change (zlen [Z.odd 0]) with 1. lia. }
  rewrite Z2Nat.id in F4 by lia. rewrite F4.
  exists s4; split; auto.
  unfold rice. fold a.
  replace (Z.odd (if v <? 0 then 1 else 0)) with (v <? 0) in H4 by (destruct (v <? 0); reflexivity).
  change (Z.odd 0) with false in H4.
  rewrite <- !app_assoc in H4. exact H4.
Qed.

(** ** Reading *)
Lemma trailing_ones_spec fuel x q :
  0 <= q < Z.of_nat fuel -> 0 <= x ->
  (forall j, 0 <= j < q -> Z.testbit x j = true) -> Z.testbit x q = false ->
  trailing_ones fuel x = q.
Proof.
  revert x q; induction fuel; intros x q Hq Hx H1 H0; [lia|].
  cbn [trailing_ones]. rewrite <- Z.bit0_odd.
  destruct (Z.eq_dec q 0) as [->|Hq0].
  - now rewrite H0.
  - rewrite H1 by lia. rewrite (IHfuel _ (q - 1)); [lia| lia | | |].
    + apply Z.shiftr_nonneg; lia.
    + intros j Hj. rewrite testbit_shiftr by lia. apply H1; lia.
    + rewrite testbit_shiftr by lia. now replace (q - 1 + 1) with q by lia.
Qed.

Lemma nth_unary q j : 
  nth j (repeat true q ++ [false]) false = (j <? q)%nat.
Proof.
  destruct (Nat.ltb_spec j q).
  - rewrite app_nth1 by (rewrite repeat_length; lia).
    rewrite (nth_indep _ false true) by (rewrite repeat_length; lia). apply nth_repeat.
  - rewrite app_nth2 by (rewrite repeat_length; lia). rewrite repeat_length.
    destruct (j - q)%nat as [|[|]]; reflexivity.
Qed.

Lemma skip_ones_spec p fuel s m c q acc :
  reader s m c -> bits_at m c (repeat true (Z.to_nat q) ++ [false]) ->
  0 <= q -> 0 <= acc -> acc + q <= 32767 -> q / 128 < Z.of_nat fuel ->
  c + q + 256 < 2 ^ 64 ->
  exists s' chunk,
    skip_ones p fuel s acc = Ok (s', acc + 128 * (q / 128), chunk) /\
    reader s' m (c + 128 * (q / 128)) /\
    0 <= chunk < 2 ^ 128 /\
    (forall j, 0 <= j < q mod 128 -> Z.testbit chunk j = true) /\
    Z.testbit chunk (q mod 128) = false.
Proof.
  revert s c q acc; induction fuel; intros s c q acc R B Hq Ha Haq Hf Hb.
  { pose proof (Z.div_pos q 128). lia. }
  pose proof R as (W & X & C). pose proof W as [Hc0 _].
  cbn [skip_ones].
  destruct (peek_bits_spec p s 128 W ltac:(lia) ltac:(lia))
    as (s' & v & E & W' & C' & K' & X' & L' & V1 & V2).
  rewrite E. cbn [bind].
  assert (Bit : forall i, 0 <= i < 128 -> i <= q -> Z.testbit v i = (i <? q)).
  { intros i Hi Hiq. rewrite V2 by lia. destruct X as [_ X]. rewrite C, X by lia.
    rewrite B, nth_unary by (rewrite zlen_app, zlen_repeat; change (zlen [false]) with 1; lia).
    apply eq_true_iff_eq. rewrite Nat.ltb_lt, Z.ltb_lt. lia. }
  assert (R' : reader s' m c).
  { split; [auto|]. split; [eapply ext_trans; eauto|lia]. }
  destruct (Z.ltb_spec q 128) as [Hlt|Hge].
  - (* the terminating zero is in this window *)
    rewrite Z.div_small, Z.mod_small by lia. rewrite Z.mul_0_r, !Z.add_0_r.
    destruct (Z.eqb_spec v (2 ^ 128 - 1)) as [Ev|_].
    + specialize (Bit q ltac:(lia) ltac:(lia)). rewrite Z.ltb_irrefl in Bit.
      rewrite Ev in Bit. change (2 ^ 128 - 1) with (Z.ones 128) in Bit.
      rewrite Z.testbit_ones_nonneg in Bit by lia.
      destruct (Z.ltb_spec q 128); [discriminate|lia].
    + exists s', v. split; [reflexivity|]. split; [auto|]. split; [auto|]. split.
      * intros j Hj. rewrite Bit by lia. apply Z.ltb_lt; lia.
      * rewrite Bit by lia. apply Z.ltb_irrefl.
  - assert (Ev : v = 2 ^ 128 - 1).
    { change (2 ^ 128 - 1) with (Z.ones 128). apply Z.bits_inj'; intros i Hi.
      rewrite Z.testbit_ones_nonneg by lia. destruct (Z.ltb_spec i 128).
      - rewrite Bit by lia. apply Z.ltb_lt; lia.
      - apply (testbit_high 128); lia. }
    rewrite Ev, Z.eqb_refl. rewrite offset_ok by lia. cbn [bind].
    rewrite schk_ok by (rewrite pow16; lia). cbn [bind].
    assert (Hdiv : (q - 128) / 128 = q / 128 - 1).
    { replace (q - 128) with (q + (-1) * 128) by lia. rewrite Z.div_add; lia. }
    assert (Hmod : (q - 128) mod 128 = q mod 128).
    { replace (q - 128) with (q + (-1) * 128) by lia. rewrite Z.mod_add; lia. }
    destruct (IHfuel (mkBS (bs_binary s') (bs_cursor s' + 128)
                (Z.max (bs_cursor s' + 128) (bs_capacity s'))) (c + 128) (q - 128) (acc + 128))
      as (s'' & chunk & E'' & R'' & Hr).
    + destruct R' as (Wa & Xa & Ca). destruct Wa as [Wa Wb].
      split; [split; cbn [bs_binary bs_cursor]; auto; lia|].
      split; cbn [bs_binary bs_cursor]; [auto|lia].
    + replace (Z.to_nat q) with (128 + Z.to_nat (q - 128))%nat in B by lia.
      rewrite repeat_app, <- app_assoc in B. apply bits_at_app in B. destruct B as [_ B].
      rewrite zlen_repeat in B. exact B.
    + lia.
    + lia.
    + lia.
    + lia.
    + lia.
    + exists s'', chunk. rewrite E''. rewrite Hdiv in *. rewrite Hmod in Hr.
      split; [do 3 f_equal; lia|]. split; [|exact Hr].
      replace (c + 128 * (q / 128)) with (c + 128 + 128 * (q / 128 - 1)) by lia. exact R''.
Qed.

Theorem read_compressed_spec p s m c e v :
  reader s m c -> bits_at m c (rice e v) -> exp_ok p e -> -32767 <= v <= 32767 ->
  c + zlen (rice e v) <= 128 * zlen m -> c + zlen (rice e v) + 512 < 2 ^ 64 ->
  exists s', read_compressed p s e = Ok (s', v) /\ reader s' m (c + zlen (rice e v)).
Proof.
  intros R B He Hv Hl Hb. pose proof He as [He' _].
  rewrite zlen_rice in * by lia.
  pose proof R as ([Hc0 _] & [Hlen _] & Ec). subst c.
  assert (Hpe : 0 < 2 ^ e) by (apply Z.pow_pos_nonneg; lia).
  assert (Hpe' : 2 ^ e <= 2 ^ 15) by (apply Z.pow_le_mono_r; lia).
  change (2 ^ 15) with 32768 in Hpe'.
  set (a := Z.abs v) in *. assert (Ha : 0 <= a <= 32767) by (unfold a; lia).
  set (q := a / 2 ^ e) in *.
  assert (Hq : 0 <= q <= a).
  { unfold q. split; [apply Z.div_pos; lia|]. apply Z.div_le_upper_bound; nia. }
  pose proof (Z.mod_pos_bound a (2 ^ e) Hpe) as Hr.
  pose proof (Z.div_mod a (2 ^ e) ltac:(lia)) as Ea. fold q in Ea.
  unfold rice in B. fold a q in B.
  apply bits_at_cons in B. destruct B as [B1 B].
  change (false :: ?l) with ([false] ++ l) in B. rewrite app_assoc in B.
  apply bits_at_app in B. destruct B as [B2 B3].
  unfold read_compressed.
  set (c := bs_cursor s) in *.
  destruct (read_bit_spec p s m c (v <? 0) R) as (s1 & E1 & R1 & L1).
  { apply bits_at_cons; split; [auto|apply bits_at_nil]. }
  { lia. } { lia. }
  rewrite E1. cbn [bind].
  assert (Es : exists d, sshl p 16 1 e = Ok d /\ schk p 16 (d * q) = Ok (2 ^ e * q)).
  { unfold sshl, in_u. rewrite pow2_32.
    destruct (Z.leb_spec 0 e); [|lia]. destruct (Z.ltb_spec e 4294967296); [|lia].
    destruct (Z.ltb_spec e 16); [|lia]. cbn [andb]. eexists; split; [reflexivity|].
    rewrite Z.shiftl_1_l.
    assert (C : e = 15 \/ 0 <= e <= 14) by lia. destruct C as [Ce|Ce].
    - assert (q = 0) as Hq0.
      { unfold q. rewrite Ce. apply Z.div_small. change (2 ^ 15) with 32768. lia. }
      rewrite Hq0, !Z.mul_0_r. reflexivity.
    - assert (2 ^ e <= 2 ^ 14) by (apply Z.pow_le_mono_r; lia).
      change (2 ^ 14) with 16384 in *.
      rewrite swrap_small by (rewrite ?pow16; lia). apply schk_ok. rewrite pow16; nia. }
  destruct Es as (d & Ed & Edq). rewrite Ed. cbn [bind].
  destruct (skip_ones_spec p (S (S (length (bs_binary s1)))) s1 m (c + 1) q 0 R1 B2)
    as (s2 & chunk & E2 & R2 & Hch & H1 & H0).
  { lia. } { lia. } { lia. }
  { rewrite L1 || idtac. apply Z.div_lt_upper_bound; [lia|].
    destruct R1 as (_ & [Hl1 _] & _). unfold zlen in *. lia. }
  { lia. }
  rewrite E2. cbn [bind]. rewrite Z.add_0_l.
  pose proof (Z.mod_pos_bound q 128 ltac:(lia)) as Hqm.
  pose proof (Z.div_mod q 128 ltac:(lia)) as Eqm.
  rewrite (trailing_ones_spec 128 chunk (q mod 128)) by (auto; lia).
  pose proof R2 as ([Hc2 Hk2] & X2 & C2).
  rewrite offset_ok by lia. cbn [bind].
  replace (128 * (q / 128) + q mod 128) with q by lia.
  rewrite schk_ok by (rewrite pow16; lia). cbn [bind].
  rewrite (uwrap_small 32 e) by (rewrite pow2_32; lia).
  set (s3 := mkBS (bs_binary s2) (bs_cursor s2 + (q mod 128 + 1))
               (Z.max (bs_cursor s2 + (q mod 128 + 1)) (bs_capacity s2))).
  assert (R3 : reader s3 m (c + 2 + q)).
  { unfold reader, wf, s3; cbn [bs_binary bs_cursor].
    split; [split|split]; auto; [|lia]. destruct X2 as [X2 _]. lia. }
  assert (B3' : bits_at m (c + 2 + q) (bits_le (Z.to_nat e) (a mod 2 ^ e))).
  { rewrite zlen_app, zlen_repeat in B3. change (zlen [false]) with 1 in B3.
    replace (c + 2 + q) with (c + 1 + (Z.of_nat (Z.to_nat q) + 1)) by lia. exact B3. }
  destruct (read_bits_spec p s3 m (c + 2 + q) _ R3 B3') as (s4 & E4 & R4).
  { rewrite zlen_bits_le; lia. } { lia. }
  rewrite zlen_bits_le, Z2Nat.id in E4, R4 by lia.
  rewrite E4. cbn [bind].
  rewrite bits_val_le, Z2Nat.id by lia. rewrite Zmod_mod.
  rewrite (swrap_small 16) by (rewrite ?pow16; lia).
  rewrite Edq. cbn [bind].
  rewrite schk_ok by (rewrite pow16; lia). cbn [bind].
  rewrite <- Ea.
  exists s4. split.
  - destruct (Z.ltb_spec v 0); cbn [Z.b2z].
    + rewrite schk_ok by (rewrite pow16; lia). cbn [bind].
      rewrite schk_ok by (rewrite pow16; lia). cbn [bind].
      rewrite schk_ok by (rewrite pow16; lia). cbn [bind].
      rewrite schk_ok by (rewrite pow16; lia). cbn [bind].
      rewrite schk_ok by (rewrite pow16; lia). cbn [bind].
      do 2 f_equal. unfold a. lia.
    + rewrite schk_ok by (rewrite pow16; lia). cbn [bind].
      rewrite schk_ok by (rewrite pow16; lia). cbn [bind].
      rewrite schk_ok by (rewrite pow16; lia). cbn [bind].
      rewrite schk_ok by (rewrite pow16; lia). cbn [bind].
      rewrite schk_ok by (rewrite pow16; lia). cbn [bind].
      do 2 f_equal. unfold a. lia.
  - replace (c + (q + e + 2)) with (c + 2 + q + e) by lia. exact R4.
Qed.
