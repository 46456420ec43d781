(** * The bit stream as an append log of bits, and reading it back *)
From Coq Require Import ZArith List Bool Lia.
From Verif Require Import Model.Base Model.BitStream Proofs.BaseFacts Proofs.BitStreamFacts Spec.Bits.
Import ListNotations.
Open Scope Z_scope.

(** ** Bit strings *)
Lemma length_bits_le n v : length (bits_le n v) = n.
Proof. revert v; induction n; cbn; auto. Qed.
Lemma zlen_bits_le n v : zlen (bits_le n v) = Z.of_nat n.
Proof. unfold zlen; now rewrite length_bits_le. Qed.
Lemma nth_bits_le n v j d : (j < n)%nat -> nth j (bits_le n v) d = Z.testbit v (Z.of_nat j).
Proof.
  revert v j; induction n; intros v j H; [lia|]. cbn [bits_le].
  destruct j; cbn [nth].
  - symmetry; apply Z.bit0_odd.
  - rewrite IHn by lia. rewrite <- Z.div2_div, Z.div2_spec, testbit_shiftr by lia. f_equal; lia.
Qed.
Lemma bits_val_range l : 0 <= bits_val l < 2 ^ zlen l.
Proof.
  induction l.
  - cbn; lia.
  - rewrite zlen_cons, Z.pow_add_r by (pose proof (zlen_nonneg l); lia).
    cbn [bits_val]. destruct a; lia.
Qed.
Lemma testbit_bits_val l j : (j < length l)%nat -> Z.testbit (bits_val l) (Z.of_nat j) = nth j l false.
Proof.
  revert j; induction l; intros j H; cbn in H; [lia|]. cbn [bits_val].
  destruct j.
  - cbn [nth]. rewrite Z.bit0_odd, Z.odd_add_mul_2. now destruct a.
  - cbn [nth]. rewrite <- IHl by lia.
    rewrite Nat2Z.inj_succ.
    destruct a.
    + rewrite Z.add_comm, Z.testbit_odd_succ by lia. reflexivity.
    + rewrite Z.add_0_l, Z.testbit_even_succ by lia. reflexivity.
Qed.
Lemma bits_val_le n v : bits_val (bits_le n v) = v mod 2 ^ Z.of_nat n.
Proof.
  apply Z.bits_inj'; intros i Hi.
  destruct (Z.ltb_spec i (Z.of_nat n)).
  - rewrite Z.mod_pow2_bits_low by lia.
    replace i with (Z.of_nat (Z.to_nat i)) by lia.
    rewrite testbit_bits_val by (rewrite length_bits_le; lia).
    apply nth_bits_le; lia.
  - rewrite Z.mod_pow2_bits_high by lia.
    apply (testbit_high (Z.of_nat n)); [|lia].
    rewrite <- zlen_bits_le with (v := v). apply bits_val_range.
Qed.
Lemma bits_val_ext l v :
  0 <= v < 2 ^ zlen l ->
  (forall j, (j < length l)%nat -> Z.testbit v (Z.of_nat j) = nth j l false) ->
  v = bits_val l.
Proof.
  intros Hv H. apply Z.bits_inj'; intros i Hi.
  destruct (Z.ltb_spec i (zlen l)).
  - replace i with (Z.of_nat (Z.to_nat i)) by lia.
    rewrite H, testbit_bits_val by (unfold zlen in *; lia). reflexivity.
  - rewrite (testbit_high (zlen l) v), (testbit_high (zlen l) (bits_val l)); auto using bits_val_range.
Qed.

(** ** Bits at a position *)
Definition bits_at (m : list Z) (c : Z) (bs : list bool) : Prop :=
  forall j, 0 <= j < zlen bs -> mbit m (c + j) = nth (Z.to_nat j) bs false.

Lemma bits_at_nil m c : bits_at m c [].
Proof. intros j Hj; change (zlen (@nil bool)) with 0 in Hj; lia. Qed.
Lemma bits_at_app m c a b :
  bits_at m c (a ++ b) <-> bits_at m c a /\ bits_at m (c + zlen a) b.
Proof.
  unfold bits_at; rewrite zlen_app. pose proof (zlen_nonneg a); pose proof (zlen_nonneg b).
  split.
  - intros H'; split; intros j Hj.
    + rewrite H' by lia. apply app_nth1. unfold zlen in *; lia.
    + rewrite <- Z.add_assoc, H' by lia.
      rewrite app_nth2 by (unfold zlen in *; lia). f_equal. unfold zlen in *; lia.
  - intros [H1 H2] j Hj.
    destruct (Z.ltb_spec j (zlen a)).
    + rewrite H1, app_nth1 by (unfold zlen in *; lia). reflexivity.
    + replace (c + j) with (c + zlen a + (j - zlen a)) by lia.
      rewrite H2, app_nth2 by (unfold zlen in *; lia). f_equal; unfold zlen in *; lia.
Qed.
Lemma bits_at_cons m c x b :
  bits_at m c (x :: b) <-> mbit m c = x /\ bits_at m (c + 1) b.
Proof.
  change (x :: b) with ([x] ++ b). rewrite bits_at_app. change (zlen [x]) with 1.
  split; intros [H1 H2]; split; auto.
  - specialize (H1 0 ltac:(cbn; lia)). rewrite Z.add_0_r in H1. exact H1.
  - intros j Hj. change (zlen [x]) with 1 in Hj. replace j with 0 by lia.
    rewrite Z.add_0_r. exact H1.
Qed.

(** [m'] extends [m] by zero chunks only. *)
Definition ext (m m' : list Z) : Prop :=
  zlen m <= zlen m' /\ forall i, 0 <= i -> mbit m' i = mbit m i.
Lemma ext_refl m : ext m m. Proof. split; [lia|auto]. Qed.
Lemma ext_trans a b c : ext a b -> ext b c -> ext a c.
Proof. intros [H1 H2] [H3 H4]; split; [lia|]; intros; rewrite H4, H2; auto. Qed.
Lemma bits_at_ext m m' c bs : 0 <= c -> ext m m' -> bits_at m c bs -> bits_at m' c bs.
Proof. intros Hc [_ H] Hb j Hj. rewrite H by lia. auto. Qed.

(** ** Writing: the stream holds exactly the bits [bs], written from a fresh stream; it has
    at most [k] chunks or two more than the bits fill *)
Definition holds (k : Z) (s : bitstream) (bs : list bool) : Prop :=
  wf s /\ fresh s /\ bs_cursor s = zlen bs /\ bits_at (bs_binary s) 0 bs /\
  zlen (bs_binary s) <= Z.max k (zlen bs / 128 + 2).

Lemma holds_new {k} : holds k bs_new [].
Proof.
  split; [|split; [|split; [|split]]]; try (split; cbn); try (cbn; lia); auto using bits_at_nil.
  - constructor.
  - intros j _. unfold mchunk. now destruct (Z.to_nat j).
Qed.

Lemma alloc_len s i : zlen (bs_binary (allocate_if_needed s i)) <= Z.max (zlen (bs_binary s)) (i + 1).
Proof.
  unfold allocate_if_needed. destruct (Z.leb_spec (zlen (bs_binary s)) i); cbn [bs_binary]; [|lia].
  rewrite zlen_app. change (zlen [0]) with 1. lia.
Qed.
Lemma write_bit_len p s v s' : wf s -> bs_cursor s < 2 ^ 64 -> write_bit p s v = Ok s' ->
  zlen (bs_binary s') <= Z.max (zlen (bs_binary s)) (bs_cursor s / 128 + 1).
Proof.
  intros [Hc _] Hb H. unfold write_bit in H. inv_bind H. inv_bind H. unfold offset_bit_cursor in H. inv_bind H.
  injection H as <-. cbn [bs_binary set_binary].
  match goal with H : store _ _ _ = Ok _ |- _ => apply store_inv in H; destruct H as [_ ->] end. rewrite zlen_replace_nth.
  eapply Z.le_trans; [apply alloc_len|]. unfold chunk_index.
  assert (0 <= bs_cursor s / 128 < 2 ^ 64).
  { split; [apply Z.div_pos; lia|]. apply Z.div_lt_upper_bound; lia. }
  rewrite uwrap_small by lia. lia.
Qed.
Lemma holds_write_bits {k} p s bs v n :
  holds k s bs -> (n <= 128)%nat -> 0 <= v < 2 ^ 128 -> zlen bs + Z.of_nat n < 2 ^ 64 ->
  exists s', write_bits p s v (Z.of_nat n) = Ok s' /\ holds k s' (bs ++ bits_le n v).
Proof.
  intros (W & F & C & B & L) Hn Hv Hb.
  destruct (write_bits_fresh p s v (Z.of_nat n) W F ltac:(lia) Hv ltac:(lia))
    as (s' & E & C' & K' & W' & F' & B1 & B2).
  pose proof (zlen_nonneg bs).
  exists s'; split; auto. split; [auto|split; [auto|]].
  rewrite zlen_app, zlen_bits_le. split; [lia|]. split.
  2:{ destruct (write_bits_general p s v (Z.of_nat n) W ltac:(lia) Hv ltac:(lia)) as (s2 & E2 & _ & _ & _ & L2 & _).
      rewrite E in E2. injection E2 as <-. rewrite C in L2.
      pose proof (Z.div_le_mono (zlen bs) (zlen bs + Z.of_nat n) 128 ltac:(lia) ltac:(lia)). lia. }
  apply bits_at_app; split.
  - intros j Hj. rewrite Z.add_0_l, B1 by lia. specialize (B j Hj). now rewrite Z.add_0_l in B.
  - intros j Hj. rewrite zlen_bits_le in Hj. rewrite Z.add_0_l, <- C, B2 by lia.
    rewrite nth_bits_le by lia. f_equal; lia.
Qed.
Lemma holds_write_bit {k} p s bs v :
  holds k s bs -> zlen bs + 1 < 2 ^ 64 ->
  exists s', write_bit p s v = Ok s' /\ holds k s' (bs ++ [Z.odd v]).
Proof.
  intros (W & F & C & B & L) Hb.
  destruct (write_bit_fresh p s v W F ltac:(lia))
    as (s' & E & C' & K' & W' & F' & B1 & B2).
  pose proof (zlen_nonneg bs).
  exists s'; split; auto. split; [auto|split; [auto|]].
  rewrite zlen_app. change (zlen [Z.odd v]) with 1. split; [lia|]. split.
  2:{ pose proof (write_bit_len p s v s' W ltac:(lia) E) as L2. rewrite C in L2.
      pose proof (Z.div_le_mono (zlen bs) (zlen bs + 1) 128 ltac:(lia) ltac:(lia)). lia. }
  apply bits_at_app; split.
  - intros j Hj. rewrite Z.add_0_l, B1 by lia. specialize (B j Hj). now rewrite Z.add_0_l in B.
  - intros j Hj. change (zlen [Z.odd v]) with 1 in Hj. replace j with 0 by lia.
    rewrite Z.add_0_l, Z.add_0_r, <- C, B2. reflexivity.
Qed.

(** ** Reading *)
(** The reader is at bit [c] of memory [m] (up to trailing zero chunks). *)
Definition reader (s : bitstream) (m : list Z) (c : Z) : Prop :=
  wf s /\ ext m (bs_binary s) /\ bs_cursor s = c.

Lemma peek_bits_spec p s n :
  wf s -> 0 <= n <= 128 -> bs_cursor s + 128 < 2 ^ 64 ->
  exists s' v,
    peek_bits p s n = Ok (s', v) /\ wf s' /\ bs_cursor s' = bs_cursor s /\
    bs_capacity s' = bs_capacity s /\ ext (bs_binary s) (bs_binary s') /\
    bs_cursor s + 128 <= 128 * zlen (bs_binary s') /\
    0 <= v < 2 ^ n /\
    (forall i, 0 <= i < n -> Z.testbit v i = mbit (bs_binary s) (bs_cursor s + i)).
Proof.
  intros [Hc Hm] Hn Hb.
  set (c := bs_cursor s) in *.
  assert (P64 : 2 ^ 64 = 18446744073709551616) by reflexivity.
  pose proof (Z.div_mod c 128 ltac:(lia)) as Edm.
  pose proof (Z.mod_pos_bound c 128 ltac:(lia)) as Hbm.
  set (q := c / 128) in *. set (b := c mod 128) in *.
  assert (Hq : 0 <= q) by (apply Z.div_pos; lia).
  assert (Hqlen : q <= zlen (bs_binary s)).
  { unfold q. apply Z.div_le_upper_bound; lia. }
  unfold peek_bits.
  assert (Eci : chunk_index s = q).
  { unfold chunk_index. fold c q. apply uwrap_small. lia. }
  assert (Ecb : chunk_bit_index s = b) by reflexivity.
  rewrite Eci, Ecb. rewrite uchk_ok by lia. cbn [bind].
  rewrite (uwrap_small 32 n) by (rewrite pow2_32; lia).
  set (mask := if n <? 128 then Z.shiftl 1 n - 1 else 2 ^ 128 - 1).
  assert (Hmask : forall i, 0 <= i -> Z.testbit mask i = (i <? n)).
  { intros i Hi. unfold mask. destruct (Z.ltb_spec n 128).
    - now apply testbit_low_mask.
    - replace n with 128 by lia. change (2 ^ 128 - 1) with (Z.ones 128).
      now apply Z.testbit_ones_nonneg. }
  destruct (alloc_spec s q ltac:(lia)) as (A1 & A2 & A3 & A4 & A5).
  set (s1 := allocate_if_needed s q) in *.
  destruct (alloc_spec s1 (q + 1) ltac:(lia)) as (B1 & B2 & B3 & B4 & B5).
  set (s2 := allocate_if_needed s1 (q + 1)) in *.
  assert (M2 : forall j, mchunk (bs_binary s2) j = mchunk (bs_binary s) j)
    by (intros; rewrite B4; apply A4).
  assert (K2 : chunks_ok (bs_binary s2)) by auto.
  destruct (Z.leb_spec (zlen (bs_binary s2)) q); [lia|].
  rewrite (index_ok _ q 0) by lia. cbn [bind].
  fold (mchunk (bs_binary s2) q). rewrite M2.
  assert (Hrest : forall v0, 
    (forall i, 0 <= i < n -> Z.testbit v0 i = mbit (bs_binary s) (c + i)) ->
    exists s' v,
      Ok (s2, Z.land v0 mask) = Ok (s', v) /\ wf s' /\ bs_cursor s' = c /\
      bs_capacity s' = bs_capacity s /\ ext (bs_binary s) (bs_binary s') /\
      c + 128 <= 128 * zlen (bs_binary s') /\
      0 <= v < 2 ^ n /\
      (forall i, 0 <= i < n -> Z.testbit v i = mbit (bs_binary s) (c + i))).
  { intros v0 H0. exists s2, (Z.land v0 mask). split; [reflexivity|].
    split; [split; [fold c; rewrite B1, A1; fold c; lia | auto]|].
    split; [rewrite B1; exact A1|]. split; [rewrite B2; exact A2|].
    split; [split; [lia|]; intros; unfold mbit; now rewrite M2|].
    split; [lia|]. 
    split.
    - assert (0 <= Z.land v0 mask).
      { apply Z.land_nonneg; right. unfold mask. destruct (n <? 128).
        - rewrite Z.shiftl_1_l. assert (0 < 2 ^ n) by (apply Z.pow_pos_nonneg; lia). lia.
        - rewrite pow2_128; lia. }
      split; auto. apply below_testbit; [lia|auto|].
      intros i Hi. rewrite Z.land_spec, Hmask by lia.
      destruct (Z.ltb_spec i n); [lia|]. apply andb_false_r.
    - intros i Hi. rewrite Z.land_spec, Hmask by lia.
      destruct (Z.ltb_spec i n); [|lia]. rewrite andb_true_r. now apply H0. }
  destruct (Z.ltb_spec (128 - b) n).
  - rewrite (index_ok _ (q + 1) 0) by lia. cbn [bind].
    fold (mchunk (bs_binary s2) (q + 1)). rewrite M2.
    assert (E1 : forall x, ushl p 128 x (128 - b) = Ok (uwrap 128 (Z.shiftl x (128 - b))) \/ b = 0).
    { intros. destruct (Z.eq_dec b 0); [now right|left]. unfold ushl, in_u. rewrite pow2_32.
      destruct (Z.leb_spec 0 (128 - b)); [|lia]. destruct (Z.ltb_spec (128 - b) 4294967296); [|lia].
      destruct (Z.ltb_spec (128 - b) 128); [reflexivity|lia]. }
    destruct (E1 (mchunk (bs_binary s) (q + 1))) as [E|E]; [|lia]. rewrite E. cbn [bind].
    apply Hrest. intros i Hi.
    rewrite Z.lor_spec, testbit_shiftr, testbit_uwrap, testbit_shiftl by lia.
    destruct (Z.ltb_spec i 128); [|lia]. cbn [andb].
    unfold mbit.
    destruct (Z.ltb_spec (b + i) 128).
    + replace (c + i) with (128 * q + (b + i)) by lia.
      rewrite div128_plus, mod128_plus by lia.
      rewrite (Z.testbit_neg_r _ (i - (128 - b))) by lia. rewrite orb_false_r. f_equal; lia.
    + replace (c + i) with (128 * (q + 1) + (b + i - 128)) by lia.
      rewrite div128_plus, mod128_plus by lia.
      rewrite (testbit_high 128 (mchunk (bs_binary s) q)); [|now apply mchunk_range|lia].
      cbn [orb]. f_equal; lia.
  - cbn [bind]. apply Hrest. intros i Hi.
    rewrite testbit_shiftr by lia. unfold mbit.
    replace (c + i) with (128 * q + (b + i)) by lia.
    rewrite div128_plus, mod128_plus by lia. f_equal; lia.
Qed.

Lemma offset_ok p s n :
  0 <= bs_cursor s -> 0 <= n -> bs_cursor s + n < 2 ^ 64 ->
  offset_bit_cursor p s n =
  Ok (mkBS (bs_binary s) (bs_cursor s + n) (Z.max (bs_cursor s + n) (bs_capacity s))).
Proof.
  intros. unfold offset_bit_cursor.
  assert (P64 : 2 ^ 64 = 18446744073709551616) by reflexivity.
  assert (E1 : swrap 128 (bs_cursor s) = bs_cursor s).
  { apply swrap_small; [lia|]. change (2 ^ (128 - 1)) with (2 ^ 127). rewrite pow2_127; lia. }
  rewrite E1, schk_ok by (change (2 ^ (128 - 1)) with (2 ^ 127); rewrite pow2_127; lia).
  cbn [bind]. rewrite uwrap_small by (rewrite pow2_128; lia). reflexivity.
Qed.

Lemma read_bits_spec p s m c bs :
  reader s m c -> bits_at m c bs -> zlen bs <= 128 ->
  c + 256 < 2 ^ 64 ->
  exists s', read_bits p s (zlen bs) = Ok (s', bits_val bs) /\ reader s' m (c + zlen bs).
Proof.
  intros (W & X & C) B Hn Hb. pose proof (zlen_nonneg bs) as H0.
  pose proof W as [Hc0 Hm].
  destruct (peek_bits_spec p s (zlen bs) W ltac:(lia) ltac:(lia))
    as (s' & v & E & W' & C' & K' & X' & L' & V1 & V2).
  unfold read_bits. rewrite E. cbn [bind].
  rewrite offset_ok by lia. cbn [bind].
  eexists; split.
  - do 2 f_equal. apply bits_val_ext; auto. intros j Hj. rewrite V2 by (unfold zlen in *; lia).
    destruct X as [_ X]. rewrite C, X by lia. rewrite B by (unfold zlen in *; lia).
    f_equal; lia.
  - destruct W' as [Wa Wb]. split; [|split].
    + split; cbn [bs_binary bs_cursor]; auto. lia.
    + cbn [bs_binary]. eapply ext_trans; eauto.
    + cbn [bs_cursor]. lia.
Qed.

Lemma read_typed_spec p s m c bs :
  reader s m c -> bits_at m c bs -> zlen bs <= 128 ->
  c + 256 < 2 ^ 64 ->
  exists s', read_typed p s (zlen bs) = Ok (s', bits_val bs) /\ reader s' m (c + zlen bs).
Proof. exact (read_bits_spec p s m c bs). Qed.

Lemma read_bit_spec p s m c b :
  reader s m c -> bits_at m c [b] -> c < 128 * zlen m -> c + 1 < 2 ^ 64 ->
  exists s', read_bit p s = Ok (s', Z.b2z b) /\ reader s' m (c + 1)
             /\ zlen (bs_binary s') = zlen (bs_binary s).
Proof.
  intros ([Hc Hm] & [X1 X2] & C) B Hl Hb. subst c.
  unfold read_bit.
  assert (P64 : 2 ^ 64 = 18446744073709551616) by reflexivity.
  set (c := bs_cursor s) in *.
  pose proof (Z.div_mod c 128 ltac:(lia)) as Edm.
  pose proof (Z.mod_pos_bound c 128 ltac:(lia)) as Hbm.
  assert (Eci : chunk_index s = c / 128).
  { unfold chunk_index. apply uwrap_small. fold c. lia. }
  rewrite Eci. destruct (Z.leb_spec (zlen (bs_binary s)) (c / 128)); [lia|].
  rewrite offset_ok by lia. cbn [bind bs_binary].
  rewrite (index_ok _ (c / 128) 0) by lia. cbn [bind].
  eexists; split; [|split].
  - do 2 f_equal.
    fold (mchunk (bs_binary s) (c / 128)).
    apply bits_at_cons in B. destruct B as [B _].
    change 1 with (Z.ones 1). rewrite Z.land_ones by lia.
    rewrite <- B, <- X2 by lia. unfold mbit, chunk_bit_index. fold c.
    rewrite Z.testbit_spec' by lia. rewrite Z.shiftr_div_pow2 by lia. reflexivity.
  - split; [|split]; cbn [bs_binary bs_cursor]; auto.
    + split; cbn [bs_binary bs_cursor]; auto. fold c. lia.
    + split; auto.
  - reflexivity.
Qed.
