(** * The bit stream as a bit function *)
From Coq Require Import ZArith List Bool Lia.
From Verif Require Import Model.Base Model.BitStream Proofs.BaseFacts Spec.Bits.
Import ListNotations.
Open Scope Z_scope.

(** ** Bits of memory *)
Definition mchunk (m : list Z) (j : Z) : Z := nth (Z.to_nat j) m 0.
Definition mbit (m : list Z) (i : Z) : bool := Z.testbit (mchunk m (i / 128)) (i mod 128).

Definition chunks_ok (m : list Z) : Prop := Forall (fun x => 0 <= x < 2 ^ 128) m.

Definition wf (s : bitstream) : Prop :=
  0 <= bs_cursor s <= 128 * zlen (bs_binary s) /\ chunks_ok (bs_binary s).

(** All chunks after the cursor's chunk are zero. *)
Definition fresh (s : bitstream) : Prop :=
  forall j, bs_cursor s / 128 < j -> mchunk (bs_binary s) j = 0.

Lemma mchunk_range m j : chunks_ok m -> 0 <= mchunk m j < 2 ^ 128.
Proof.
  intros H; unfold mchunk.
  destruct (nth_in_or_default (Z.to_nat j) m 0) as [Hin | ->].
  - unfold chunks_ok in H; rewrite Forall_forall in H; auto.
  - split; [lia | reflexivity].
Qed.
Lemma mchunk_beyond m j : zlen m <= j -> mchunk m j = 0.
Proof. intros; unfold mchunk; apply nth_overflow. unfold zlen in *; lia. Qed.
Lemma mbit_beyond m i : 128 * zlen m <= i -> mbit m i = false.
Proof.
  intros; unfold mbit. rewrite mchunk_beyond, Z.bits_0; auto.
  apply Z.div_le_lower_bound; lia.
Qed.
Lemma mchunk_app0 m j : mchunk (m ++ [0]) j = mchunk m j.
Proof.
  unfold mchunk. destruct (Nat.ltb_spec (Z.to_nat j) (length m)).
  - now rewrite app_nth1.
  - rewrite app_nth2 by lia. rewrite (nth_overflow m) by lia.
    destruct (Z.to_nat j - length m)%nat as [|[|]]; reflexivity.
Qed.
Lemma mchunk_app m x j : 0 <= j -> mchunk (m ++ [x]) j = if j =? zlen m then x else mchunk m j.
Proof.
  intros; unfold mchunk. destruct (Z.eqb_spec j (zlen m)) as [->|].
  - now rewrite to_nat_zlen, app_nth2, Nat.sub_diag by lia.
  - unfold zlen in *. destruct (Nat.ltb_spec (Z.to_nat j) (length m)).
    + now rewrite app_nth1.
    + rewrite !nth_overflow; auto; rewrite ?app_length; cbn; lia.
Qed.
Lemma chunks_ok_app0 m : chunks_ok m -> chunks_ok (m ++ [0]).
Proof. intros; apply Forall_app; split; auto. constructor; auto. split; [lia|reflexivity]. Qed.

Lemma Forall_replace_nth {A} (P : A -> Prop) n l a :
  Forall P l -> P a -> Forall P (replace_nth n l a).
Proof.
  intros H Ha; revert n; induction H; destruct n; cbn; constructor; auto.
Qed.

(** ** Bit lemmas *)
Lemma testbit_uwrap w x i : 0 <= w -> 0 <= i -> Z.testbit (uwrap w x) i = (i <? w) && Z.testbit x i.
Proof.
  intros; unfold uwrap. destruct (Z.ltb_spec i w); cbn.
  - now apply Z.mod_pow2_bits_low.
  - apply Z.mod_pow2_bits_high; lia.
Qed.
Lemma testbit_high w x i : 0 <= x < 2 ^ w -> w <= i -> Z.testbit x i = false.
Proof.
  intros. destruct (Z.eq_dec x 0) as [->|]; [apply Z.bits_0|].
  apply Z.bits_above_log2; [lia|].
  assert (Z.log2 x < w); [|lia]. apply Z.log2_lt_pow2; lia.
Qed.
Lemma below_testbit w x : 0 <= w -> 0 <= x -> (forall i, w <= i -> Z.testbit x i = false) -> x < 2 ^ w.
Proof.
  intros Hw Hx H. destruct (Z.eq_dec x 0) as [->|Hx0]; [apply Z.pow_pos_nonneg; lia|].
  apply Z.log2_lt_pow2; [lia|].
  destruct (Z.ltb_spec (Z.log2 x) w); auto.
  specialize (H (Z.log2 x) ltac:(lia)). rewrite Z.bit_log2 in H by lia. discriminate.
Qed.
Lemma testbit_low_mask b i : 0 <= b -> 0 <= i -> Z.testbit (Z.shiftl 1 b - 1) i = (i <? b).
Proof.
  intros. change (Z.shiftl 1 b - 1) with (Z.pred (Z.shiftl 1 b)).
  fold (Z.ones b). now apply Z.testbit_ones_nonneg.
Qed.

Lemma testbit_shiftl x n i : 0 <= i -> Z.testbit (Z.shiftl x n) i = Z.testbit x (i - n).
Proof. apply Z.shiftl_spec. Qed.
Lemma testbit_shiftr x n i : 0 <= i -> Z.testbit (Z.shiftr x n) i = Z.testbit x (i + n).
Proof. apply Z.shiftr_spec. Qed.

Lemma div128_plus i k : 0 <= k < 128 -> (128 * i + k) / 128 = i.
Proof. intros; rewrite Z.add_comm, Z.mul_comm, Z.div_add, Z.div_small; lia. Qed.
Lemma mod128_plus i k : 0 <= k < 128 -> (128 * i + k) mod 128 = k.
Proof. intros; rewrite Z.add_comm, Z.mul_comm, Z.mod_add, Z.mod_small; lia. Qed.

(** ** Allocation *)
Lemma alloc_spec s k :
  zlen (bs_binary s) >= k ->
  let s' := allocate_if_needed s k in
  bs_cursor s' = bs_cursor s /\ bs_capacity s' = bs_capacity s /\
  zlen (bs_binary s') = Z.max (zlen (bs_binary s)) (k + 1) /\
  (forall j, mchunk (bs_binary s') j = mchunk (bs_binary s) j) /\
  (chunks_ok (bs_binary s) -> chunks_ok (bs_binary s')).
Proof.
  intros H s'. unfold s', allocate_if_needed.
  destruct (Z.leb_spec (zlen (bs_binary s)) k); cbn.
  - rewrite zlen_app, zlen_cons, zlen_nil.
    repeat split; auto using chunks_ok_app0; [lia|]. intros; apply mchunk_app0.
  - repeat split; auto; lia.
Qed.

Lemma mchunk_replace m k x j :
  0 <= k < zlen m -> 0 <= j ->
  mchunk (replace_nth (Z.to_nat k) m x) j = if k =? j then x else mchunk m j.
Proof.
  intros; unfold mchunk. rewrite nth_replace.
  unfold zlen in *.
  destruct (Nat.eqb_spec (Z.to_nat k) (Z.to_nat j)), (Z.eqb_spec k j); try lia; cbn [andb].
  - destruct (Nat.ltb_spec (Z.to_nat k) (length m)); auto; lia.
  - reflexivity.
Qed.

(** The effect of [write_bits] on any well-formed stream, stale memory included. *)
Lemma write_bits_general p s val n :
  wf s -> 0 <= n <= 128 -> 0 <= val < 2 ^ 128 -> bs_cursor s + n < 2 ^ 64 ->
  let c := bs_cursor s in
  exists s',
    write_bits p s val n = Ok s' /\
    bs_cursor s' = c + n /\
    bs_capacity s' = Z.max (c + n) (bs_capacity s) /\
    wf s' /\
    zlen (bs_binary s') = Z.max (zlen (bs_binary s)) (c / 128 + 2) /\
    (forall j, c / 128 + 1 < j -> mchunk (bs_binary s') j = mchunk (bs_binary s) j) /\
    (c mod 128 + n <= 128 ->
       mchunk (bs_binary s') (c / 128 + 1) = mchunk (bs_binary s) (c / 128 + 1)) /\
    (forall i, 0 <= i < c + n ->
       mbit (bs_binary s') i =
       if i <? c then mbit (bs_binary s) i
       else Z.testbit val (i - c) || (negb (i / 128 =? c / 128) && mbit (bs_binary s) i)).
Proof.
  intros [Hc Hm] Hn Hv Hb c. subst c.
  set (c := bs_cursor s) in *.
  assert (P128 : 0 < 2 ^ 128) by reflexivity.
  assert (P64 : 2 ^ 64 = 18446744073709551616) by reflexivity.
  pose proof (Z.div_mod c 128 ltac:(lia)) as Edm.
  pose proof (Z.mod_pos_bound c 128 ltac:(lia)) as Hbm.
  set (q := c / 128) in *. set (b := c mod 128) in *.
  assert (Hq : 0 <= q) by (apply Z.div_pos; lia).
  assert (Hqlen : q <= zlen (bs_binary s)).
  { unfold q. apply Z.div_le_upper_bound; lia. }
  unfold write_bits.
  assert (Eci : chunk_index s = q).
  { unfold chunk_index. fold c q. apply uwrap_small. lia. }
  assert (Ecb : chunk_bit_index s = b) by reflexivity.
  rewrite Eci, Ecb. rewrite uchk_ok by lia. cbn [bind].
  destruct (alloc_spec s q ltac:(lia)) as (A1 & A2 & A3 & A4 & A5).
  set (s1 := allocate_if_needed s q) in *.
  destruct (alloc_spec s1 (q + 1) ltac:(lia)) as (B1 & B2 & B3 & B4 & B5).
  set (s2 := allocate_if_needed s1 (q + 1)) in *.
  assert (L2 : zlen (bs_binary s2) = Z.max (zlen (bs_binary s)) (q + 2)) by lia.
  assert (M2 : forall j, mchunk (bs_binary s2) j = mchunk (bs_binary s) j)
    by (intros; rewrite B4; apply A4).
  assert (K2 : chunks_ok (bs_binary s2)) by auto.
  rewrite (index_ok _ q 0) by lia. cbn [bind].
  fold (mchunk (bs_binary s2) q). rewrite M2.
  rewrite store_ok by lia. cbn [bind].
  set (x := Z.lor (Z.land (mchunk (bs_binary s) q) (Z.shiftl 1 b - 1))
                  (uwrap 128 (Z.shiftl val b))).
  assert (Hx : forall i, 0 <= i < 128 ->
             Z.testbit x i = if i <? b then Z.testbit (mchunk (bs_binary s) q) i
                             else Z.testbit val (i - b)).
  { intros i Hi. unfold x.
    rewrite Z.lor_spec, Z.land_spec, testbit_low_mask, testbit_uwrap, testbit_shiftl by lia.
    destruct (Z.ltb_spec i 128); [|lia]. cbn.
    destruct (Z.ltb_spec i b); rewrite ?andb_true_r, ?andb_false_r; cbn; auto.
    rewrite (Z.testbit_neg_r val) by lia. apply orb_false_r. }
  assert (Hxr : 0 <= x < 2 ^ 128).
  { pose proof (mchunk_range (bs_binary s) q Hm).
    assert (0 <= x).
    { unfold x. apply Z.lor_nonneg; split.
      - apply Z.land_nonneg; lia.
      - apply uwrap_range; lia. }
    split; auto. apply below_testbit; [lia|auto|].
    intros i Hi. unfold x.
    rewrite Z.lor_spec, Z.land_spec, testbit_low_mask, testbit_uwrap by lia.
    destruct (Z.ltb_spec i b); [lia|]. destruct (Z.ltb_spec i 128); [lia|].
    rewrite andb_false_r. reflexivity. }
  set (m3 := replace_nth (Z.to_nat q) (bs_binary s2) x).
  assert (M3 : forall j, 0 <= j -> mchunk m3 j = if q =? j then x else mchunk (bs_binary s) j).
  { intros. unfold m3. rewrite mchunk_replace, M2 by lia. reflexivity. }
  assert (K3 : chunks_ok m3) by (apply Forall_replace_nth; auto).
  assert (L3 : zlen m3 = zlen (bs_binary s2)) by apply zlen_replace_nth.
  unfold CHUNK_SIZE_IN_BITS. cbn [set_binary bs_binary bs_cursor bs_capacity].
  set (s3 := set_binary s2 m3).
  (* final cursor step *)
  assert (Off : forall m, offset_bit_cursor p (set_binary s3 m) n =
                Ok (mkBS m (c + n) (Z.max (c + n) (bs_capacity s)))).
  { intros m. unfold offset_bit_cursor, s3; cbn. rewrite B1, A1, B2, A2. fold c.
    assert (E1 : swrap 128 c = c).
    { apply swrap_small; [lia|]. change (2 ^ (128 - 1)) with (2 ^ 127). rewrite pow2_127; lia. }
    rewrite E1, schk_ok by (change (2 ^ (128 - 1)) with (2 ^ 127); rewrite pow2_127; lia).
    cbn [bind]. rewrite uwrap_small by (rewrite pow2_128; lia). reflexivity. }
  assert (Wend : forall m, zlen m = zlen (bs_binary s2) -> chunks_ok m ->
            wf (mkBS m (c + n) (Z.max (c + n) (bs_capacity s)))).
  { intros m Hl Hk. split; cbn [bs_cursor bs_binary]; auto. rewrite Hl, L2. lia. }
  destruct (Z.ltb_spec (128 - b) n) as [Hsp | Hsp].
  - (* spills into the next chunk *)
    change (bs_binary s3) with m3.
    rewrite (index_ok m3 (q + 1) 0) by lia. cbn [bind].
    fold (mchunk m3 (q + 1)). rewrite M3 by lia.
    destruct (Z.eqb_spec q (q + 1)); [lia|].
    set (k := n - (128 - b)).
    assert (Hk : 0 < k < 128) by (unfold k; lia).
    assert (E1 : ushl p 128 1 k = Ok (2 ^ k)).
    { unfold ushl, in_u. rewrite pow2_32.
      destruct (Z.leb_spec 0 k); [|lia]. destruct (Z.ltb_spec k 4294967296); [|lia].
      destruct (Z.ltb_spec k 128); [|lia]. cbn [andb].
      rewrite Z.shiftl_1_l, uwrap_small; auto.
      split; [lia|]. apply Z.pow_lt_mono_r; lia. }
    rewrite E1. cbn [bind].
    assert (0 < 2 ^ k) by (apply Z.pow_pos_nonneg; lia).
    assert (2 ^ k < 2 ^ 128) by (apply Z.pow_lt_mono_r; lia).
    rewrite uchk_ok by lia. cbn [bind].
    assert (E2 : shr p 128 val (128 - b) =
                 Ok (Z.shiftr val (128 - b)) \/ b = 0) by
      (destruct (Z.eq_dec b 0); [now right|left; unfold shr, in_u; rewrite pow2_32;
       destruct (Z.leb_spec 0 (128 - b)); [|lia]; destruct (Z.ltb_spec (128 - b) 4294967296); [|lia];
       destruct (Z.ltb_spec (128 - b) 128); [reflexivity|lia]]).
    destruct E2 as [E2 | E2]; [|lia].
    rewrite E2. cbn [bind]. rewrite store_ok by lia. cbn [bind].
    set (y := Z.lor (Z.land (mchunk (bs_binary s) (q + 1)) (2 ^ k - 1)) (Z.shiftr val (128 - b))).
    set (m4 := replace_nth (Z.to_nat (q + 1)) m3 y).
    change (set_binary s3 m4) with (set_binary s3 m4). rewrite Off.
    assert (Hy : forall i, 0 <= i < 128 -> Z.testbit y i =
                 ((i <? k) && Z.testbit (mchunk (bs_binary s) (q + 1)) i)
                 || Z.testbit val (i + (128 - b))).
    { intros i Hi. unfold y. rewrite <- (Z.shiftl_1_l k).
      rewrite Z.lor_spec, Z.land_spec, testbit_low_mask, testbit_shiftr by lia.
      f_equal. apply andb_comm. }
    assert (Hyr : 0 <= y < 2 ^ 128).
    { pose proof (mchunk_range (bs_binary s) (q + 1) Hm).
      assert (0 <= y).
      { unfold y. apply Z.lor_nonneg; split.
        - apply Z.land_nonneg; lia.
        - apply Z.shiftr_nonneg; lia. }
      split; auto. apply below_testbit; [lia|auto|].
      intros i Hi. unfold y.
      rewrite Z.lor_spec, Z.land_spec, testbit_shiftr by lia.
      rewrite (testbit_high 128) by lia. rewrite (testbit_high 128 val) by lia. reflexivity. }
    assert (M4 : forall j, 0 <= j -> mchunk m4 j =
              if q + 1 =? j then y else if q =? j then x else mchunk (bs_binary s) j).
    { intros. unfold m4. rewrite mchunk_replace, M3 by lia. reflexivity. }
    assert (K4 : chunks_ok m4) by (apply Forall_replace_nth; auto).
    assert (L4 : zlen m4 = zlen (bs_binary s2)) by (unfold m4; rewrite zlen_replace_nth; lia).
    eexists; split; [reflexivity|]. cbn [bs_cursor bs_capacity bs_binary].
    split; [reflexivity|]. split; [reflexivity|]. split; [auto|]. split; [lia|].
    split; [intros j Hj; rewrite M4 by lia;
            destruct (Z.eqb_spec (q + 1) j); [lia|]; destruct (Z.eqb_spec q j); [lia|reflexivity]|].
    split; [lia|].
    intros i Hi.
    pose proof (Z.div_mod i 128 ltac:(lia)) as Ei.
    pose proof (Z.mod_pos_bound i 128 ltac:(lia)) as Hib.
    unfold mbit. rewrite M4 by (apply Z.div_pos; lia).
    destruct (Z.eqb_spec (q + 1) (i / 128)) as [Eq1|Nq1].
    + rewrite Hy by lia. destruct (Z.ltb_spec i c); [lia|].
      destruct (Z.eqb_spec (i / 128) q); [lia|]. cbn [negb andb].
      destruct (Z.ltb_spec (i mod 128) k); [|unfold k in *; lia]. cbn [andb].
      rewrite orb_comm, <- Eq1. f_equal. f_equal. lia.
    + destruct (Z.eqb_spec q (i / 128)) as [Eq|Nq].
      * rewrite Hx by lia.
        destruct (Z.ltb_spec i c), (Z.ltb_spec (i mod 128) b); try lia.
        -- now rewrite <- Eq.
        -- destruct (Z.eqb_spec (i / 128) q); [|lia]. cbn. rewrite orb_false_r. f_equal; lia.
      * destruct (Z.ltb_spec i c); [reflexivity|].
        exfalso. assert (i / 128 < q) by (unfold k in *; nia). nia.
  - (* fits *)
    cbn [bind]. replace s3 with (set_binary s3 m3) by reflexivity. rewrite Off.
    eexists; split; [reflexivity|]. cbn [bs_cursor bs_capacity bs_binary].
    split; [reflexivity|]. split; [reflexivity|]. split; [auto|]. split; [lia|].
    split; [intros j Hj; rewrite M3 by lia; destruct (Z.eqb_spec q j); [lia|reflexivity]|].
    split; [intros; rewrite M3 by lia; destruct (Z.eqb_spec q (q + 1)); [lia|reflexivity]|].
    intros i Hi.
    pose proof (Z.div_mod i 128 ltac:(lia)) as Ei.
    pose proof (Z.mod_pos_bound i 128 ltac:(lia)) as Hib.
    unfold mbit. rewrite M3 by (apply Z.div_pos; lia).
    destruct (Z.eqb_spec q (i / 128)) as [Eq|Nq].
    * rewrite Hx by lia.
      destruct (Z.ltb_spec i c), (Z.ltb_spec (i mod 128) b); try lia.
      -- now rewrite <- Eq.
      -- destruct (Z.eqb_spec (i / 128) q); [|lia]. cbn. rewrite orb_false_r. f_equal; lia.
    * destruct (Z.ltb_spec i c); [reflexivity|]. exfalso. nia.
Qed.

(** Over memory that is zero beyond the cursor's chunk the write is exact. *)
Lemma write_bits_fresh p s val n :
  wf s -> fresh s -> 0 <= n <= 128 -> 0 <= val < 2 ^ 128 -> bs_cursor s + n < 2 ^ 64 ->
  exists s',
    write_bits p s val n = Ok s' /\
    bs_cursor s' = bs_cursor s + n /\
    bs_capacity s' = Z.max (bs_cursor s + n) (bs_capacity s) /\
    wf s' /\ fresh s' /\
    (forall i, 0 <= i < bs_cursor s -> mbit (bs_binary s') i = mbit (bs_binary s) i) /\
    (forall i, 0 <= i < n -> mbit (bs_binary s') (bs_cursor s + i) = Z.testbit val i).
Proof.
  intros Hw Hf Hn Hv Hb.
  destruct (write_bits_general p s val n Hw Hn Hv Hb)
    as (s' & E & C & K & W & L & J1 & J2 & B).
  destruct Hw as [Hc _].
  exists s'. repeat (split; [assumption|]). split; [|split].
  - intros j Hj. rewrite C in Hj.
    pose proof (Z.div_mod (bs_cursor s) 128 ltac:(lia)) as Edm.
    pose proof (Z.mod_pos_bound (bs_cursor s) 128 ltac:(lia)) as Hbm.
    pose proof (Z.div_mod (bs_cursor s + n) 128 ltac:(lia)) as Edm'.
    pose proof (Z.mod_pos_bound (bs_cursor s + n) 128 ltac:(lia)) as Hbm'.
    destruct (Z.eq_dec j (bs_cursor s / 128 + 1)) as [->|].
    + rewrite J2 by lia. apply Hf; lia.
    + rewrite J1 by lia. apply Hf; lia.
  - intros i Hi. rewrite B by lia. destruct (Z.ltb_spec i (bs_cursor s)); [reflexivity|lia].
  - intros i Hi. rewrite B by lia. destruct (Z.ltb_spec (bs_cursor s + i) (bs_cursor s)); [lia|].
    replace (bs_cursor s + i - bs_cursor s) with i by lia.
    destruct (Z.eqb_spec ((bs_cursor s + i) / 128) (bs_cursor s / 128)); cbn [negb andb];
      [apply orb_false_r|].
    unfold mbit. rewrite Hf, Z.bits_0; [apply orb_false_r|].
    assert (bs_cursor s / 128 <= (bs_cursor s + i) / 128) by (apply Z.div_le_mono; lia). lia.
Qed.

Lemma write_bit_fresh p s v :
  wf s -> fresh s -> bs_cursor s + 1 < 2 ^ 64 ->
  exists s',
    write_bit p s v = Ok s' /\
    bs_cursor s' = bs_cursor s + 1 /\
    bs_capacity s' = Z.max (bs_cursor s + 1) (bs_capacity s) /\
    wf s' /\ fresh s' /\
    (forall i, 0 <= i < bs_cursor s -> mbit (bs_binary s') i = mbit (bs_binary s) i) /\
    mbit (bs_binary s') (bs_cursor s) = Z.odd v.
Proof.
  intros [Hc Hm] Hf Hb.
  set (c := bs_cursor s) in *.
  pose proof (Z.div_mod c 128 ltac:(lia)) as Edm.
  pose proof (Z.mod_pos_bound c 128 ltac:(lia)) as Hbm.
  set (q := c / 128) in *. set (b := c mod 128) in *.
  assert (Hq : 0 <= q) by (apply Z.div_pos; lia).
  assert (Hqlen : q <= zlen (bs_binary s)).
  { unfold q. apply Z.div_le_upper_bound; lia. }
  assert (P64 : 2 ^ 64 = 18446744073709551616) by reflexivity.
  unfold write_bit.
  assert (Eci : chunk_index s = q).
  { unfold chunk_index. fold c q. apply uwrap_small. lia. }
  assert (Ecb : chunk_bit_index s = b) by reflexivity.
  rewrite Eci, Ecb.
  destruct (alloc_spec s q ltac:(lia)) as (A1 & A2 & A3 & A4 & A5).
  set (s1 := allocate_if_needed s q) in *.
  rewrite (index_ok _ q 0) by lia. cbn [bind].
  fold (mchunk (bs_binary s1) q). rewrite A4.
  rewrite store_ok by lia. cbn [bind].
  set (x := Z.lor (Z.land (mchunk (bs_binary s) q) (Z.shiftl 1 b - 1))
                  (uwrap 128 (Z.shiftl (Z.land v 1) b))).
  assert (Hx : forall i, 0 <= i < 128 ->
             Z.testbit x i = if i <? b then Z.testbit (mchunk (bs_binary s) q) i
                             else Z.testbit (Z.land v 1) (i - b)).
  { intros i Hi. unfold x.
    rewrite Z.lor_spec, Z.land_spec, testbit_low_mask, testbit_uwrap, testbit_shiftl by lia.
    destruct (Z.ltb_spec i 128); [|lia]. cbn [andb].
    destruct (Z.ltb_spec i b); rewrite ?andb_true_r, ?andb_false_r; cbn [orb]; auto.
    rewrite (Z.testbit_neg_r (Z.land v 1)) by lia. apply orb_false_r. }
  assert (Hxr : 0 <= x < 2 ^ 128).
  { pose proof (mchunk_range (bs_binary s) q Hm).
    assert (0 <= x).
    { unfold x. apply Z.lor_nonneg; split.
      - apply Z.land_nonneg; lia.
      - apply uwrap_range; lia. }
    split; auto. apply below_testbit; [lia|auto|].
    intros i Hi. unfold x.
    rewrite Z.lor_spec, Z.land_spec, testbit_low_mask, testbit_uwrap by lia.
    destruct (Z.ltb_spec i b); [lia|]. destruct (Z.ltb_spec i 128); [lia|].
    rewrite andb_false_r. reflexivity. }
  set (m3 := replace_nth (Z.to_nat q) (bs_binary s1) x).
  assert (M3 : forall j, 0 <= j -> mchunk m3 j = if q =? j then x else mchunk (bs_binary s) j).
  { intros. unfold m3. rewrite mchunk_replace, A4 by lia. reflexivity. }
  assert (K3 : chunks_ok m3) by (apply Forall_replace_nth; [apply A5; exact Hm | exact Hxr]).
  assert (L3 : zlen m3 = zlen (bs_binary s1)) by apply zlen_replace_nth.
  assert (Off : offset_bit_cursor p (set_binary s1 m3) 1 =
                Ok (mkBS m3 (c + 1) (Z.max (c + 1) (bs_capacity s)))).
  { unfold offset_bit_cursor; cbn. rewrite A1, A2. fold c.
    assert (E1 : swrap 128 c = c).
    { apply swrap_small; [lia|]. change (2 ^ (128 - 1)) with (2 ^ 127). rewrite pow2_127; lia. }
    rewrite E1, schk_ok by (change (2 ^ (128 - 1)) with (2 ^ 127); rewrite pow2_127; lia).
    cbn [bind]. rewrite uwrap_small by (rewrite pow2_128; lia). reflexivity. }
  rewrite Off. eexists; split; [reflexivity|]. cbn [bs_cursor bs_capacity bs_binary].
  split; [reflexivity|]. split; [reflexivity|].
  split; [split; cbn [bs_cursor bs_binary]; auto; lia|].
  split.
  { intros j Hj; cbn [bs_cursor bs_binary] in *.
    assert (q <= (c + 1) / 128) by (apply Z.div_le_mono; lia).
    rewrite M3 by lia. destruct (Z.eqb_spec q j); [lia|]. apply Hf. fold c q. lia. }
  split.
  - intros i Hi.
    pose proof (Z.div_mod i 128 ltac:(lia)) as Ei.
    pose proof (Z.mod_pos_bound i 128 ltac:(lia)) as Hib.
    unfold mbit. rewrite M3 by (apply Z.div_pos; lia).
    destruct (Z.eqb_spec q (i / 128)) as [Eq|Nq]; [|reflexivity].
    rewrite Hx by lia. destruct (Z.ltb_spec (i mod 128) b); [now rewrite Eq|lia].
  - unfold mbit. fold q b. rewrite M3, Z.eqb_refl, Hx, Z.ltb_irrefl, Z.sub_diag by lia.
    rewrite Z.land_spec. cbn. rewrite andb_true_r. apply Z.bit0_odd.
Qed.
