(** * Decoding bit data that may be damaged *)
From Coq Require Import ZArith List Bool Lia.
From Verif Require Import Model.Base Model.F32 Model.Sample Model.BitStream Model.NibbleList Model.BitVec
  Model.CircularStack Model.Frame Model.Adhoc Spec.Bits Spec.Codec Spec.Recording
  Proofs.BaseFacts Proofs.BitStreamFacts Proofs.BitLog Proofs.Rice Proofs.Containers Proofs.Headers Proofs.FrameFacts Proofs.EncodeFacts
  Proofs.DecodeFacts.
Import ListNotations.
Open Scope Z_scope.

(** ** Reading any bits, without overflow checks *)
Lemma uchk_rel w x : exists y, uchk Release w x = Ok y.
Proof. unfold uchk. destruct (in_u w x); eauto. Qed.
Lemma schk_rel w x : exists y, schk Release w x = Ok y.
Proof. unfold schk. destruct (in_s w x); eauto. Qed.
Lemma sshl_rel w x n : exists y, sshl Release w x n = Ok y.
Proof. unfold sshl. destruct (_ && _); eauto. Qed.

(** A readable stream whose memory is zero from chunk [L] on. *)
Definition sane (L : Z) (s : bitstream) : Prop :=
  wf s /\ forall i, 128 * L <= i -> mbit (bs_binary s) i = false.
Definition reached (L : Z) (s : bitstream) : Z := Z.max (128 * L) (bs_cursor s).

Lemma sane_ext L s s' : sane L s -> wf s' -> ext (bs_binary s) (bs_binary s') -> 0 <= L -> sane L s'.
Proof. intros [W H] W' [_ X] HL. split; auto. intros i Hi. rewrite X by lia. auto. Qed.

Lemma peek_any p L s n : 0 <= L -> sane L s -> 0 <= n <= 128 -> bs_cursor s + 128 < 2 ^ 64 ->
  exists s' v, peek_bits p s n = Ok (s', v) /\ sane L s' /\ bs_cursor s' = bs_cursor s /\
    bs_cursor s + 128 <= 128 * zlen (bs_binary s') /\ 0 <= v < 2 ^ n /\
    ext (bs_binary s) (bs_binary s') /\
    (forall i, 0 <= i < n -> Z.testbit v i = mbit (bs_binary s) (bs_cursor s + i)).
Proof.
  intros HL HS Hn Hb. destruct (peek_bits_spec p s n (proj1 HS) Hn Hb) as (s' & v & E & W & C & _ & X & B & V & T).
  exists s', v. split; auto. split; [eapply sane_ext; eauto|]. auto.
Qed.
Lemma offset_any p L s n : sane L s -> 0 <= n -> bs_cursor s + n <= 128 * zlen (bs_binary s) -> bs_cursor s + n < 2 ^ 64 ->
  exists s', offset_bit_cursor p s n = Ok s' /\ sane L s' /\ bs_cursor s' = bs_cursor s + n /\ bs_binary s' = bs_binary s.
Proof.
  intros [[Hc Hk] HZ] Hn Hl Hb. rewrite offset_ok by lia. eexists. split; [reflexivity|]. cbn [bs_cursor bs_binary].
  split; [|auto]. split; [|exact HZ]. split; [cbn [bs_cursor bs_binary]; lia|exact Hk].
Qed.
Lemma read_any p L s n : 0 <= L -> sane L s -> 0 <= n <= 128 -> bs_cursor s + 256 < 2 ^ 64 ->
  exists s' v, read_bits p s n = Ok (s', v) /\ sane L s' /\ bs_cursor s' = bs_cursor s + n /\
    zlen (bs_binary s) <= zlen (bs_binary s').
Proof.
  intros HL HS Hn Hb. unfold read_bits.
  destruct (peek_any p L s n HL HS Hn ltac:(lia)) as (s1 & v & E & S1 & C1 & B1 & _ & [X1 _] & _). rewrite E. cbn [bind].
  destruct (offset_any p L s1 n S1 ltac:(lia) ltac:(lia) ltac:(lia)) as (s2 & E2 & S2 & C2 & B2). rewrite E2. cbn [bind].
  exists s2, v. rewrite B2. split; auto. split; auto. split; [lia|auto].
Qed.
Lemma read_bit_any p L s : sane L s -> bs_cursor s + 1 < 2 ^ 64 ->
  exists s' v, read_bit p s = Ok (s', v) /\ sane L s' /\ bs_cursor s <= bs_cursor s' <= bs_cursor s + 1 /\
    bs_binary s' = bs_binary s.
Proof.
  intros HS Hb. pose proof HS as [[Hc Hk] HZ]. unfold read_bit, chunk_index.
  rewrite pow2_64 in *. pose proof (Z.div_mod (bs_cursor s) 128 ltac:(lia)). pose proof (Z.mod_pos_bound (bs_cursor s) 128 ltac:(lia)).
  rewrite (uwrap_small 64) by (rewrite pow2_64; lia).
  destruct (Z.leb_spec (zlen (bs_binary s)) (bs_cursor s / 128)) as [G|G].
  - exists s, 0. split; auto. split; auto. split; auto. lia.
  - destruct (offset_any p L s 1 HS ltac:(lia) ltac:(lia) ltac:(rewrite pow2_64; lia)) as (s' & E & S' & C' & B').
    rewrite E. cbn [bind]. rewrite B', (index_ok _ _ 0) by lia. cbn [bind]. eexists s', _. split; [reflexivity|].
    split; auto. split; auto. lia.
Qed.

Lemma trailing_ones_range fuel x : 0 <= trailing_ones fuel x <= Z.of_nat fuel.
Proof. revert x; induction fuel as [|fuel IH]; intros x; cbn [trailing_ones]; [lia|]. destruct (Z.odd x); [specialize (IH (Z.shiftr x 1))|]; lia. Qed.
Lemma trailing_ones_full n x : 0 <= x < 2 ^ Z.of_nat n -> trailing_ones n x = Z.of_nat n -> x = 2 ^ Z.of_nat n - 1.
Proof.
  revert x; induction n as [|n IH]; intros x Hx H.
  - cbn in *. lia.
  - cbn [trailing_ones] in H. destruct (Z.odd x) eqn:O; [|lia].
    rewrite Nat2Z.inj_succ, Z.pow_succ_r in * by lia.
    assert (E : Z.shiftr x 1 = x / 2) by (rewrite Z.shiftr_div_pow2 by lia; reflexivity).
    rewrite E in H. apply Zodd_bool_iff in O. apply Zodd_ex in O. destruct O as [k ->].
    replace ((2 * k + 1) / 2) with k in H by (symmetry; rewrite Z.add_comm, Z.mul_comm, Z.div_add by lia; reflexivity).
    rewrite (IH k) at 1 by lia. lia.
Qed.

(** The loop over full chunks of ones stops at the end of the memory at the latest. *)
Lemma skip_ones_any L : 0 <= L -> forall fuel s q n,
  sane L s -> (forall i, 128 * n <= i -> mbit (bs_binary s) i = false) -> 0 <= n ->
  n < Z.of_nat fuel + bs_cursor s / 128 -> reached L s + 128 < 2 ^ 64 -> 
  exists s' q' ck, skip_ones Release (S fuel) s q = Ok (s', q', ck) /\ sane L s' /\ bs_cursor s <= bs_cursor s' /\
    reached L s' = reached L s /\ bs_cursor s' + 128 <= 128 * zlen (bs_binary s') /\ 0 <= ck < 2 ^ 128 - 1 /\
    zlen (bs_binary s) <= zlen (bs_binary s').
Proof.
  intros HL. induction fuel as [|fuel IH]; intros s q n HS HZ Hn Hf HR.
  all: assert (HR' := HR); unfold reached in HR'; pose proof (proj1 (proj1 HS)) as Hc0.
  all: destruct (peek_any Release L s 128 HL HS ltac:(lia) ltac:(lia)) as (s1 & v & E & S1 & C1 & B1 & V1 & X1 & T1).
  all: cbn [skip_ones]; rewrite E; cbn [bind].
  all: pose proof (Z.div_mod (bs_cursor s) 128 ltac:(lia)); pose proof (Z.mod_pos_bound (bs_cursor s) 128 ltac:(lia)).
  all: assert (K : v <> 2 ^ 128 - 1 \/ (v = 2 ^ 128 - 1 /\ bs_cursor s + 128 <= 128 * n /\ bs_cursor s + 128 <= 128 * L)).
  1,3: destruct (Z.eq_dec v (2 ^ 128 - 1)) as [->|]; auto; right; split; auto;
       specialize (T1 127 ltac:(lia)); change (2 ^ 128 - 1) with (Z.ones 128) in T1; rewrite Z.testbit_ones_nonneg in T1 by lia;
       change (127 <? 128) with true in T1; split;
       [destruct (Z.leb_spec (128 * n) (bs_cursor s + 127)); [rewrite HZ in T1 by lia; discriminate|]
       |destruct (Z.leb_spec (128 * L) (bs_cursor s + 127)); [rewrite (proj2 HS) in T1 by lia; discriminate|]]; lia.
  - destruct K as [K|(_ & K & _)].
    + destruct (Z.eqb_spec v (2 ^ 128 - 1)); [contradiction|]. exists s1, q, v. split; auto. split; auto.
      split; [lia|]. split; [unfold reached; congruence|]. split; [lia|]. split; [lia|]. apply X1.
    + exfalso. lia.
  - destruct K as [K|(-> & K & K')].
    + destruct (Z.eqb_spec v (2 ^ 128 - 1)); [contradiction|]. exists s1, q, v. split; auto. split; auto.
      split; [lia|]. split; [unfold reached; congruence|]. split; [lia|]. split; [lia|]. apply X1.
    + rewrite Z.eqb_refl. destruct (offset_any Release L s1 128 S1 ltac:(lia) ltac:(lia) ltac:(lia)) as (s2 & E2 & S2 & C2 & B2).
      rewrite E2. cbn [bind]. destruct (schk_rel 16 (q + 128)) as [q' Eq]. rewrite Eq. cbn [bind].
      destruct (IH s2 q' n S2) as (s3 & q3 & ck & E3 & S3 & C3 & R3 & B3 & V3 & L3); auto.
      { intros i Hi. rewrite B2. destruct X1 as [_ X1]. rewrite X1 by lia. auto. }
      { rewrite C2, C1. replace (bs_cursor s + 128) with (bs_cursor s + 1 * 128) by lia. rewrite Z.div_add by lia. lia. }
      { unfold reached in *. lia. }
      change (skip_ones Release (S fuel) s2 q') with
        ('(s, chunk) <- peek_bits Release s2 128 ;;
          if chunk =? 2 ^ 128 - 1 then s <- offset_bit_cursor Release s 128 ;; q <- schk Release 16 (q' + 128) ;; skip_ones Release fuel s q
          else Ok (s, q', chunk)) in E3.
      rewrite E3. exists s3, q3, ck. split; auto. split; auto. split; [lia|]. split; [|split; auto; split; auto].
      * rewrite R3. unfold reached. lia.
      * destruct X1 as [X1 _]. rewrite B2 in L3. lia.
Qed.

Lemma read_compressed_any L s e : 0 <= L -> sane L s -> 0 <= e < 16 -> reached L s + 600 < 2 ^ 64 ->
  exists s' v, read_compressed Release s e = Ok (s', v) /\ sane L s' /\ bs_cursor s <= bs_cursor s' /\
    reached L s' <= reached L s + 300.
Proof.
  intros HL HS He HR. unfold read_compressed. assert (HR' := HR). unfold reached in HR'.
  pose proof (proj1 (proj1 HS)) as Hc0.
  destruct (read_bit_any Release L s HS ltac:(lia)) as (s1 & sb & E1 & S1 & C1 & B1). rewrite E1. cbn [bind].
  destruct (sshl_rel 16 1 e) as [d Ed]. rewrite Ed. cbn [bind].
  destruct (skip_ones_any L HL (S (length (bs_binary s1))) s1 0 (zlen (bs_binary s1)) S1) as (s2 & q & ck & E2 & S2 & C2 & R2 & B2 & V2 & L2).
  { intros i Hi. now apply mbit_beyond. }
  { apply zlen_nonneg. }
  { unfold zlen. pose proof (Z.div_pos (bs_cursor s1) 128). lia. }
  { unfold reached. lia. }
  rewrite E2. cbn [bind].
  assert (T : 0 <= trailing_ones 128 ck <= 127).
  { pose proof (trailing_ones_range 128 ck) as T. change (Z.of_nat 128) with 128 in T.
    destruct (Z.eq_dec (trailing_ones 128 ck) 128) as [X|X]; [|lia].
    apply (trailing_ones_full 128) in X; change (Z.of_nat 128) with 128 in *; lia. }
  set (z := trailing_ones 128 ck) in *. clearbody z.
  unfold reached in R2.
  destruct (offset_any Release L s2 (z + 1) S2 ltac:(lia) ltac:(lia) ltac:(lia)) as (s3 & E3 & S3 & C3 & B3). rewrite E3. cbn [bind].
  destruct (schk_rel 16 (q + z)) as [q' Eq]. rewrite Eq. cbn [bind].
  rewrite (uwrap_small 32) by (rewrite pow2_32; lia).
  destruct (read_any Release L s3 e HL S3 ltac:(lia) ltac:(lia)) as (s4 & r & E4 & S4 & C4 & L4). rewrite E4. cbn [bind].
  destruct (schk_rel 16 (d * q')) as [x1 Ex1]. rewrite Ex1. cbn [bind].
  destruct (schk_rel 16 (x1 + swrap 16 r)) as [x2 Ex2]. rewrite Ex2. cbn [bind].
  destruct (schk_rel 16 (- sb)) as [x3 Ex3]. rewrite Ex3. cbn [bind].
  destruct (schk_rel 16 (x2 * x3)) as [x4 Ex4]. rewrite Ex4. cbn [bind].
  destruct (schk_rel 16 (1 - sb)) as [x5 Ex5]. rewrite Ex5. cbn [bind].
  destruct (schk_rel 16 (x2 * x5)) as [x6 Ex6]. rewrite Ex6. cbn [bind].
  destruct (schk_rel 16 (x4 + x6)) as [x7 Ex7]. rewrite Ex7. cbn [bind].
  exists s4, x7. split; auto. split; auto. split; [lia|]. unfold reached. lia.
Qed.

(** ** Frames *)
Definition COST : Z := 20000000.
(** A header table whose lists are long enough. *)
Record table_ok (hs : frame_headers) : Prop := {
  to_len : 0 <= fhs_len hs < 2 ^ 32;
  to_sizes : fhs_len hs <= zlen (fhs_sizes hs);
  to_cursors : fhs_len hs <= zlen (fhs_cursors hs);
  to_hists : fhs_len hs <= zlen (fhs_hists hs);
  to_range : Forall (fun x => 0 <= x < 65536) (fhs_sizes hs);
  to_cursor : 0 <= fhs_cursor hs }.
Definition left (hs : frame_headers) : Z := Z.max 0 (fhs_len hs - fhs_cursor hs).
(** Samples the remaining frames can yield at most. *)
Definition zsum (l : list Z) : Z := fold_right Z.add 0 l.
Definition left_samples (hs : frame_headers) : Z :=
  zsum (map (Z.add 3) (skipn (Z.to_nat (fhs_cursor hs)) (firstn (Z.to_nat (fhs_len hs)) (fhs_sizes hs)))).

Lemma zsum_app a b : zsum (a ++ b) = zsum a + zsum b.
Proof. unfold zsum. induction a; cbn [app fold_right]; lia. Qed.
Lemma nl_get_range n i : 0 <= nl_get n i < 16.
Proof.
  unfold nl_get. destruct (_ <=? _); [lia|]. change 15 with (Z.ones 4). rewrite Z.land_ones by lia. apply Z.mod_pos_bound. reflexivity.
Qed.

(** What decoding a frame does to the header table, the state and the length of the buffer. *)
Definition frame_shape (hs : frame_headers) (st : codec_state) (n : Z) : frame_headers * codec_state * Z :=
  if fhs_cursor hs <? fhs_len hs then
    let size := nth (Z.to_nat (fhs_cursor hs)) (fhs_sizes hs) 0 in
    (fhs_set_cursor hs (fhs_cursor hs + 1), CDecoding,
     n + match st with CInit => 3 + Z.max 0 (size - 3) | _ => size end)
  else (hs, st, n).

Lemma fhs_next_any p hs : table_ok hs ->
  (fhs_cursor hs < fhs_len hs /\ exists hd, fhs_next p hs = Ok (fhs_set_cursor hs (fhs_cursor hs + 1), Some hd) /\
     0 <= fh_exponent hd < 16 /\ fh_size hd = nth (Z.to_nat (fhs_cursor hs)) (fhs_sizes hs) 0 /\ 0 <= fh_size hd < 65536) \/
  (fhs_len hs <= fhs_cursor hs /\ fhs_next p hs = Ok (hs, None)).
Proof.
  intros [T1 T2 T3 T4 T5 T6]. unfold fhs_next. destruct (Z.ltb_spec (fhs_cursor hs) (fhs_len hs)) as [H|H]; [left|right; auto].
  split; auto. rewrite (index_ok (fhs_sizes hs) _ 0), (index_ok (fhs_cursors hs) _ 0), (index_ok (fhs_hists hs) _ (0, 0, 0)) by lia. cbn [bind].
  rewrite uchk_ok by lia. cbn [bind]. eexists. split; [reflexivity|]. cbn [fh_exponent fh_size].
  split; [apply nl_get_range|]. split; auto. rewrite Forall_forall in T5. apply T5, nth_In. unfold zlen in *. lia.
Qed.
Lemma table_ok_next hs : table_ok hs -> table_ok (fhs_set_cursor hs (fhs_cursor hs + 1)).
Proof. intros [T1 T2 T3 T4 T5 T6]. constructor; auto. cbn [fhs_set_cursor fhs_cursor]. lia. Qed.
Lemma left_next hs : fhs_cursor hs < fhs_len hs -> left (fhs_set_cursor hs (fhs_cursor hs + 1)) = left hs - 1.
Proof. intros H. unfold left. change (fhs_len (fhs_set_cursor hs (fhs_cursor hs + 1))) with (fhs_len hs). cbn [fhs_set_cursor fhs_cursor]. lia. Qed.
Lemma left_samples_next hs : table_ok hs -> fhs_cursor hs < fhs_len hs ->
  left_samples hs = 3 + nth (Z.to_nat (fhs_cursor hs)) (fhs_sizes hs) 0 + left_samples (fhs_set_cursor hs (fhs_cursor hs + 1)).
Proof.
  intros [T1 T2 T3 T4 T5 T6] H. unfold left_samples. change (fhs_len (fhs_set_cursor hs (fhs_cursor hs + 1))) with (fhs_len hs).
  cbn [fhs_set_cursor fhs_cursor fhs_sizes]. set (n := Z.to_nat (fhs_cursor hs)).
  replace (Z.to_nat (fhs_cursor hs + 1)) with (S n) by (subst n; lia).
  set (l := firstn (Z.to_nat (fhs_len hs)) (fhs_sizes hs)).
  assert (Hl : (n < length l)%nat) by (subst n l; rewrite firstn_length; unfold zlen in *; lia).
  rewrite (skipn_nth_cons l n 0) by auto. cbn [map zsum fold_right]. fold (zsum (map (Z.add 3) (skipn (S n) l))). f_equal. f_equal.
  subst l. rewrite <- (firstn_skipn (Z.to_nat (fhs_len hs)) (fhs_sizes hs)) at 2. rewrite app_nth1; auto.
Qed.
Lemma zsum_nonneg l : Forall (fun x => 0 <= x) l -> 0 <= zsum l.
Proof. induction 1; cbn; [lia|]. fold (zsum l). lia. Qed.
Lemma left_samples_nonneg hs : table_ok hs -> 0 <= left_samples hs.
Proof.
  intros [T1 T2 T3 T4 T5 T6]. apply zsum_nonneg. apply Forall_map.
  assert (H : Forall (fun x => 0 <= x < 65536) (firstn (Z.to_nat (fhs_len hs)) (fhs_sizes hs))).
  { rewrite <- (firstn_skipn (Z.to_nat (fhs_len hs))) in T5. apply Forall_app in T5. tauto. }
  set (l := firstn _ _) in *. rewrite <- (firstn_skipn (Z.to_nat (fhs_cursor hs)) l) in H. apply Forall_app in H.
  eapply Forall_impl; [|apply H]. cbv beta. intros. lia.
Qed.

Lemma decode_samples_any L n : 0 <= L -> forall s h buf e, sane L s -> 0 <= e < 16 -> reached L s + 300 * Z.of_nat n + 600 < 2 ^ 64 ->
  exists s' h' b, decode_samples Release s h buf e n = Ok (s', h', buf ++ b) /\ length b = n /\ sane L s' /\
    reached L s' <= reached L s + 300 * Z.of_nat n.
Proof.
  intros HL. induction n as [|n IH]; intros s h buf e HS He HR; cbn [decode_samples].
  - exists s, h, []. rewrite app_nil_r. repeat split; auto; try apply HS. lia.
  - destruct (read_compressed_any L s e HL HS He ltac:(lia)) as (s1 & v & E & S1 & C1 & R1). rewrite E. cbn [bind].
    edestruct (IH s1) as (s2 & h2 & b & E2 & Lb & S2 & R2); [exact S1|exact He|lia|].
    rewrite E2. eexists _, _, (_ :: b). split; [rewrite <- app_assoc; reflexivity|]. split; [cbn; lia|]. split; auto. lia.
Qed.
Lemma decode_raw_any L n : 0 <= L -> forall s h, sane L s -> reached L s + 16 * Z.of_nat n + 300 < 2 ^ 64 ->
  exists s' h', decode_raw Release s h n = Ok (s', h') /\ sane L s' /\ reached L s' <= reached L s + 16 * Z.of_nat n.
Proof.
  intros HL. induction n as [|n IH]; intros s h HS HR; cbn [decode_raw].
  - exists s, h. repeat split; auto; try apply HS. lia.
  - change (read_typed Release s 16) with (read_bits Release s 16).
    destruct (read_any Release L s 16 HL HS ltac:(lia)) as (s1 & v & E & S1 & C1 & L1).
    { pose proof (proj1 (proj1 HS)). unfold reached in HR. lia. }
    rewrite E. cbn [bind]. edestruct (IH s1) as (s2 & h2 & E2 & S2 & R2); [exact S1|unfold reached in *; lia|].
    rewrite E2. exists s2, h2. split; auto. split; auto. unfold reached in *. lia.
Qed.

Lemma decode_frame_any L c s hs : 0 <= L -> table_ok hs -> sane L s -> fc_state c <> CEncoding ->
  reached L s + COST * left hs + 600 < 2 ^ 64 ->
  exists c' s' hs', decode_frame Release c s hs = Ok (c', s', hs') /\ table_ok hs' /\ sane L s' /\ fc_state c' <> CEncoding /\
    reached L s' + COST * left hs' <= reached L s + COST * left hs /\
    (hs', fc_state c', zlen (fc_buffer c')) = frame_shape hs (fc_state c) (zlen (fc_buffer c)) /\
    zlen (fc_buffer c') + left_samples hs' <= zlen (fc_buffer c) + left_samples hs.
Proof.
  intros HL HT HS HC HR. unfold decode_frame, frame_shape. unfold COST in *.
  destruct (fhs_next_any Release hs HT) as [(Hlt & hd & E & He & Hz & Hs)|(Hge & E)]; rewrite E; cbn [bind].
  2: { destruct (Z.ltb_spec (fhs_cursor hs) (fhs_len hs)); [lia|]. exists c, s, hs.
    split; [reflexivity|]. split; [auto|]. split; [auto|]. split; [auto|]. split; [lia|]. split; [reflexivity|lia]. }
  destruct (Z.ltb_spec (fhs_cursor hs) (fhs_len hs)); [|lia]. rewrite <- Hz.
  pose proof (left_next hs Hlt) as LN. pose proof (left_samples_next hs HT Hlt) as LS. rewrite <- Hz in LS.
  pose proof (table_ok_next hs HT) as TN. set (hs' := fhs_set_cursor hs (fhs_cursor hs + 1)) in *.
  assert (0 <= left hs') by (unfold left; lia).
  destruct (fc_state c); [| congruence |].
  - destruct (decode_raw_any L 3 HL s (fc_history c) HS ltac:(lia)) as (s1 & h1 & E1 & S1 & R1). rewrite E1. cbn [bind].
    edestruct (decode_samples_any L (Z.to_nat (fh_size hd - 3)) HL s1 h1) as (s2 & h2 & b & E2 & Lb & S2 & R2); [exact S1|exact He|lia|].
    rewrite E2. cbn [bind]. eexists _, s2, hs'. split; [reflexivity|]. cbn [fc_state fc_buffer].
    split; auto. split; auto. split; [discriminate|]. split; [lia|].
    assert (Ez : zlen b = Z.max 0 (fh_size hd - 3)) by (unfold zlen; lia).
    rewrite !zlen_app, !zlen_cons, Ez. change (zlen (@nil f32)) with 0. split; [f_equal; lia|]. lia.
  - edestruct (decode_samples_any L (Z.to_nat (fh_size hd)) HL s (fc_history c)) as (s2 & h2 & b & E2 & Lb & S2 & R2); [exact HS|exact He|lia|].
    rewrite E2. cbn [bind]. eexists _, s2, hs'. split; [reflexivity|]. cbn [fc_state fc_buffer].
    split; auto. split; auto. split; [discriminate|]. split; [lia|].
    assert (Ez : zlen b = fh_size hd) by (unfold zlen; lia).
    rewrite !zlen_app, Ez. split; auto. lia.
Qed.

(** ** Two decoders side by side *)
Definition good (L : Z) (d : dstate) : Prop :=
  let '(chs, s, hs) := d in
  0 <= L /\ table_ok hs /\ sane L s /\ Forall (fun c => fc_state c <> CEncoding) chs /\
  reached L s + COST * left hs <= 128 * L + COST * fhs_len hs /\ 128 * L + COST * fhs_len hs + 600 < 2 ^ 64.
Definition shape (c1 c2 : frame_codec) : Prop :=
  fc_state c1 = fc_state c2 /\ zlen (fc_buffer c1) = zlen (fc_buffer c2).
Definition channels_of (d : dstate) : list frame_codec := fst (fst d).
Definition headers_in (d : dstate) : frame_headers := snd d.
Record alike (L1 L2 : Z) (d1 d2 : dstate) : Prop := {
  al_1 : good L1 d1;
  al_2 : good L2 d2;
  al_shape : Forall2 shape (channels_of d1) (channels_of d2);
  al_headers : headers_in d1 = headers_in d2 }.
(** Samples that can still come out. *)
Definition supply (d : dstate) : Z :=
  zsum (map (fun c => zlen (fc_buffer c)) (channels_of d)) + left_samples (headers_in d).

Lemma zsum_replace l j x : (j < length l)%nat -> zsum (replace_nth j l x) = zsum l - nth j l 0 + x.
Proof.
  unfold zsum. revert j; induction l as [|a l IH]; intros [|j] H; cbn [length] in H; try lia; cbn [replace_nth nth fold_right]; [lia|].
  rewrite IH by lia. lia.
Qed.
Lemma map_replace_nth {A B} (f : A -> B) j l x : map f (replace_nth j l x) = replace_nth j (map f l) (f x).
Proof. revert j; induction l; destruct j; cbn; auto. now rewrite IHl. Qed.

Lemma decode_channel_good L d j : good L d -> 0 <= j < zlen (channels_of d) ->
  exists d', decode_channel Release d j = Ok d' /\ good L d' /\ supply d' <= supply d /\
    zlen (channels_of d') = zlen (channels_of d) /\
    exists c', channels_of d' = replace_nth (Z.to_nat j) (channels_of d) c' /\
      (headers_in d', fc_state c', zlen (fc_buffer c')) =
      frame_shape (headers_in d) (fc_state (nth (Z.to_nat j) (channels_of d) fc_new))
                  (zlen (fc_buffer (nth (Z.to_nat j) (channels_of d) fc_new))).
Proof.
  destruct d as [[chs s] hs]. intros (HL & HT & HS & HC & HR & HB) Hj. unfold channels_of, headers_in in *. cbn [fst snd] in *.
  unfold decode_channel. rewrite (index_ok _ j fc_new) by lia. cbn [bind].
  assert (Hn : (Z.to_nat j < length chs)%nat) by (unfold zlen in Hj; lia).
  set (c := nth (Z.to_nat j) chs fc_new).
  assert (Hc : fc_state c <> CEncoding) by (rewrite Forall_forall in HC; apply HC, nth_In; auto).
  destruct (decode_frame_any L c s hs HL HT HS Hc ltac:(lia)) as (c' & s' & hs' & E & T' & S' & C' & R' & F' & M').
  rewrite E. cbn [bind]. rewrite store_ok by lia. cbn [bind]. eexists. split; [reflexivity|].
  cbn [fst snd].
  assert (El : fhs_len hs' = fhs_len hs).
  { revert F'. unfold frame_shape. destruct (_ <? _); intros F'; injection F' as -> _ _; reflexivity. }
  split; [|split; [|split; [apply zlen_replace_nth|exists c'; auto]]].
  - split; auto. split; auto. split; auto. split; [|rewrite El; split; lia]. apply Forall_replace; auto.
  - unfold supply, channels_of, headers_in. cbn [fst snd]. rewrite map_replace_nth, zsum_replace by (rewrite map_length; auto).
    change 0 with (zlen (fc_buffer fc_new)) at 1. rewrite (map_nth (fun c => zlen (fc_buffer c)) chs fc_new). fold c. lia.
Qed.

Lemma Forall2_nth2 {A B} (R : A -> B -> Prop) l1 l2 n d1 d2 : Forall2 R l1 l2 -> (n < length l1)%nat -> R (nth n l1 d1) (nth n l2 d2).
Proof. intros H. revert n; induction H; intros [|n] Hn; cbn in *; try lia; auto. apply IHForall2. lia. Qed.

Lemma decode_channel_alike L1 L2 d1 d2 j : alike L1 L2 d1 d2 -> 0 <= j < zlen (channels_of d1) ->
  exists d1' d2', decode_channel Release d1 j = Ok d1' /\ decode_channel Release d2 j = Ok d2' /\
    alike L1 L2 d1' d2' /\ zlen (channels_of d1') = zlen (channels_of d1) /\ supply d1' <= supply d1.
Proof.
  intros [H1 H2 HS HH] Hj.
  pose proof (Forall2_len _ _ _ HS) as Ll.
  destruct (decode_channel_good L1 d1 j H1 Hj) as (d1' & E1 & G1 & M1 & Z1 & c1 & K1 & F1).
  destruct (decode_channel_good L2 d2 j H2 ltac:(unfold zlen in *; lia)) as (d2' & E2 & G2 & M2 & Z2 & c2 & K2 & F2).
  exists d1', d2'. split; auto. split; auto. split; [|split; auto].
  destruct (Forall2_nth2 _ _ _ (Z.to_nat j) fc_new fc_new HS ltac:(unfold zlen in *; lia)) as [X1 X2].
  rewrite <- X1, <- X2, <- HH in F2. rewrite <- F1 in F2. injection F2 as F21 F22 F23.
  constructor; auto. rewrite K1, K2. apply Forall2_replace; auto. split; auto.
Qed.
Lemma decode_round_alike L1 L2 n d1 d2 : alike L1 L2 d1 d2 -> n <= zlen (channels_of d1) ->
  exists d1' d2', foldM (decode_channel Release) (range n) d1 = Ok d1' /\ foldM (decode_channel Release) (range n) d2 = Ok d2' /\
    alike L1 L2 d1' d2' /\ zlen (channels_of d1') = zlen (channels_of d1) /\ supply d1' <= supply d1.
Proof.
  intros HA Hn.
  assert (K : forall l, (forall j, In j l -> 0 <= j < zlen (channels_of d1)) -> forall e1 e2, alike L1 L2 e1 e2 ->
    zlen (channels_of e1) = zlen (channels_of d1) ->
    exists d1' d2', foldM (decode_channel Release) l e1 = Ok d1' /\ foldM (decode_channel Release) l e2 = Ok d2' /\
      alike L1 L2 d1' d2' /\ zlen (channels_of d1') = zlen (channels_of d1) /\ supply d1' <= supply e1).
  { induction l as [|j l IH]; intros Hl e1 e2 HE Hz; cbn [foldM].
    - exists e1, e2. split; auto. split; auto. split; auto. split; auto. lia.
    - destruct (decode_channel_alike L1 L2 e1 e2 j HE) as (f1 & f2 & E1 & E2 & A & Z1 & M1).
      { rewrite Hz. apply Hl. now left. }
      rewrite E1, E2. cbn [bind]. destruct (IH (fun x Hx => Hl x (or_intror Hx)) f1 f2 A ltac:(lia)) as (g1 & g2 & G1 & G2 & AG & ZG & MG).
      exists g1, g2. split; auto. split; auto. split; auto. split; auto. lia. }
  apply K; auto. intros j Hj. apply in_range in Hj. lia.
Qed.

Lemma shape_empty chs1 chs2 : Forall2 shape chs1 chs2 -> buffers_empty chs1 = buffers_empty chs2.
Proof.
  unfold buffers_empty. induction 1 as [|c1 c2 l1 l2 [_ H]]; cbn [forallb]; auto. rewrite IHForall2. f_equal.
  destruct (fc_buffer c1), (fc_buffer c2); auto; rewrite ?zlen_cons in H; change (zlen (@nil f32)) with 0 in H;
    match goal with H : context [zlen ?l] |- _ => pose proof (zlen_nonneg l) end; lia.
Qed.

Lemma buffer_audio_alike L1 L2 n fuel : forall d1 d2, alike L1 L2 d1 d2 -> n <= zlen (channels_of d1) ->
  exists d1' d2' k, buffer_audio Release n fuel d1 = Ok (d1', k) /\ buffer_audio Release n fuel d2 = Ok (d2', k) /\
    alike L1 L2 d1' d2' /\ zlen (channels_of d1') = zlen (channels_of d1) /\ supply d1' <= supply d1 /\
    ((k < fuel)%nat -> buffers_empty (channels_of d1') = false).
Proof.
  induction fuel as [|fuel IH]; intros d1 d2 HA Hn; cbn [buffer_audio].
  - exists d1, d2, 0%nat. split; auto. split; auto. split; auto. split; auto. split; [lia|]. intros; lia.
  - pose proof (shape_empty _ _ (al_shape _ _ _ _ HA)) as HE. destruct d1 as [[chs1 s1] hs1], d2 as [[chs2 s2] hs2].
    unfold channels_of in HE at 1 2. cbn [fst] in HE. rewrite <- HE. destruct (buffers_empty chs1) eqn:B.
    + destruct (decode_round_alike L1 L2 n _ _ HA Hn) as (e1 & e2 & E1 & E2 & A & Z1 & M1). rewrite E1, E2. cbn [bind].
      destruct (IH e1 e2 A ltac:(lia)) as (f1 & f2 & k & F1 & F2 & AF & ZF & MF & BF). rewrite F1, F2. cbn [bind].
      exists f1, f2, (S k). split; auto. split; auto. split; auto. split; [lia|]. split; [lia|]. intros; apply BF; lia.
    + eexists _, _, 0%nat. split; [reflexivity|]. split; [reflexivity|]. split; auto. split; auto. split; [lia|]. auto.
Qed.

Lemma pop_good L chs s hs : good L (chs, s, hs) -> good L (map popc chs, s, hs).
Proof. intros (H1 & H2 & H3 & H4 & H5). split; auto. split; auto. split; auto. split; auto. apply Forall_map. exact H4. Qed.
Lemma pop_alike L1 L2 chs1 s1 hs1 chs2 s2 hs2 : alike L1 L2 (chs1, s1, hs1) (chs2, s2, hs2) ->
  alike L1 L2 (map popc chs1, s1, hs1) (map popc chs2, s2, hs2).
Proof.
  intros [H1 H2 H3 H4]. constructor; [now apply pop_good|now apply pop_good| |exact H4].
  unfold channels_of in *. cbn [fst] in *. clear -H3. induction H3 as [|c1 c2 l1 l2 [E1 E2]]; cbn [map]; constructor; auto.
  split; cbn [popc fc_state fc_buffer]; auto. destruct (fc_buffer c1), (fc_buffer c2); rewrite ?zlen_cons in E2; cbn [tl]; auto;
    change (zlen (@nil f32)) with 0 in *; match goal with H : context [zlen ?l] |- _ => pose proof (zlen_nonneg l) end; lia.
Qed.
Lemma pop_supply chs s hs : buffers_empty chs = false -> supply (map popc chs, s, hs) + 1 <= supply (chs, s, hs).
Proof.
  unfold supply, channels_of, headers_in, buffers_empty. cbn [fst snd]. intros H.
  assert (K : zsum (map (fun c => zlen (fc_buffer c)) (map popc chs)) <= zsum (map (fun c => zlen (fc_buffer c)) chs) /\
    (forallb (fun fc => match fc_buffer fc with [] => true | _ => false end) chs = false ->
     zsum (map (fun c => zlen (fc_buffer c)) (map popc chs)) + 1 <= zsum (map (fun c => zlen (fc_buffer c)) chs))).
  { clear H. induction chs as [|c chs [IH1 IH2]]; cbn [map zsum fold_right forallb]; [split; [lia|discriminate]|].
    fold (zsum (map (fun c => zlen (fc_buffer c)) (map popc chs))). fold (zsum (map (fun c => zlen (fc_buffer c)) chs)).
    cbn [popc fc_buffer]. destruct (fc_buffer c) as [|x b]; cbn [tl]; rewrite ?zlen_cons; cbn [andb]; split; auto; try lia. }
  destruct K as [_ K]. specialize (K H). lia.
Qed.
