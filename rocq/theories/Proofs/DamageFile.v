(** * What damage to the bytes of a saved file does to the codec loaded from it *)
From Coq Require Import ZArith List Bool Lia.
From Verif Require Import Model.Base Model.F32 Model.Sample Model.BitStream Model.NibbleList Model.BitVec
  Model.CircularStack Model.Frame Model.Adhoc Model.Bincode Spec.Bits Spec.Codec Spec.Recording Spec.Files Spec.Damage
  Proofs.BaseFacts Proofs.BitStreamFacts Proofs.FileFacts.
Import ListNotations.
Open Scope Z_scope.

Definition with_chunks (c : adhoc) (chunks : list Z) : adhoc :=
  mkAdhoc (ad_headers c) (ad_channels c)
    (mkAS (as_info (ad_stream c)) (mkBS chunks (bs_cursor (as_stream (ad_stream c))) (bs_capacity (as_stream (ad_stream c)))))
    (ad_level c) (ad_scale c) (ad_inv_scale c) (ad_seq c).

(** ** Bytes and numbers *)
Lemma le_of_le l : Forall byte l -> le_bytes (length l) (of_le_bytes l) = l.
Proof.
  induction 1 as [|b l Hb Hl IH]; auto. cbn [length le_bytes of_le_bytes]. unfold byte in Hb.
  assert (E1 : (b + 256 * of_le_bytes l) mod 256 = b) by (rewrite Z.mul_comm, Z.mod_add, Z.mod_small; lia).
  assert (E2 : (b + 256 * of_le_bytes l) / 256 = of_le_bytes l) by (rewrite Z.mul_comm, Z.div_add, Z.div_small; lia).
  rewrite E1, E2, IH. reflexivity.
Qed.
Lemma of_le_range l : Forall byte l -> 0 <= of_le_bytes l < 2 ^ (8 * zlen l).
Proof.
  induction 1 as [|b l Hb Hl IH]; [cbn; lia|]. cbn [of_le_bytes]. rewrite zlen_cons. unfold byte in Hb.
  pose proof (zlen_nonneg l). replace (8 * (1 + zlen l)) with (8 + 8 * zlen l) by lia. rewrite Z.pow_add_r by lia. lia.
Qed.
Lemma byte_of n : forall x j, (j < n)%nat -> nth j (le_bytes n x) 0 = (x / 2 ^ (8 * Z.of_nat j)) mod 256.
Proof.
  induction n as [|n IH]; intros x j Hj; [lia|]. cbn [le_bytes]. destruct j as [|j]; cbn [nth].
  - now rewrite Z.div_1_r.
  - rewrite IH by lia. replace (8 * Z.of_nat (S j)) with (8 + 8 * Z.of_nat j) by lia. rewrite Z.pow_add_r by lia.
    rewrite Z.div_div by lia. reflexivity.
Qed.
Lemma bit_of_byte n x i : 0 <= i < 8 * Z.of_nat n ->
  Z.testbit (nth (Z.to_nat (i / 8)) (le_bytes n x) 0) (i mod 8) = Z.testbit x i.
Proof.
  intros Hi. pose proof (Z.div_mod i 8 ltac:(lia)). pose proof (Z.mod_pos_bound i 8 ltac:(lia)).
  assert (0 <= i / 8 < Z.of_nat n) by (split; [apply Z.div_pos|apply Z.div_lt_upper_bound]; lia).
  rewrite byte_of by lia. rewrite Z2Nat.id by lia. change 256 with (2 ^ 8). rewrite Z.mod_pow2_bits_low by lia.
  rewrite Z.div_pow2_bits by lia. f_equal. lia.
Qed.
Lemma nth_flat16 l : forall i j, (j < 16)%nat -> nth (16 * i + j) (flat_map put_u128 l) 0 = if (i <? length l)%nat then nth j (put_u128 (nth i l 0)) 0 else 0.
Proof.
  induction l as [|x l IH]; intros i j Hj; cbn [flat_map].
  - destruct (16 * i + j)%nat; destruct i; reflexivity.
  - assert (L : length (put_u128 x) = 16%nat) by apply length_le_bytes. destruct i as [|i].
    + cbn [Nat.ltb Nat.leb length nth]. rewrite app_nth1 by lia. f_equal.
    + rewrite app_nth2 by lia. replace (16 * S i + j - length (put_u128 x))%nat with (16 * i + j)%nat by lia. rewrite IH by auto. reflexivity.
Qed.
Lemma mbit_bytes l i : 0 <= i -> i / 128 < zlen l ->
  mbit l i = Z.testbit (nth (Z.to_nat (i / 8)) (flat_map put_u128 l) 0) (i mod 8).
Proof.
  intros Hi Hl. pose proof (Z.div_mod i 128 ltac:(lia)). pose proof (Z.mod_pos_bound i 128 ltac:(lia)).
  assert (0 <= i / 128) by (apply Z.div_pos; lia).
  set (k := i / 128) in *. set (o := i mod 128) in *.
  assert (E8 : i / 8 = 16 * k + o / 8).
  { replace i with (o + (16 * k) * 8) by lia. rewrite Z.div_add by lia. lia. }
  assert (M8 : i mod 8 = o mod 8) by (replace i with (o + (16 * k) * 8) by lia; now rewrite Z.mod_add by lia).
  assert (0 <= o / 8 < 16) by (split; [apply Z.div_pos|apply Z.div_lt_upper_bound]; lia).
  rewrite E8, M8. replace (Z.to_nat (16 * k + o / 8)) with (16 * Z.to_nat k + Z.to_nat (o / 8))%nat by lia.
  rewrite nth_flat16 by lia. destruct (Nat.ltb_spec (Z.to_nat k) (length l)); [|unfold zlen in Hl; lia].
  unfold put_u128. rewrite bit_of_byte by lia. unfold mbit. fold k o. reflexivity.
Qed.
Lemma group16 n : forall data, Forall byte data -> length data = (16 * n)%nat ->
  exists chunks, length chunks = n /\ Forall (in_range_u 128) chunks /\ flat_map put_u128 chunks = data.
Proof.
  induction n as [|n IH]; intros data Hd Hl.
  - exists []. destruct data; [auto|cbn in Hl; lia].
  - assert (L : length (firstn 16 data) = 16%nat) by (rewrite firstn_length; lia).
    assert (H : Forall byte (firstn 16 data) /\ Forall byte (skipn 16 data)) by (apply Forall_app; now rewrite firstn_skipn).
    destruct H as [F1 F2].
    destruct (IH (skipn 16 data) F2) as (cs & Lc & Rc & Ec); [rewrite skipn_length; lia|].
    exists (of_le_bytes (firstn 16 data) :: cs). split; [cbn; lia|]. split.
    + constructor; auto. pose proof (of_le_range _ F1). unfold in_range_u, zlen in *. rewrite L in *. exact H.
    + cbn [flat_map]. unfold put_u128 at 1. rewrite <- L at 1. rewrite le_of_le by auto. rewrite Ec. apply firstn_skipn.
Qed.

(** ** The file around the data *)
Lemma save_parts c : exists pre, (forall chunks, zlen chunks = zlen (bs_binary (as_stream (ad_stream c))) ->
    ad_save (with_chunks c chunks) = pre ++ flat_map put_u128 chunks ++
      put_u128 (bs_cursor (as_stream (ad_stream c))) ++ put_u128 (bs_capacity (as_stream (ad_stream c)))) /\
  length pre = data_start c.
Proof.
  set (b := bs_binary (as_stream (ad_stream c))).
  exists (put_u32 (ad_level c) ++ put_headers (ad_headers c) ++ put_info (as_info (ad_stream c)) ++ put_u64 (zlen b)). split.
  - intros chunks Hz. unfold ad_save, put_bitstream, put_vec. cbn [with_chunks ad_level ad_headers ad_stream as_info as_stream bs_binary bs_cursor bs_capacity].
    rewrite Hz. now rewrite <- !app_assoc.
  - unfold data_start, data_end, ad_save, put_bitstream, put_vec. fold b. rewrite !app_length.
    assert (F : forall l, length (flat_map put_u128 l) = (16 * length l)%nat).
    { induction l; cbn [flat_map length]; auto. rewrite app_length, IHl. unfold put_u128. rewrite length_le_bytes. lia. }
    rewrite F. unfold put_u128. rewrite !length_le_bytes. lia.
Qed.
Lemma with_same c : with_chunks c (bs_binary (as_stream (ad_stream c))) = c.
Proof. destruct c as [h chs [i [b cu cap]] l sc is sq]. reflexivity. Qed.

Lemma nth_ext_range {A} (d : A) l l' : length l = length l' -> (forall i, (i < length l)%nat -> nth i l d = nth i l' d) -> l = l'.
Proof. intros. now apply nth_ext with d d. Qed.

Lemma skipn_both {A} a b (l : list A) : skipn b (skipn a l) = skipn (a + b) l.
Proof. revert l; induction a; intros l; auto. destruct l; [now rewrite !skipn_nil|apply IHa]. Qed.
Theorem altered_chunks c a b file' : (data_start c <= a)%nat -> (b <= data_end c)%nat -> altered a b (ad_save c) file' ->
  exists chunks, file' = ad_save (with_chunks c chunks) /\ zlen chunks = zlen (bs_binary (as_stream (ad_stream c))) /\
    Forall (in_range_u 128) chunks /\
    (forall i, 0 <= i -> i / 8 < Z.of_nat (a - data_start c) \/ Z.of_nat (b - data_start c) <= i / 8 ->
      mbit chunks i = mbit (bs_binary (as_stream (ad_stream c))) i).
Proof.
  intros Ha Hb (HL & HB & HN). set (bin := bs_binary (as_stream (ad_stream c))) in *.
  destruct (save_parts c) as (pre & HP & LP). fold bin in HP.
  set (post := put_u128 _ ++ put_u128 _) in HP. assert (Lpost : length post = 32%nat) by (unfold post, put_u128; rewrite app_length, !length_le_bytes; reflexivity).
  clearbody post.
  assert (HS : ad_save c = pre ++ flat_map put_u128 bin ++ post) by (rewrite <- (HP bin eq_refl); now rewrite with_same).
  assert (F : forall l, length (flat_map put_u128 l) = (16 * length l)%nat).
  { induction l; cbn [flat_map length]; auto. rewrite app_length, IHl. unfold put_u128. rewrite length_le_bytes. lia. }
  assert (Hlen : length (ad_save c) = (length pre + 16 * length bin + 32)%nat) by (rewrite HS, !app_length, F; lia).
  assert (HE : data_end c = (length pre + 16 * length bin)%nat) by (unfold data_end; lia).
  set (n1 := length pre) in *. set (n2 := (16 * length bin)%nat) in *.
  assert (E1 : firstn n1 file' = pre).
  { apply (nth_ext_range 0). { rewrite firstn_length. fold n1. lia. }
    intros i Hi. rewrite firstn_length in Hi. rewrite <- (firstn_skipn n1 file') in HN.
    specialize (HN i ltac:(lia)). rewrite app_nth1 in HN by (rewrite firstn_length; lia). rewrite HN, HS, app_nth1 by (fold n1; lia). reflexivity. }
  assert (E3 : skipn (n1 + n2) file' = post).
  { apply (nth_ext_range 0). { rewrite skipn_length. lia. }
    intros i Hi. rewrite skipn_length in Hi. specialize (HN (n1 + n2 + i)%nat ltac:(lia)).
    rewrite <- (firstn_skipn (n1 + n2) file') in HN. rewrite app_nth2 in HN by (rewrite firstn_length; lia).
    rewrite firstn_length in HN. replace (n1 + n2 + i - Nat.min (n1 + n2) (length file'))%nat with i in HN by lia.
    rewrite HN, HS, app_assoc, app_nth2 by (rewrite app_length, F; fold n1 n2; lia). f_equal. rewrite app_length, F. fold n1 n2. lia. }
  assert (Split : file' = pre ++ firstn n2 (skipn n1 file') ++ post).
  { rewrite <- E3. rewrite <- E1 at 1. replace (skipn (n1 + n2) file') with (skipn n2 (skipn n1 file')).
    - now rewrite !firstn_skipn.
    - apply skipn_both. }
  set (data := firstn n2 (skipn n1 file')) in *.
  assert (Ld : length data = n2) by (subst data; rewrite firstn_length, skipn_length; lia).
  assert (Bd : Forall byte data).
  { rewrite Split in HB. apply Forall_app in HB. destruct HB as [_ HB]. apply Forall_app in HB. apply HB. }
  clearbody data. destruct (group16 (length bin) data Bd Ld) as (chunks & Lc & Rc & Ec).
  exists chunks. split; [|split; [unfold zlen; now rewrite Lc|split; auto]].
  - rewrite HP by (unfold zlen; now rewrite Lc). now rewrite Ec.
  - intros i Hi HD. destruct (Z.lt_ge_cases (i / 128) (zlen bin)) as [Hz|Hz].
    + assert (0 <= i / 8) by (apply Z.div_pos; lia).
      assert (I8 : (Z.to_nat (i / 8) < n2)%nat).
      { assert (i / 8 < 16 * zlen bin); [|unfold zlen in *; lia]. apply Z.div_lt_upper_bound; [lia|].
        pose proof (Z.div_mod i 128 ltac:(lia)). pose proof (Z.mod_pos_bound i 128 ltac:(lia)). nia. }
      rewrite !mbit_bytes by (auto; unfold zlen in *; rewrite ?Lc; auto). f_equal. rewrite Ec.
      set (j := Z.to_nat (i / 8)) in *.
      assert (Mid : forall x, length x = n2 -> nth (n1 + j) (pre ++ x ++ post) 0 = nth j x 0).
      { intros x Lx. rewrite app_nth2 by (fold n1; lia). fold n1. replace (n1 + j - n1)%nat with j by lia. apply app_nth1. lia. }
      specialize (HN (n1 + j)%nat). rewrite Split, HS, !Mid in HN by (rewrite ?F; auto). apply HN. subst j. lia.
    + unfold mbit, mchunk. rewrite !nth_overflow by (unfold zlen in *; lia). reflexivity.
Qed.

(** ** Whatever the bytes: the fields of a loaded codec fit their types *)
Definition reads {A} (P : A -> Prop) (g : parser A) : Prop :=
  forall l a r, Forall byte l -> g l = Some (a, r) -> P a /\ Forall byte r /\ (length r <= length l)%nat.
Lemma reads_ret {A} (P : A -> Prop) a : P a -> reads P (pret a).
Proof. intros H l b r Hl E. injection E as <- <-. auto. Qed.
Lemma reads_bind {A B} (P : A -> Prop) (Q : B -> Prop) g f : reads P g -> (forall a, P a -> reads Q (f a)) -> reads Q (pbind g f).
Proof.
  intros Hg Hf l b r Hl E. unfold pbind in E. destruct (g l) as [[a r']|] eqn:G; [|discriminate].
  destruct (Hg _ _ _ Hl G) as (Pa & Hr & L1). destruct (Hf a Pa _ _ _ Hr E) as (Qb & Hr2 & L2). split; auto. split; auto. lia.
Qed.
Lemma reads_imp {A} (P Q : A -> Prop) g : (forall a, P a -> Q a) -> reads P g -> reads Q g.
Proof. intros H Hg l a r Hl E. destruct (Hg _ _ _ Hl E) as (? & ? & ?). auto. Qed.
Lemma reads_uint n : reads (in_range_u (8 * Z.of_nat n)) (get_uint n).
Proof.
  intros l a r Hl E. unfold get_uint in E. destruct (Nat.leb_spec n (length l)) as [Hn|]; [|discriminate]. injection E as <- <-.
  assert (H : Forall byte (firstn n l) /\ Forall byte (skipn n l)) by (apply Forall_app; now rewrite firstn_skipn).
  destruct H as [H1 H2]. split; [|split; [auto|rewrite skipn_length; lia]].
  pose proof (of_le_range _ H1) as R. unfold zlen in R. rewrite firstn_length, Nat.min_l in R by auto. exact R.
Qed.
Lemma reads_n {A} (P : A -> Prop) g n : reads P g -> reads (fun l => Forall P l /\ length l = n) (get_n g n).
Proof.
  intros Hg. induction n as [|n IH]; cbn [get_n]; [apply reads_ret; auto|].
  eapply reads_bind; [exact Hg|]. intros a Pa. eapply reads_bind; [exact IH|]. intros r [Pr Lr]. apply reads_ret. split; [constructor; auto|cbn; lia].
Qed.
(** A vector is never longer than the file. *)
Lemma reads_vec {A} (P : A -> Prop) g l v r : reads P g -> Forall byte l -> get_vec g l = Some (v, r) ->
  Forall P v /\ Forall byte r /\ (length r <= length l)%nat /\ zlen v <= zlen l.
Proof.
  intros Hg Hl E. unfold get_vec, pbind in E. destruct (get_u64 l) as [[n r1]|] eqn:G; [|discriminate].
  destruct (reads_uint 8 _ _ _ Hl G) as (Hn & Hr1 & L1). destruct (Z.leb_spec n (zlen r1)); [|discriminate].
  destruct (reads_n P g (Z.to_nat n) Hg _ _ _ Hr1 E) as ((Hv & Lv) & Hr & L2). split; auto. split; auto. split; [lia|].
  unfold in_range_u in Hn. unfold zlen in *. lia.
Qed.
Lemma reads_any {A} (g : parser A) (P : A -> Prop) : reads P g -> reads (fun _ => True) g.
Proof. intros H. eapply reads_imp; [|exact H]. auto. Qed.
Lemma reads_vec' {A} (P : A -> Prop) g : reads P g -> reads (Forall P) (get_vec g).
Proof. intros Hg l v r Hl E. destruct (reads_vec P g l v r Hg Hl E) as (? & ? & ? & _). auto. Qed.

Theorem get_codec_types file lvl h s r : Forall byte file -> get_codec file = Some (lvl, h, s, r) ->
  0 <= nl_count (fhs_exps h) < 2 ^ 32 /\ Forall (fun x => 0 <= x < 65536) (fhs_sizes h) /\
  Forall (in_range_u 128) (bs_binary (as_stream s)) /\ zlen (bs_binary (as_stream s)) <= zlen file /\
  (forall info, as_info s = Some info -> 0 <= si_channels info < 2 ^ 32).
Proof.
  intros Hf E. unfold get_codec in E. unfold pbind at 1 in E. destruct (get_u32 file) as [[lv r1]|] eqn:G1; [|discriminate].
  destruct (reads_uint 4 _ _ _ Hf G1) as (_ & Hr1 & L1).
  unfold pbind at 1 in E. destruct (get_headers r1) as [[hh r2]|] eqn:G2; [|discriminate].
  assert (H2 : (0 <= nl_count (fhs_exps hh) < 2 ^ 32 /\ Forall (fun x => 0 <= x < 65536) (fhs_sizes hh)) /\ Forall byte r2 /\ (length r2 <= length r1)%nat).
  { refine ((_ : reads (fun h => 0 <= nl_count (fhs_exps h) < 2 ^ 32 /\ Forall (fun x => 0 <= x < 65536) (fhs_sizes h)) get_headers) _ _ _ Hr1 G2). unfold get_headers.
    eapply reads_bind with (P := fun n => 0 <= nl_count n < 2 ^ 32).
    { unfold get_nibble_list. eapply reads_bind; [apply reads_vec', (reads_uint 1)|]. intros d _.
      eapply reads_bind; [apply (reads_uint 4)|]. intros k Hk. apply reads_ret. exact Hk. }
    intros e He. eapply reads_bind with (P := fun _ => True).
    { unfold get_bitvec. eapply reads_bind; [apply reads_vec', (reads_uint 8)|]. intros d _.
      eapply reads_bind; [apply (reads_uint 16)|]. intros k Hk. apply reads_ret. exact I. }
    intros i _. eapply reads_bind; [apply reads_vec', (reads_uint 2)|]. intros sz Hsz.
    eapply reads_bind; [apply reads_vec', (reads_uint 8)|]. intros cu _.
    eapply reads_bind with (P := fun _ => True).
    { eapply reads_imp; [|apply (reads_vec' (fun _ => True))]; auto. unfold get_history, get_i16, pmap.
      repeat (eapply reads_bind; [eapply reads_bind; [apply (reads_uint 2)|intros; apply reads_ret with (P := fun _ => True); exact I]|]; intros ? _).
      apply reads_ret. exact I. }
    intros hi _. eapply reads_bind; [apply (reads_uint 4)|]. intros k _. apply reads_ret. cbn. split; auto. }
  destruct H2 as ((Hc & Hs) & Hr2 & L2).
  unfold pbind at 1 in E. destruct (get_info r2) as [[ii r3]|] eqn:G3; [|discriminate].
  assert (H3 : (forall info, ii = Some info -> 0 <= si_channels info < 2 ^ 32) /\ Forall byte r3 /\ (length r3 <= length r2)%nat).
  { refine ((_ : reads (fun ii => forall info, ii = Some info -> 0 <= si_channels info < 2 ^ 32) get_info) _ _ _ Hr2 G3). unfold get_info.
    eapply reads_bind; [apply (reads_uint 1)|]. intros t _. destruct (t =? 0); [apply reads_ret; discriminate|]. destruct (t =? 1); [|intros ? ? ? ? X; discriminate].
    eapply reads_bind; [apply (reads_uint 4)|]. intros ra _. eapply reads_bind; [apply (reads_uint 4)|]. intros cc Hcc. apply reads_ret.
    intros info X. injection X as <-. exact Hcc. }
  destruct H3 as (Hi & Hr3 & L3).
  unfold pbind at 1 in E. destruct (get_bitstream r3) as [[bs r4]|] eqn:G4; [|discriminate]. injection E as <- <- <- <-. cbn [as_stream as_info].
  unfold get_bitstream in G4. unfold pbind at 1 in G4. destruct (get_vec get_u128 r3) as [[bin r5]|] eqn:G5; [|discriminate].
  destruct (reads_vec _ _ _ _ _ (reads_uint 16) Hr3 G5) as (Hb & Hr5 & L5 & Lb).
  unfold pbind in G4. destruct (get_u128 r5) as [[k1 r6]|]; [|discriminate]. destruct (get_u128 r6) as [[k2 r7]|]; [|discriminate].
  injection G4 as <- <-. cbn [bs_binary]. split; auto. split; auto. split; [exact Hb|]. split; [unfold zlen in *; lia|auto].
Qed.
