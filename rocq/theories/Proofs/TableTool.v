(** * Decode calls and the command line tool on such a table *)
From Coq Require Import ZArith List Bool Lia.
From Verif Require Import Model.Base Model.F32 Model.Sample Model.BitStream Model.NibbleList Model.BitVec Model.Frame Model.Adhoc Model.Bincode
  Model.Wav Model.Cli Spec.Tables Spec.Wave Spec.Recording Proofs.BaseFacts Proofs.AnyState Proofs.DecodeFacts Proofs.DamageFacts Proofs.Terminates Proofs.BombFacts
  Proofs.BombTool Proofs.Chunks Proofs.WavFacts Proofs.WavFile Proofs.TableFacts.
Import ListNotations.
Open Scope Z_scope.

Lemma staged_pop L n m rest chs s hs : staged L n m rest (chs, s, hs) -> staged L n m rest (map popc chs, s, hs).
Proof.
  intros [HG HZ Hm HSh HC HT HR]. unfold channels_of, cut_state in *. cbn [fst snd] in *. constructor; unfold channels_of, cut_state; cbn [fst snd]; auto.
  - apply pop_good. exact HG.
  - now rewrite zlen_map.
  - intros Q. destruct (HT Q) as [HD HS]. split; [exact HD|]. apply Forall_map. eapply Forall_impl; [|exact HS]. intros c Hc. exact Hc.
Qed.
Lemma at_blocks_nonneg L n m B d : at_blocks L n m B d -> 0 <= B.
Proof. intros (rest & _ & _ & HF & HB). pose proof (total_nonneg _ HF). pose proof (peak_nonneg (channels_of d)). lia. Qed.
Lemma at_blocks_len L n m B d : at_blocks L n m B d -> zlen (channels_of d) = n.
Proof. intros (rest & HS & _). exact (sg_len _ _ _ _ _ HS). Qed.

Lemma loop_table L n m N fuel : 0 < n -> forall q B d, at_blocks L n m B d -> fhs_len (snd d) = N -> 0 <= q -> q < Z.of_nat fuel ->
  if (m <? N) && (B <? q) then decode_loop Release n fuel (q * n) d = Panic IndexOutOfBounds
  else exists d' out, decode_loop Release n fuel (q * n) d = Ok (d', out) /\ zlen out = n * Z.min q B /\ at_blocks L n m (B - Z.min q B) d' /\ fhs_len (snd d') = N.
Proof.
  intros Hn. induction fuel as [|fuel IH]; intros q B d HD HN Hq Hf; [lia|]. cbn [decode_loop].
  pose proof (at_blocks_nonneg _ _ _ _ _ HD) as B0. assert (MN : m <= N) by (destruct HD as (? & HS & _); pose proof (sg_m _ _ _ _ _ HS); lia).
  destruct (Z.ltb_spec 0 (q * n)) as [H0|H0].
  2: { assert (q = 0) by nia. subst q. destruct (Z.ltb_spec B 0); [lia|]. rewrite andb_false_r. exists d, []. split; [reflexivity|]. change (zlen (@nil f32)) with 0. rewrite Z.min_l by lia.
    split; [lia|]. rewrite Z.sub_0_r. auto. }
  assert (Q1 : 0 < q) by (apply (Z.mul_pos_cancel_r q n); lia). assert (R : n <= q * n) by (clear - Q1 Hn; nia).
  destruct (buffer_table L n m B d Hn HD) as (K1 & K2 & K3). destruct (Z.eq_dec B 0) as [BZ|BZ].
  - destruct (Z.ltb_spec m N) as [Q|Q].
    + destruct (Z.ltb_spec B q); [|lia]. cbn [andb]. rewrite K3 by lia. reflexivity.
    + cbn [andb]. destruct (K2 BZ ltac:(lia)) as (d1 & E & F & L1). rewrite E. cbn [bind]. destruct (Nat.leb_spec MAX_DECODE_ATTEMPTS MAX_DECODE_ATTEMPTS); [|lia].
      exists d1, []. split; [reflexivity|]. change (zlen (@nil f32)) with 0. rewrite Z.min_r by lia. subst B. split; [lia|]. rewrite Z.sub_0_r. split; [exact F|congruence].
  - destruct (K1 ltac:(lia)) as (d1 & k & E & F1 & Q & L1). rewrite E. cbn [bind]. destruct (Nat.leb_spec MAX_DECODE_ATTEMPTS k); [lia|].
    destruct (buffer_audio_keeps _ _ _ _ _ _ E) as [_ BE]. specialize (BE Q). destruct F1 as (rest & S1 & N1 & P1 & T1). pose proof (sg_len _ _ _ _ _ S1) as Z1.
    destruct d1 as [[chs s] hs]. unfold channels_of in *. cbn [fst snd] in *.
    pose proof (pop_block_spec (Z.to_nat n) chs 0 (q * n) ltac:(lia) ltac:(lia) ltac:(lia)) as PB. rewrite Z1 in PB. rewrite PB. clear PB.
    change (Z.to_nat 0) with 0%nat. cbn [firstn skipn app bind]. rewrite zlen_map, Z1. replace (q * n - n) with ((q - 1) * n) by lia.
    assert (P : 1 <= peak chs). { pose proof (peak_nonneg chs). destruct (Z.eq_dec (peak chs) 0) as [X|X]; [|lia]. apply peak_empty in X. congruence. }
    specialize (IH (q - 1) (B - 1) (map popc chs, s, hs)). cbn [snd] in IH.
    assert (A : at_blocks L n m (B - 1) (map popc chs, s, hs)).
    { exists rest. split; [apply staged_pop; exact S1|]. split; [exact N1|]. split; [exact P1|]. unfold channels_of. cbn [fst]. rewrite peak_pop, Z.max_r by lia. lia. }
    specialize (IH A ltac:(congruence) ltac:(lia) ltac:(lia)). replace (B - 1 <? q - 1) with (B <? q) in IH by (destruct (Z.ltb_spec B q), (Z.ltb_spec (B - 1) (q - 1)); auto; lia).
    destruct ((m <? N) && (B <? q)); [rewrite IH; reflexivity|]. destruct IH as (d2 & o & E2 & Z2 & F2 & N2). rewrite E2. cbn [bind]. eexists _, _. split; [reflexivity|].
    rewrite zlen_app, zlen_map, Z1, Z2. replace (Z.min q B) with (1 + Z.min (q - 1) (B - 1)) by lia. split; [lia|].
    replace (B - (1 + Z.min (q - 1) (B - 1))) with (B - 1 - Z.min (q - 1) (B - 1)) by lia. auto.
Qed.
Lemma decode_table L m B c info buf : ad_info c = Ok info -> let n := si_channels info in 0 < n -> at_blocks L n m B (codec_state c) ->
  let q := zlen buf / n in
  if (m <? fhs_len (ad_headers c)) && (B <? q) then ad_decode Release c buf = Panic IndexOutOfBounds
  else exists c' out, ad_decode Release c buf = Ok (c', out, if 0 <? n * Z.min q B then Some (n * Z.min q B) else None) /\
    ad_info c' = Ok info /\ at_blocks L n m (B - Z.min q B) (codec_state c') /\ zlen out = zlen buf /\ fhs_len (ad_headers c') = fhs_len (ad_headers c).
Proof.
  intros EI n Hn HF q. unfold ad_decode. rewrite EI. cbn [bind]. fold n. rewrite udiv_ok by lia. cbn [bind]. fold q.
  assert (Q0 : 0 <= q) by (apply Z.div_pos; [apply zlen_nonneg|lia]).
  assert (Q1 : q <= zlen buf) by (apply Z.div_le_upper_bound; [lia|]; pose proof (zlen_nonneg buf); nia).
  pose proof (loop_table L n m (fhs_len (ad_headers c)) (S (length buf)) Hn q B _ HF eq_refl Q0 ltac:(unfold zlen in *; lia)) as LT. unfold codec_state in LT.
  destruct ((m <? fhs_len (ad_headers c)) && (B <? q)); [rewrite LT; reflexivity|]. destruct LT as (d & o & E & Zo & F & N).
  rewrite E. cbn [bind]. destruct d as [[chs s] hs]. rewrite Zo. eexists _, _. split; [reflexivity|]. split; [exact EI|].
  split; [exact F|]. split; [|exact N]. pose proof (Z.mul_div_le (zlen buf) n Hn). fold q in H.
  assert (zlen o <= zlen buf) by (rewrite Zo; nia). rewrite zlen_map, zlen_app. unfold zlen in *. rewrite skipn_length. lia.
Qed.
Lemma tool_table L m N info fuel : let n := si_channels info in 0 < n <= 1024 -> forall B c track buf, ad_info c = Ok info -> at_blocks L n m B (codec_state c) ->
  fhs_len (ad_headers c) = N -> zlen buf = 1024 -> B < Z.of_nat fuel -> zlen track + n * B < 2 ^ 62 ->
  if m <? N then adhoc_to_wav_loop Release fuel c (mkWav info (pcm_bytes track) (zlen track)) buf = Panic IndexOutOfBounds
  else exists track' cur, adhoc_to_wav_loop Release fuel c (mkWav info (pcm_bytes track) (zlen track)) buf = Ok (mkWav info (pcm_bytes track') cur) /\
    zlen track' = zlen track + n * B.
Proof.
  intros n Hn. induction fuel as [|fuel IH]; intros B c track buf EI HF HN Hb Hf Ht; [pose proof (at_blocks_nonneg _ _ _ _ _ HF); lia|].
  pose proof (at_blocks_nonneg _ _ _ _ _ HF) as B0.
  pose proof (decode_table L m B c info buf EI ltac:(fold n; lia) HF) as DT. fold n in DT. cbv zeta in DT. rewrite Hb, HN in DT.
  assert (Q1 : 1 <= 1024 / n) by (apply Z.div_le_lower_bound; lia). pose proof (Z.mul_div_le 1024 n ltac:(lia)) as Q2.
  cbn [adhoc_to_wav_loop]. destruct ((m <? N) && (B <? 1024 / n)) eqn:BR.
  { rewrite DT. apply andb_true_iff in BR. destruct BR as [BR _]. rewrite BR. reflexivity. }
  destruct DT as (c1 & buf1 & E & EI1 & F1 & Zb & N1).
  set (w := Z.min (1024 / n) B) in *. assert (M0 : 0 <= w) by lia. assert (M1 : n * w <= 1024) by (assert (w <= 1024 / n) by lia; clear - Hn H Q2; nia).
  rewrite E. cbn [bind]. destruct (Z.ltb_spec 0 (n * w)) as [P|P].
  - assert (MP : 1 <= w) by (clear - P Hn; nia).
    assert (ZF : zlen (firstn (Z.to_nat (n * w)) buf1) = n * w) by (unfold zlen in *; rewrite firstn_length; lia).
    assert (MB : n * w <= n * B) by (assert (w <= B) by lia; clear - H Hn; nia). change (2 ^ 62) with 4611686018427387904 in *.
    rewrite encode_ok by (fold n; change (2 ^ 63) with 9223372036854775808; pose proof (zlen_nonneg track); lia). cbn [bind]. fold n.
    replace (Z.to_nat (zlen track)) with (length track) by (unfold zlen; lia). rewrite at_end.
    rewrite (whole_all n _ w) by (lia || exact ZF). set (t2 := track ++ _).
    assert (ZT : zlen t2 = zlen track + n * w) by (subst t2; rewrite zlen_app, zlen_map, ZF; reflexivity). rewrite ZF, <- ZT.
    specialize (IH (B - w) c1 t2 buf1 EI1 F1 ltac:(congruence) ltac:(congruence) ltac:(lia) ltac:(rewrite ZT; lia)).
    destruct (m <? N); [exact IH|]. destruct IH as (track' & cur & E2 & L2).
    exists track', cur. split; [exact E2|]. rewrite L2, ZT. lia.
  - assert (MZ : w = 0) by (clear - P Hn M0; nia). assert (B = 0) by lia. subst B. destruct (Z.ltb_spec m N).
    + destruct (Z.ltb_spec 0 (1024 / n)); [discriminate BR|lia].
    + exists track, (zlen track). split; [reflexivity|lia].
Qed.

(** ** Totals *)
Lemma longest_le b t : Forall (fun x => 0 <= x) t -> 0 <= longest b t <= fold_right (fun size acc => size + 3 + acc) 0 t.
Proof.
  induction 1 as [|x t Hx Ht IH]; cbn [longest map fold_right]; [lia|]. unfold longest in IH. cbn [map fold_right] in *. unfold longest. cbn [map fold_right]. destruct b; lia.
Qed.
Lemma sum_app (a b : list Z) : fold_right (fun size acc => size + 3 + acc) 0 (a ++ b) =
  fold_right (fun size acc => size + 3 + acc) 0 a + fold_right (fun size acc => size + 3 + acc) 0 b.
Proof. induction a as [|x a IH]; cbn [app fold_right]; lia. Qed.
Lemma turns_total n : 0 < n -> forall k (l : list Z) b, (length l <= k)%nat -> Forall (fun x => 0 <= x) l ->
  Forall (fun h => 0 <= h) (blocks_in_turns b (turns n l)) /\
  0 <= total (blocks_in_turns b (turns n l)) <= fold_right (fun size acc => size + 3 + acc) 0 l.
Proof.
  intros Hn. induction k as [|k IH]; intros l b Hk HF.
  - destruct l; [|cbn in Hk; lia]. cbn. split; [constructor|lia].
  - destruct l as [|x l]; [cbn; split; [constructor|lia]|]. rewrite turns_step by (lia || discriminate). cbn [blocks_in_turns].
    set (t := firstn (Z.to_nat n) (x :: l)). set (r := skipn (Z.to_nat n) (x :: l)).
    assert (E : x :: l = t ++ r) by (symmetry; apply firstn_skipn). rewrite E in HF. apply Forall_app in HF. destruct HF as [F1 F2].
    destruct (IH r false) as [I1 I2]; [subst r; rewrite skipn_length; cbn [length] in *; lia|exact F2|]. rewrite blocks_false in I1, I2.
    pose proof (longest_le b t F1). split; [constructor; [lia|exact I1]|]. rewrite E, sum_app. unfold total in *. cbn [fold_right]. lia.
Qed.
Lemma sum_firstn k l : Forall (fun x => 0 <= x) l -> fold_right (fun size acc => size + 3 + acc) 0 (firstn k l) <= fold_right (fun size acc => size + 3 + acc) 0 l.
Proof.
  intros H. rewrite <- (firstn_skipn k l) at 2. rewrite sum_app. assert (HS : Forall (fun x => 0 <= x) (skipn k l)) by (rewrite <- (firstn_skipn k l) in H; apply Forall_app in H; apply H).
  assert (G : 0 <= fold_right (fun size acc => size + 3 + acc) 0 (skipn k l)) by (clear H; induction HS; cbn [fold_right]; lia). lia.
Qed.
Lemma longest_cap b t : Forall (fun x => 0 <= x < 65536) t -> longest b t <= 65535.
Proof. induction 1 as [|x t Hx Ht IH]; unfold longest in *; cbn [map fold_right]; [lia|]. destruct b; lia. Qed.
Lemma turns_cap n : 0 < n -> forall k (l : list Z) b, (length l <= k)%nat -> Forall (fun x => 0 <= x < 65536) l ->
  n * total (blocks_in_turns b (turns n l)) <= 65535 * (if zlen l =? 0 then 0 else zlen l + n - 1).
Proof.
  intros Hn. induction k as [|k IH]; intros l b Hk HF.
  - destruct l; [|cbn in Hk; lia]. cbn. lia.
  - destruct l as [|x l]; [cbn; lia|]. rewrite turns_step by (lia || discriminate). cbn [blocks_in_turns].
    set (t := firstn (Z.to_nat n) (x :: l)). set (r := skipn (Z.to_nat n) (x :: l)).
    assert (E : x :: l = t ++ r) by (symmetry; apply firstn_skipn). pose proof HF as HF0. rewrite E in HF. apply Forall_app in HF. destruct HF as [F1 F2].
    pose proof (IH r false ltac:(subst r; rewrite skipn_length; cbn [length] in *; lia) F2) as I2. rewrite blocks_false in I2.
    pose proof (longest_cap b t F1) as LC. unfold total in *. cbn [fold_right]. set (T := fold_right Z.add 0 _) in *. clearbody T.
    assert (LR : zlen r = Z.max 0 (zlen (x :: l) - n)) by (subst r; unfold zlen; rewrite skipn_length; lia). pose proof (zlen_nonneg l) as L0. rewrite zlen_cons in *.
    destruct (Z.eqb_spec (1 + zlen l) 0); [lia|]. destruct (Z.eqb_spec (zlen r) 0); nia.
Qed.
