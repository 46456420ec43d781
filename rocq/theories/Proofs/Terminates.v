(** * No call runs forever: the fuel the model gives its loops always suffices *)
From Coq Require Import ZArith List Bool Lia.
From Verif Require Import Model.Base Model.F32 Model.Sample Model.BitStream Model.NibbleList Model.CircularStack Model.Frame Model.Adhoc
  Model.Bincode Model.Wav Model.Cli Spec.Recording Spec.Frames Spec.Files
  Proofs.BaseFacts Proofs.BitStreamFacts Proofs.EncodeFacts Proofs.AnyState Proofs.Memory.
Import ListNotations.
Open Scope Z_scope.

Lemma nofuel_peek p s n : nofuel (peek_bits p s n).
Proof. unfold peek_bits. nf. Qed.
Global Hint Resolve nofuel_peek : nofuel.
Lemma nofuel_read_bit p s : nofuel (read_bit p s).
Proof. unfold read_bit. nf. Qed.
Lemma nofuel_read_bits p s n : nofuel (read_bits p s n).
Proof. unfold read_bits. nf. Qed.
Lemma nofuel_read_typed p s n : nofuel (read_typed p s n).
Proof. unfold read_typed. nf. Qed.
Global Hint Resolve nofuel_read_bit nofuel_read_bits nofuel_read_typed : nofuel.

(** ** The unary part of a code word *)
(** The memory is zero from chunk [L] on. *)
Definition tail0 (L : Z) (s : bitstream) : Prop :=
  0 <= L <= zlen (bs_binary s) /\ L < 2 ^ 63 /\ forall i, (Z.to_nat L <= i)%nat -> nth i (bs_binary s) 0 = 0.
Lemma tail0_kept L s s' : tail0 L s -> kept s s' -> tail0 L s'.
Proof.
  intros ([H1 H2] & H3 & H4) [n E]. rewrite <- (Z2Nat.id L) in H2 by auto. unfold zlen in H2.
  split; [|split; auto].
  - unfold zlen. rewrite E, app_length. lia.
  - intros i Hi. rewrite E. destruct (Nat.lt_ge_cases i (length (bs_binary s))) as [Q|Q].
    + rewrite app_nth1 by auto. auto.
    + rewrite app_nth2 by auto. destruct (Nat.lt_ge_cases (i - length (bs_binary s)) n) as [R|R].
      * rewrite nth_repeat. reflexivity.
      * apply nth_overflow. rewrite repeat_length. auto.
Qed.
Lemma tail0_start s : zlen (bs_binary s) < 2 ^ 63 -> tail0 (zlen (bs_binary s)) s.
Proof.
  intros H. pose proof (zlen_nonneg (bs_binary s)). split; [lia|]. split; [auto|].
  intros i Hi. apply nth_overflow. unfold zlen in Hi. lia.
Qed.
Lemma ones_odd : Z.testbit (2 ^ 128 - 1) 0 = true.
Proof. reflexivity. Qed.
Lemma index_nth0 (l : list Z) i a : index l i = Ok a -> 0 <= i < zlen l /\ nth (Z.to_nat i) l 0 = a.
Proof.
  intros E. apply index_inv in E. destruct E as [R E]. split; auto. now apply nth_error_nth.
Qed.
Lemma alloc_cursor0 x i : bs_cursor (allocate_if_needed x i) = bs_cursor x.
Proof. unfold allocate_if_needed. destruct (_ <=? _); reflexivity. Qed.
Lemma ok_inj0 (a b : Z) : Ok a = Ok b -> a = b.
Proof. now intros [= ->]. Qed.
Lemma peek_ones p L s s' : tail0 L s -> peek_bits p s 128 = Ok (s', 2 ^ 128 - 1) -> chunk_index s < L /\ bs_cursor s' = bs_cursor s.
Proof.
  intros HT H. pose proof (peek_kept _ _ _ _ _ H) as HK. pose proof (tail0_kept _ _ _ HT HK) as HT'.
  unfold peek_bits in H. inv_bind H.
  set (s2 := allocate_if_needed _ a) in *.
  assert (C2 : bs_cursor s2 = bs_cursor s).
  { subst s2. now rewrite !alloc_cursor0. }
  clearbody s2.
  destruct (zlen (bs_binary s2) <=? chunk_index s) eqn:LE.
  { injection H as _ H. exfalso. revert H. vm_compute. discriminate. }
  inv_bind H. inv_bind H. injection H as <- H. split; [|exact C2].
  destruct (Z.lt_ge_cases (chunk_index s) L) as [G|G]; auto. exfalso.
  apply index_nth0 in Ha0. destruct Ha0 as [R0 Ha0]. destruct HT' as ([T0 _] & _ & HZ). rewrite HZ in Ha0 by lia. subst a0.
  assert (B : Z.testbit a1 0 = false).
  { rewrite Z.shiftr_0_l in Ha1. unfold chunk_bit_index in Ha1. pose proof (Z.mod_pos_bound (bs_cursor s) 128 ltac:(lia)) as M.
    destruct (128 - bs_cursor s mod 128 <? 128) eqn:Q.
    - inv_bind Ha1. inv_bind Ha1. injection Ha1 as <-. rewrite ?Z.lor_0_l. apply Z.ltb_lt in Q.
      match goal with E : ushl _ _ _ _ = Ok _ |- _ => unfold ushl in E;
        replace (_ && _) with true in E by (symmetry; apply andb_true_intro; split; [unfold in_u; apply andb_true_intro; split|]; lia);
        apply ok_inj0 in E; rewrite <- E end.
      unfold uwrap. rewrite Z.mod_pow2_bits_low by lia. apply Z.shiftl_spec_low. lia.
    - injection Ha1 as <-. apply Z.testbit_0_l. }
  apply (f_equal (fun x => Z.testbit x 0)) in H. rewrite Z.land_spec, B in H. discriminate H.
Qed.
Lemma offset_chunk p s n s' : offset_bit_cursor p s n = Ok s' -> n = 128 -> 0 <= chunk_index s < 2 ^ 63 ->
  chunk_index s' = chunk_index s + 1.
Proof.
  unfold offset_bit_cursor, chunk_index. intros H -> Hr. inv_bind H. injection H as <-. cbn [bs_cursor].
  assert (E : uwrap 128 a = (bs_cursor s + 128) mod 2 ^ 128).
  { assert (X : uwrap 128 a = uwrap 128 (swrap 128 (bs_cursor s) + 128)).
    { unfold schk in Ha. destruct (in_s _ _); [injection Ha as <-; reflexivity|]. destruct p; [discriminate|]. injection Ha as <-.
      unfold uwrap, swrap. rewrite Zminus_mod_idemp_l. f_equal. lia. }
    rewrite X. unfold uwrap, swrap.
    replace ((bs_cursor s + 2 ^ (128 - 1)) mod 2 ^ 128 - 2 ^ (128 - 1) + 128)
      with ((bs_cursor s + 2 ^ (128 - 1)) mod 2 ^ 128 + (128 - 2 ^ (128 - 1))) by ring.
    rewrite Z.add_mod_idemp_l by (vm_compute; discriminate). f_equal. ring. }
  rewrite E. clear E Ha a. unfold uwrap in *. set (q := bs_cursor s) in *. clearbody q.
  assert (X : (q + 128) mod 2 ^ 128 / 128 = (q / 128 + 1) mod 2 ^ 121).
  { change (2 ^ 128) with (128 * 2 ^ 121). rewrite Z.rem_mul_r by (vm_compute; congruence).
    rewrite (Z.mul_comm 128 (_ mod _)), Z.div_add by lia. rewrite (Z.div_small ((q + 128) mod 128)) by (apply Z.mod_pos_bound; lia).
    rewrite Z.add_0_l. f_equal. replace (q + 128) with (q + 1 * 128) by ring. apply Z.div_add. lia. }
  rewrite X. change (2 ^ 121) with (2 ^ 64 * 2 ^ 57). rewrite Z.rem_mul_r by (vm_compute; congruence).
  rewrite (Z.mul_comm (2 ^ 64)), Z.mod_add, Z.mod_mod by (vm_compute; congruence).
  rewrite Z.add_mod by (vm_compute; congruence). change (1 mod 2 ^ 64) with 1. apply Z.mod_small.
  change (2 ^ 63) with 9223372036854775808 in *. change (2 ^ 64) with 18446744073709551616 in *. lia.
Qed.
Lemma nofuel_skip_ones p L fuel s q : tail0 L s -> L - chunk_index s < Z.of_nat fuel -> nofuel (skip_ones p fuel s q) \/ fuel = O.
Proof.
  revert s q; induction fuel as [|fuel IH]; intros s q HT HF; [now right|left]. cbn [skip_ones].
  apply nofuel_bind; [nf|]. intros [s1 chunk] E. destruct (Z.eqb_spec chunk (2 ^ 128 - 1)) as [->|N]; [|nf].
  pose proof (peek_kept _ _ _ _ _ E) as K. destruct (peek_ones _ _ _ _ HT E) as [H1 H2].
  assert (CI : chunk_index s1 = chunk_index s) by (unfold chunk_index; now rewrite H2).
  assert (C0 : 0 <= chunk_index s) by (unfold chunk_index, uwrap; apply Z.mod_pos_bound; reflexivity).
  apply nofuel_bind; [nf|]. intros s2 E2. apply nofuel_bind; [nf|]. intros q2 _.
  pose proof (offset_chunk _ _ _ _ E2 eq_refl) as C2. rewrite CI in C2.
  pose proof HT as (_ & HL & _). specialize (C2 ltac:(lia)).
  destruct (IH s2 q2) as [X| ->]; auto.
  - eapply tail0_kept; [|eapply offset_kept; eauto]. eapply tail0_kept; eauto.
  - rewrite C2. lia.
  - exfalso. cbn in HF. lia.
Qed.
Lemma nofuel_read_compressed p L s e : tail0 L s -> nofuel (read_compressed p s e).
Proof.
  intros HT. unfold read_compressed. apply nofuel_bind; [nf|]. intros [s1 sb] E1. apply nofuel_bind; [nf|]. intros d _.
  apply read_bit_kept in E1. pose proof (tail0_kept _ _ _ HT E1) as HT1.
  apply nofuel_bind.
  - destruct (nofuel_skip_ones p L (S (S (length (bs_binary s1)))) s1 0 HT1) as [X|X]; auto; [|discriminate X].
    destruct HT1 as ([_ H] & _). unfold zlen in H.
    assert (0 <= chunk_index s1) by (unfold chunk_index, uwrap; apply Z.mod_pos_bound; reflexivity). lia.
  - intros [[s2 q] ck] _. nf.
Qed.

(** ** Frames, decode, seek *)
Lemma nofuel_decode_samples p L n s h b e : tail0 L s -> nofuel (decode_samples p s h b e n).
Proof.
  revert s h b; induction n as [|n IH]; intros s h b HT; cbn [decode_samples]; [nf|].
  apply nofuel_bind; [eapply nofuel_read_compressed; eauto|]. intros [s1 v] E. apply IH. eapply tail0_kept; [eauto|eapply read_compressed_kept; eauto].
Qed.
Lemma nofuel_decode_raw p s h n : nofuel (decode_raw p s h n).
Proof. revert s h; induction n as [|n IH]; intros s h; cbn [decode_raw]; nf. Qed.
Lemma nofuel_next p hs : nofuel (fhs_next p hs).
Proof. unfold fhs_next. nf. Qed.
Lemma nofuel_get hs i : nofuel (fhs_get hs i).
Proof. unfold fhs_get. nf. Qed.
Global Hint Resolve nofuel_decode_raw nofuel_next nofuel_get : nofuel.
Lemma nofuel_decode_frame p L c s hs : tail0 L s -> nofuel (decode_frame p c s hs).
Proof.
  intros HT. unfold decode_frame. apply nofuel_bind; [nf|]. intros [hs1 oh] _. destruct oh as [hd|]; [|nf].
  destruct (fc_state c); [|nf|].
  - apply nofuel_bind; [nf|]. intros [s1 h1] E. apply decode_raw_kept in E.
    apply nofuel_bind; [eapply nofuel_decode_samples, tail0_kept; eauto|]. nf.
  - apply nofuel_bind; [eapply nofuel_decode_samples; eauto|]. nf.
Qed.
Definition d_tail0 (L : Z) (d : dstate) : Prop := tail0 L (snd (fst d)).
Lemma nofuel_decode_channel p L d j : d_tail0 L d -> nofuel (decode_channel p d j).
Proof.
  destruct d as [[chs s] hs]. intros HT. unfold decode_channel. apply nofuel_bind; [nf|]. intros fc _.
  apply nofuel_bind; [eapply nofuel_decode_frame; exact HT|]. nf.
Qed.
Lemma nofuel_foldM_inv {S X} (I : S -> Prop) (f : S -> X -> outcome S) l s :
  (forall s x, I s -> nofuel (f s x)) -> (forall s x s', I s -> f s x = Ok s' -> I s') -> I s -> nofuel (foldM f l s).
Proof.
  intros H1 H2. revert s; induction l as [|x l IH]; intros s Hs; cbn [foldM]; [nf|]. apply nofuel_bind; eauto.
Qed.
Lemma nofuel_buffer_audio p L n fuel d : d_tail0 L d -> nofuel (buffer_audio p n fuel d).
Proof.
  revert d; induction fuel as [|fuel IH]; intros d HT; cbn [buffer_audio]; [nf|]. destruct d as [[chs s] hs].
  destruct (buffers_empty chs); [|nf]. apply nofuel_bind.
  - apply (nofuel_foldM_inv (d_tail0 L)); auto; [intros; eapply nofuel_decode_channel; eauto|].
    intros d x d' H E. apply decode_channel_kept in E. eapply tail0_kept; eauto.
  - intros d E. apply nofuel_bind; [|nf]. apply IH.
    eapply (foldM_rel (decode_channel p) d_kept) in E; eauto using d_kept_refl, d_kept_trans, decode_channel_kept.
    eapply tail0_kept; [exact HT|exact E].
Qed.
Lemma nofuel_pop chs n c fuel room : nofuel (pop_block chs n c fuel room).
Proof. revert chs c room; induction fuel as [|fuel IH]; intros chs c room; cbn [pop_block]; nf. Qed.
Lemma nofuel_decode_loop p L n fuel room d : 0 < n -> d_tail0 L d -> room < Z.of_nat fuel -> nofuel (decode_loop p n fuel room d) \/ fuel = O.
Proof.
  intros Hn. revert room d; induction fuel as [|fuel IH]; intros room d HT HF; [now right|left]. cbn [decode_loop].
  destruct (Z.ltb_spec 0 room) as [H0|H0]; [|nf]. apply nofuel_bind; [eapply nofuel_buffer_audio; eauto|].
  intros [d1 k] E1. destruct (_ <=? _)%nat; [nf|]. apply buffer_audio_kept in E1. destruct d1 as [[chs s] hs].
  apply nofuel_bind; [apply nofuel_pop|]. intros [chs2 out] E2. apply pop_block_len in E2; [|lia|lia].
  apply nofuel_bind; [|nf]. destruct (IH (room - zlen out) (chs2, s, hs)) as [X| ->]; auto.
  - eapply tail0_kept; [exact HT|exact E1].
  - lia.
  - cbn in HF. lia.
Qed.
Lemma udiv_pos a b q : udiv a b = Ok q -> b <> 0.
Proof. unfold udiv. destruct (Z.eqb_spec b 0); [discriminate|auto]. Qed.
Lemma udiv_val a b q : udiv a b = Ok q -> q = a / b.
Proof. unfold udiv. destruct (b =? 0); [discriminate|]. now intros [= <-]. Qed.
Lemma nofuel_info c : nofuel (ad_info c).
Proof. unfold ad_info. nf. Qed.
Global Hint Resolve nofuel_info : nofuel.

(** Channel counts are unsigned, memory is smaller than 2^63 chunks. *)
Definition possible (c : adhoc) : Prop :=
  zlen (bs_binary (as_stream (ad_stream c))) < 2 ^ 63 /\ (forall i, ad_info c = Ok i -> 0 <= si_channels i).
Lemma nofuel_decode_from p L c buf : tail0 L (as_stream (ad_stream c)) -> (forall i, ad_info c = Ok i -> 0 <= si_channels i) ->
  nofuel (ad_decode p c buf).
Proof.
  intros HT HI. unfold ad_decode. apply nofuel_bind; [nf|]. intros info EI. specialize (HI _ EI).
  apply nofuel_bind; [nf|]. intros blocks EB. pose proof (udiv_pos _ _ _ EB). apply udiv_val in EB.
  apply nofuel_bind.
  - destruct (nofuel_decode_loop p L (si_channels info) (S (length buf)) (blocks * si_channels info)
      (ad_channels c, as_stream (ad_stream c), ad_headers c)) as [X|X]; auto; [lia| |discriminate X].
    pose proof (Z.mul_div_le (zlen buf) (si_channels info) ltac:(lia)) as M. subst blocks. unfold zlen in *. lia.
  - intros [[[chs s] hs] o] _. nf.
Qed.
Lemma nofuel_decode p c buf : possible c -> nofuel (ad_decode p c buf).
Proof. intros [H1 H2]. eapply nofuel_decode_from; [apply tail0_start; auto|auto]. Qed.
Lemma nofuel_seek_walk p hs ch off fuel sk i len : len - i < Z.of_nat fuel -> nofuel (seek_walk p hs ch off fuel sk i len) \/ fuel = O.
Proof.
  revert sk i; induction fuel as [|fuel IH]; intros sk i HF; [now right|left]. cbn [seek_walk].
  destruct (Z.ltb_spec i len) as [HI|HI]; cbn [andb]; [|nf]. destruct (_ <? _); [|nf].
  do 5 (apply nofuel_bind; [nf|intros ? _]). destruct (_ <=? _); [nf|].
  destruct (IH a3 (i + 1)) as [X| ->]; auto; [lia|]. exfalso. cbn in HF. lia.
Qed.
Lemma nofuel_prune fuel ch sk t chs : 0 < ch -> t - sk <= Z.of_nat fuel -> nofuel (prune fuel ch sk t chs).
Proof.
  intros Hc. revert sk chs; induction fuel as [|fuel IH]; intros sk chs HF; cbn [prune]; destruct (Z.ltb_spec sk t); try solve [nf]; [lia|].
  apply IH. lia.
Qed.
Lemma nofuel_seek_channel p L start d j : d_tail0 L d -> nofuel (seek_channel p start d j).
Proof.
  destruct d as [[chs s] hs]. intros HT. unfold seek_channel. do 3 (apply nofuel_bind; [nf|intros ? _]).
  destruct (fh_history a0) as [[h3 h2] h1]. apply nofuel_bind; [eapply nofuel_decode_frame; exact HT|]. nf.
Qed.
Lemma nofuel_seek p c dt : possible c -> nofuel (ad_seek p c dt).
Proof.
  intros [HM HI]. unfold ad_seek. apply nofuel_bind; [nf|]. intros info EI. specialize (HI _ EI).
  destruct dt as [dt| |]; [|nf|nf]. destruct (dt =? 0); [nf|]. apply nofuel_bind; [nf|]. intros off _.
  apply nofuel_bind; [nf|]. intros bl EB. pose proof (udiv_pos _ _ _ EB). apply udiv_val in EB.
  change (ad_headers (ad_init c)) with (fhs_reset (ad_headers c)) in *.
  set (hs := fhs_reset (ad_headers c)) in *. clearbody hs.
  apply nofuel_bind.
  { destruct (nofuel_seek_walk p hs (si_channels info) off (S (Z.to_nat (fhs_len hs))) 0 0 bl) as [X|X]; auto; [|discriminate X].
    destruct (Z.neg_nonneg_cases (fhs_len hs)) as [N|N].
    - assert (bl <= 0); [|lia]. subst bl. apply Z.div_le_upper_bound; lia.
    - assert (bl <= fhs_len hs); [|lia]. subst bl. apply Z.div_le_upper_bound; [lia|]. nia. }
  intros [sk idx] _. do 2 (apply nofuel_bind; [nf|intros ? _]).
  assert (T : tail0 (zlen (bs_binary (as_stream (ad_stream c)))) (set_bit_cursor (as_stream (ad_stream (ad_init c))) (fh_bit_cursor a0)))
    by exact (tail0_start _ HM).
  apply nofuel_bind.
  { apply (nofuel_foldM_inv (d_tail0 (zlen (bs_binary (as_stream (ad_stream c)))))); [intros; eapply nofuel_seek_channel; eauto| |exact T].
    intros d x d' H' E. apply seek_channel_kept in E. eapply tail0_kept; eauto. }
  intros [[chs s] hs2] _. apply nofuel_bind; [apply nofuel_prune; lia|]. nf.
Qed.
Lemma nofuel_count p c : nofuel (ad_sample_count p c).
Proof.
  unfold ad_sample_count. apply nofuel_bind; [nf|]. intros i _. apply nofuel_bind; [|nf]. apply nofuel_foldM. nf.
Qed.
Lemma nofuel_load p f : nofuel (ad_load p f).
Proof. unfold ad_load. nf. Qed.

(** ** How many samples a codec can still deliver *)
Definition buffered (chs : list frame_codec) : Z := fold_right Z.add 0 (map (fun fc => zlen (fc_buffer fc)) chs).
Definition rest (hs : frame_headers) : Z :=
  fold_right (fun size acc => size + 3 + acc) 0 (skipn (Z.to_nat (fhs_cursor hs)) (fhs_sizes hs)).
Definition stock (d : dstate) : Z := let '(chs, _, hs) := d in buffered chs + rest hs.
Definition hs_ok (hs : frame_headers) : Prop :=
  Forall (fun x => 0 <= x) (fhs_sizes hs) /\ 0 <= fhs_cursor hs /\ fhs_len hs < 2 ^ 32.
Lemma buffered_nonneg chs : 0 <= buffered chs.
Proof. unfold buffered. induction chs as [|fc chs IH]; cbn [map fold_right]; [lia|]. pose proof (zlen_nonneg (fc_buffer fc)). lia. Qed.
Lemma sum3_nonneg l : Forall (fun x => 0 <= x) l -> 0 <= fold_right (fun size acc => size + 3 + acc) 0 l.
Proof. induction 1; cbn [fold_right]; lia. Qed.
Lemma rest_nonneg hs : hs_ok hs -> 0 <= rest hs.
Proof. intros (H & _). apply sum3_nonneg. rewrite <- (firstn_skipn (Z.to_nat (fhs_cursor hs))) in H. apply Forall_app in H. tauto. Qed.
Lemma next_rest p hs hs' oh : hs_ok hs -> fhs_next p hs = Ok (hs', oh) ->
  hs_ok hs' /\ match oh with Some hd => 0 <= fh_size hd /\ rest hs = fh_size hd + 3 + rest hs' | None => hs' = hs end.
Proof.
  intros (H1 & H2 & H3) H. unfold fhs_next in H. destruct (Z.ltb_spec (fhs_cursor hs) (fhs_len hs)) as [Q|Q].
  - do 3 inv_bind H. inv_bind H. injection H as <- <-. rewrite uchk_ok in Ha2 by lia. injection Ha2 as <-.
    split; [split; [exact H1|split; [cbn [fhs_set_cursor fhs_cursor]; lia|exact H3]]|].
    apply index_nth0 in Ha. destruct Ha as [R E]. cbn [fh_size]. split.
    + rewrite Forall_forall in H1. apply H1. rewrite <- E. apply nth_In. unfold zlen in R. lia.
    + unfold rest. cbn [fhs_set_cursor fhs_cursor fhs_sizes].
      rewrite (skipn_nth_cons _ (Z.to_nat (fhs_cursor hs)) 0) by (unfold zlen in R; lia). cbn [fold_right]. rewrite E.
      replace (Z.to_nat (fhs_cursor hs + 1)) with (S (Z.to_nat (fhs_cursor hs))) by lia. reflexivity.
  - injection H as <- <-. split; [split; auto|reflexivity].
Qed.
Lemma decode_samples_len p s h b e n s' h' b' : decode_samples p s h b e n = Ok (s', h', b') -> zlen b' = zlen b + Z.of_nat n.
Proof.
  revert s h b; induction n as [|n IH]; intros s h b H; cbn [decode_samples] in H; [injection H as _ _ <-; lia|].
  inv_bind H. destruct a as [s1 v]. apply IH in H. rewrite zlen_app in H. change (zlen [_]) with 1 in H. lia.
Qed.
Lemma decode_frame_stock p c s hs c' s' hs' : hs_ok hs -> decode_frame p c s hs = Ok (c', s', hs') ->
  hs_ok hs' /\ zlen (fc_buffer c') + rest hs' <= zlen (fc_buffer c) + rest hs.
Proof.
  intros HO H. unfold decode_frame in H. inv_bind H. destruct a as [hs1 oh]. destruct (next_rest _ _ _ _ HO Ha) as [HO1 HR].
  destruct oh as [hd|]; [|injection H as <- _ <-; subst hs1; split; [auto|lia]]. destruct HR as [H0 HR]. destruct (fc_state c).
  - inv_bind H. destruct a as [s1 h1]. inv_bind H. destruct a as [[s2 h2] b2]. injection H as <- _ <-.
    apply decode_samples_len in Ha1. rewrite zlen_app in Ha1. change (zlen [_; _; _]) with 3 in Ha1. cbn [fc_buffer]. split; [auto|lia].
  - discriminate.
  - inv_bind H. destruct a as [[s2 h2] b2]. injection H as <- _ <-. apply decode_samples_len in Ha0. cbn [fc_buffer]. split; [auto|lia].
Qed.
Lemma buffered_store chs j a b chs' : index chs j = Ok a -> store chs j b = Ok chs' ->
  buffered chs' = buffered chs - zlen (fc_buffer a) + zlen (fc_buffer b).
Proof.
  intros E1 E2. apply index_inv in E1. apply store_inv in E2. destruct E1 as [_ E1], E2 as [_ ->].
  revert E1. generalize (Z.to_nat j). unfold buffered. induction chs as [|x chs IH]; intros [|n] E1; try discriminate E1; cbn [replace_nth map fold_right].
  - cbn in E1. injection E1 as ->. lia.
  - cbn in E1. rewrite IH by auto. lia.
Qed.
Definition less (d d' : dstate) : Prop := hs_ok (snd d) -> hs_ok (snd d') /\ stock d' <= stock d.
Lemma less_refl d : less d d. Proof. intros H. split; [auto|lia]. Qed.
Lemma less_trans a b c : less a b -> less b c -> less a c.
Proof. intros H1 H2 H. destruct (H1 H) as [A B]. destruct (H2 A). split; [auto|lia]. Qed.
Lemma decode_channel_less p d j d' : decode_channel p d j = Ok d' -> less d d'.
Proof.
  destruct d as [[chs s] hs]. intros H HO. unfold decode_channel in H. inv_bind H. inv_bind H. destruct a0 as [[c2 s2] hs2].
  inv_bind H. injection H as <-. cbn [snd] in HO. destruct (decode_frame_stock _ _ _ _ _ _ _ HO Ha0) as [H1 H2].
  split; [exact H1|]. cbn [stock]. rewrite (buffered_store _ _ _ _ _ Ha Ha1). lia.
Qed.
Lemma buffer_audio_less p n fuel d d' k : buffer_audio p n fuel d = Ok (d', k) -> less d d'.
Proof.
  revert d d' k; induction fuel as [|fuel IH]; intros d d' k H; cbn [buffer_audio] in H; [injection H as <- _; apply less_refl|].
  destruct d as [[chs s] hs] eqn:E. destruct (buffers_empty chs); [|injection H as <- _; apply less_refl].
  inv_bind H. inv_bind H. destruct a0. injection H as <- _. eapply less_trans; [|eapply IH; exact Ha0].
  eapply (foldM_rel (decode_channel p) less); eauto using less_refl, less_trans, decode_channel_less.
Qed.
Lemma index_other {A} (l : list A) i j a l' : store l i a = Ok l' -> i <> j -> index l' j = index l j.
Proof.
  intros E N. apply store_inv in E. destruct E as [R ->]. unfold index. rewrite zlen_replace_nth.
  destruct (_ && _) eqn:B; auto. apply andb_prop in B. rewrite nth_error_replace_other by lia. reflexivity.
Qed.
Lemma pop_block_less chs n c fuel room chs' out : pop_block chs n c fuel room = Ok (chs', out) ->
  Z.of_nat fuel = n - c -> n - c <= room ->
  buffered chs' <= buffered chs /\
  ((exists j fc, c <= j < n /\ index chs j = Ok fc /\ fc_buffer fc <> []) -> buffered chs' < buffered chs).
Proof.
  revert chs c room chs' out; induction fuel as [|fuel IH]; intros chs c room chs' out H Hf Hr; cbn [pop_block] in H.
  - injection H as <- _. split; [lia|]. intros (j & fc & Hj & _). lia.
  - destruct (Z.ltb_spec 0 room); [|lia]. destruct (Z.ltb_spec c n); [|lia]. cbn [andb] in H.
    inv_bind H. destruct (match fc_buffer a with [] => _ | _ => _ end) as [v r] eqn:Er. inv_bind H. inv_bind H.
    destruct a1 as [chs2 o2]. injection H as <- _. destruct (IH _ _ _ _ _ Ha1 ltac:(lia) ltac:(lia)) as [I1 I2].
    pose proof (buffered_store _ _ _ _ _ Ha Ha0) as B. cbn [fc_buffer] in B.
    assert (L : zlen r <= zlen (fc_buffer a) /\ (fc_buffer a <> [] -> zlen r < zlen (fc_buffer a))).
    { destruct (fc_buffer a); injection Er as _ <-; [split; [lia|congruence]|]. rewrite zlen_cons. split; intros; lia. }
    split; [lia|]. intros (j & fc & Hj & Ej & Nj). destruct (Z.eq_dec c j) as [<-|N].
    + rewrite Ha in Ej. injection Ej as ->. destruct L as [_ L]. specialize (L Nj). lia.
    + enough (buffered chs2 < buffered a0) by lia. apply I2. exists j, fc. split; [lia|]. split; [|auto].
      rewrite (index_other _ _ _ _ _ Ha0 N). exact Ej.
Qed.
Lemma nonempty_channel chs : buffers_empty chs = false -> exists j fc, 0 <= j < zlen chs /\ index chs j = Ok fc /\ fc_buffer fc <> [].
Proof.
  unfold buffers_empty. induction chs as [|x chs IH]; cbn [forallb]; [discriminate|].
  destruct (fc_buffer x) eqn:E; cbn [andb].
  - intros B. destruct (IH B) as (j & fc & Hj & Ej & Nj). exists (j + 1), fc. rewrite zlen_cons. split; [lia|]. split; auto.
    unfold index in *. rewrite zlen_cons. destruct (Z.leb_spec 0 j); [|discriminate Ej]. destruct (Z.ltb_spec j (zlen chs)); [|discriminate Ej].
    replace ((0 <=? j + 1) && (j + 1 <? 1 + zlen chs)) with true by (symmetry; apply andb_true_intro; lia).
    replace (Z.to_nat (j + 1)) with (S (Z.to_nat j)) by lia. exact Ej.
  - intros _. exists 0, x. rewrite zlen_cons. pose proof (zlen_nonneg chs). split; [lia|]. split; [|congruence].
    unfold index. rewrite zlen_cons. replace ((0 <=? 0) && (0 <? 1 + zlen chs)) with true by (symmetry; apply andb_true_intro; lia). reflexivity.
Qed.
Lemma decode_loop_less p n fuel room d d' out : 0 < n -> (exists q, room = q * n) -> zlen (fst (fst d)) = n ->
  hs_ok (snd d) -> decode_loop p n fuel room d = Ok (d', out) ->
  hs_ok (snd d') /\ stock d' <= stock d /\ (out <> [] -> stock d' < stock d).
Proof.
  intros Hn. revert room d d' out; induction fuel as [|fuel IH]; intros room d d' out [q Hq] HZ HO H; cbn [decode_loop] in H; [discriminate|].
  destruct (Z.ltb_spec 0 room) as [H0|H0]; [|injection H as <- <-; split; [auto|split; [lia|congruence]]].
  inv_bind H. destruct a as [d1 k]. destruct (buffer_audio_keeps _ _ _ _ _ _ Ha) as [[Z1 _] B].
  destruct (buffer_audio_less _ _ _ _ _ _ Ha HO) as [O1 S1].
  destruct (Nat.leb_spec MAX_DECODE_ATTEMPTS k); [injection H as <- <-; split; [auto|split; [lia|congruence]]|].
  specialize (B ltac:(assumption)). destruct d1 as [[chs s] hs]. cbn [fst snd] in *. inv_bind H. destruct a as [chs2 o2]. inv_bind H.
  destruct a as [d2 o3]. injection H as <- <-.
  assert (Q1 : 0 < q) by (apply (Z.mul_pos_cancel_r q n); lia). assert (R : n <= room) by (clear - Q1 Hq Hn; nia).
  pose proof (pop_block_len _ _ _ _ _ _ _ Ha0 ltac:(lia) ltac:(lia)) as PL.
  destruct (pop_block_less _ _ _ _ _ _ _ Ha0 ltac:(lia) ltac:(lia)) as [_ P].
  apply pop_block_keeps in Ha0. destruct Ha0 as [Z2 _].
  assert (Rm : exists q', room - zlen o2 = q' * n) by (exists (q - 1); rewrite PL, Z.sub_0_r, Z.min_r by exact R; rewrite Hq; ring).
  assert (Zm : zlen (fst (fst (chs2, s, hs))) = n) by (cbn [fst]; congruence).
  destruct (IH _ _ _ _ Rm Zm O1 Ha1) as (I1 & I2 & _).
  split; [exact I1|]. cbn [stock] in *.
  destruct (nonempty_channel _ B) as (j & fc & Hj & Ej). specialize (P ltac:(exists j, fc; split; [lia|auto])). split; intros; lia.
Qed.

(** ** The command line tool *)
Lemma nofuel_wav_write p w s : nofuel (wav_write_sample p w s).
Proof. unfold wav_write_sample, wav_offset_cursor. nf. Qed.
Lemma nofuel_wav_encode p w l : nofuel (wav_encode p w l).
Proof. unfold wav_encode. apply nofuel_bind; [nf|]. intros b _. apply nofuel_bind; [|nf]. apply nofuel_foldM. intros. apply nofuel_wav_write. Qed.
Lemma nofuel_wav_read pcm n c l : nofuel (wav_read pcm n c l).
Proof. revert c; induction n as [|n IH]; intros c; cbn [wav_read]; unfold pcm_at; nf. Qed.
Lemma nofuel_wav_decode w b : nofuel (wav_decode w b).
Proof. unfold wav_decode. apply nofuel_bind; [nf|]. intros x _. apply nofuel_bind; [apply nofuel_wav_read|]. nf. Qed.
Lemma nofuel_wav_save p w : nofuel (wav_save p w).
Proof. unfold wav_save, wav_save_to, wav_header. nf. Qed.
Lemma nofuel_wav_load p f : nofuel (wav_load p f).
Proof.
  unfold wav_load. destruct (_ <? _); [nf|]. destruct (find_tag _ _); [|nf]. do 5 (apply nofuel_bind; [nf|intros ? _]).
  destruct (_ && _); [nf|]. destruct (negb _); [nf|]. apply nofuel_bind; [|nf]. destruct (_ =? 8); [|nf].
  unfold expand_pcm. apply nofuel_foldM. unfold expand_step. nf.
Qed.
Lemma nofuel_wav_seek p w dt : nofuel (wav_seek p w dt).
Proof. unfold wav_seek, clampP. destruct dt; nf. Qed.
Lemma wav_read_cursor pcm n c l c' got : wav_read pcm n c l = Ok (c', got) -> c' = c + zlen got /\ (c <= l -> c' <= l).
Proof.
  revert c c' got; induction n as [|n IH]; intros c c' got H; cbn [wav_read] in H; [injection H as <- <-; change (zlen (@nil f32)) with 0; lia|].
  destruct (Z.ltb_spec c l); [|injection H as <- <-; change (zlen (@nil f32)) with 0; lia].
  inv_bind H. inv_bind H. destruct a0 as [c1 r]. injection H as <- <-. apply IH in Ha0. rewrite zlen_cons. lia.
Qed.
Lemma nofuel_wav_to_adhoc_loop p fuel w c buf : wav_cursor w <= wav_num_samples w ->
  wav_num_samples w - wav_cursor w < Z.of_nat fuel -> nofuel (wav_to_adhoc_loop p fuel w c buf) \/ fuel = O.
Proof.
  revert w c buf; induction fuel as [|fuel IH]; intros w c buf HC HF; [now right|left]. cbn [wav_to_adhoc_loop].
  apply nofuel_bind; [apply nofuel_wav_decode|]. intros [[w1 b1] k] E. destruct k as [k|]; [|nf].
  apply nofuel_bind; [apply nofuel_encode|]. intros [c1 r] _. unfold wav_decode in E. inv_bind E. inv_bind E. destruct a0 as [cu got].
  apply wav_read_cursor in Ha0. destruct (Z.ltb_spec 0 (zlen got)) as [P|P]; [|discriminate E]. injection E as <- _ _.
  destruct Ha0 as [E1 E2].
  destruct (IH (mkWav (wav_info w) (wav_pcm w) cu) c1 b1) as [X| ->]; auto; unfold wav_num_samples in *; cbn [wav_cursor wav_pcm] in *; [lia|exfalso; cbn in HF; lia].
Qed.
Lemma nofuel_wav_to_adhoc p f level : nofuel (wav_to_adhoc p f level).
Proof.
  unfold wav_to_adhoc. apply nofuel_bind; [apply nofuel_wav_load|]. intros [w|] E; [|nf].
  assert (C0 : wav_cursor w = 0).
  { unfold wav_load in E. destruct (_ <? _); [discriminate E|]. destruct (find_tag _ _); [|discriminate E]. do 5 inv_bind E.
    destruct (_ && _); [discriminate E|]. destruct (negb _); [discriminate E|]. inv_bind E. injection E as <-. reflexivity. }
  apply nofuel_bind; [|nf].
  assert (N : 0 <= wav_num_samples w <= zlen (wav_pcm w)).
  { unfold wav_num_samples. pose proof (zlen_nonneg (wav_pcm w)). split; [apply Z.div_pos; lia|apply Z.div_le_upper_bound; lia]. }
  match goal with |- nofuel (wav_to_adhoc_loop _ ?f _ ?c _) => destruct (nofuel_wav_to_adhoc_loop p f w c CLI_BUFFER) as [X|X] end;
    [rewrite C0; lia|rewrite C0; unfold zlen in N; lia|exact X|discriminate X].
Qed.
Definition codec_state (c : adhoc) : dstate := (ad_channels c, as_stream (ad_stream c), ad_headers c).
Lemma nofuel_adhoc_to_wav_loop p L info fuel c w buf : 0 <= si_channels info -> ad_info c = Ok info ->
  zlen (ad_channels c) = si_channels info -> tail0 L (as_stream (ad_stream c)) -> hs_ok (ad_headers c) ->
  stock (codec_state c) < Z.of_nat fuel -> nofuel (adhoc_to_wav_loop p fuel c w buf) \/ fuel = O.
Proof.
  intros HI. revert c w buf; induction fuel as [|fuel IH]; intros c w buf EI HZ HT HO HF; [now right|left]. cbn [adhoc_to_wav_loop].
  apply nofuel_bind; [eapply nofuel_decode_from; eauto; rewrite EI; intros i [= <-]; exact HI|].
  intros [[c1 b1] k] E. destruct k as [k|]; [|nf]. apply nofuel_bind; [apply nofuel_wav_encode|]. intros [w1 r] _.
  pose proof (decode_kept _ _ _ _ _ _ E) as K. unfold ad_decode in E. rewrite EI in E. cbn [bind] in E.
  inv_bind E. pose proof (udiv_pos _ _ _ Ha). inv_bind E. destruct a0 as [[[chs s] hs] out].
  pose proof (decode_loop_keeps _ _ _ _ _ _ _ Ha0) as [[KZ _] _].
  assert (N0 : 0 < si_channels info) by lia.
  destruct (decode_loop_less p (si_channels info) (S (length buf)) (a * si_channels info) (codec_state c) (chs, s, hs) out N0 (ex_intro _ _ eq_refl) HZ HO Ha0) as (O1 & S1 & S2).
  destruct (Z.ltb_spec 0 (zlen out)) as [P|P]; [|discriminate E]. injection E as <- _ _.
  assert (S3 : stock (chs, s, hs) < stock (codec_state c)) by (apply S2; intros ->; change (zlen (@nil f32)) with 0 in P; lia).
  match goal with |- nofuel (adhoc_to_wav_loop _ _ ?c _ _) => destruct (IH c w1 b1) as [X| ->] end; auto.
  - cbn [ad_channels fst] in *. congruence.
  - eapply tail0_kept; [exact HT|exact K].
  - change (stock (chs, s, hs) < Z.of_nat fuel). lia.
  - exfalso. pose proof (rest_nonneg _ O1) as R. pose proof (buffered_nonneg chs). cbn [snd] in R. change (Z.of_nat 1) with 1 in HF. set (Q := stock (codec_state c)) in *. clearbody Q. change (stock (chs, s, hs)) with (buffered chs + rest hs) in S3. lia.
Qed.
