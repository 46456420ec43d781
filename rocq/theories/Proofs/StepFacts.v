(** * The counted functions do what the model does, and how many steps they take *)
From Coq Require Import ZArith List Bool Lia.
From Verif Require Import Model.Base Model.F32 Model.Noise Model.Sample Model.BitStream Model.NibbleList Model.BitVec Model.CircularStack Model.Frame Model.Adhoc
  Model.Steps Proofs.BaseFacts Proofs.BitStreamFacts Proofs.EncodeFacts Proofs.AnyState Proofs.Memory Proofs.Oversize Proofs.Terminates.
Import ListNotations.
Open Scope Z_scope.

(** ** Erasure *)
Lemma res_bind {A B} (m : timed A) (k : A -> timed B) : result (tbind m k) = bind (result m) (fun a => result (k a)).
Proof. unfold result, tbind, bind. destruct (snd m); reflexivity. Qed.
Lemma res_run {A} n (m : outcome A) : result (run n m) = m.
Proof. reflexivity. Qed.
Lemma bind_same {A B} (m : outcome A) (k k' : A -> outcome B) : (forall a, k a = k' a) -> bind m k = bind m k'.
Proof. intros H. destruct m; cbn [bind]; auto. Qed.
Lemma res_foldM {S X} (f : S -> X -> timed S) g l s : (forall s x, result (f s x) = g s x) -> result (tfoldM f l s) = foldM g l s.
Proof.
  intros H. revert s; induction l as [|x l IH]; intros s; cbn [tfoldM foldM]; [reflexivity|].
  rewrite res_bind, res_run. cbn [bind]. rewrite res_bind, H. apply bind_same. intros a. apply IH.
Qed.
Ltac erase :=
  repeat first
    [ progress rewrite ?res_run
    | rewrite res_bind
    | progress cbn [bind]
    | reflexivity
    | match goal with
      | |- bind ?m _ = bind ?m _ => apply bind_same; intros
      | |- result (let '(_, _) := ?x in _) = _ => destruct x
      | |- result (if ?b then _ else _) = (if ?b then _ else _) => destruct b
      | |- result (match ?x with _ => _ end) = match ?x with _ => _ end => destruct x
      end ].
Lemma res_write_unary p fuel s q : result (write_unaryT p fuel s q) = write_unary p fuel s q.
Proof. revert s q; induction fuel as [|fuel IH]; intros s q; cbn [write_unaryT write_unary]; erase; auto. Qed.
Lemma res_write_compressed p s e v : result (write_compressedT p s e v) = write_compressed p s e v.
Proof. unfold write_compressedT, write_compressed. erase. rewrite res_write_unary. erase. Qed.
Lemma res_skip_ones p fuel s q : result (skip_onesT p fuel s q) = skip_ones p fuel s q.
Proof. revert s q; induction fuel as [|fuel IH]; intros s q; cbn [skip_onesT skip_ones]; erase; auto. Qed.
Lemma res_read_compressed p s e : result (read_compressedT p s e) = read_compressed p s e.
Proof. unfold read_compressedT, read_compressed. erase. rewrite res_skip_ones. erase. Qed.
Lemma res_sum_costs p h l t : result (sum_costsT p h l t) = sum_costs p h l t.
Proof. revert h t; induction l as [|x l IH]; intros h t; cbn [sum_costsT sum_costs]; erase; auto. Qed.
Lemma res_exponent p h l : result (compute_optimal_divisor_exponentT p h l) = compute_optimal_divisor_exponent p h l.
Proof. unfold compute_optimal_divisor_exponentT, compute_optimal_divisor_exponent. erase. rewrite res_sum_costs. erase. Qed.
Lemma res_encode_samples p s h e l : result (encode_samplesT p s h e l) = encode_samples p s h e l.
Proof.
  revert s h; induction l as [|x l IH]; intros s h; cbn [encode_samplesT encode_samples]; erase.
  rewrite res_write_compressed. erase. apply IH.
Qed.
Lemma res_encode_raw p s h pcm ks : result (encode_rawT p s h pcm ks) = encode_raw p s h pcm ks.
Proof. revert s h; induction ks as [|k ks IH]; intros s h; cbn [encode_rawT encode_raw]; erase. apply IH. Qed.
Lemma res_encode_frame p c s hs pcm : result (encode_frameT p c s hs pcm) = encode_frame p c s hs pcm.
Proof.
  unfold encode_frameT, encode_frame. destruct (fc_state c); erase.
  - rewrite res_encode_raw. erase. rewrite res_exponent. erase. rewrite res_encode_samples. erase.
  - rewrite res_exponent. erase. rewrite res_encode_samples. erase.
Qed.
Lemma res_decode_samples p s h b e n : result (decode_samplesT p s h b e n) = decode_samples p s h b e n.
Proof.
  revert s h b; induction n as [|n IH]; intros s h b; cbn [decode_samplesT decode_samples]; erase.
  rewrite res_read_compressed. erase. apply IH.
Qed.
Lemma res_decode_raw p s h n : result (decode_rawT p s h n) = decode_raw p s h n.
Proof. revert s h; induction n as [|n IH]; intros s h; cbn [decode_rawT decode_raw]; erase. apply IH. Qed.
Lemma res_decode_frame p c s hs : result (decode_frameT p c s hs) = decode_frame p c s hs.
Proof.
  unfold decode_frameT, decode_frame. erase.
  - rewrite res_decode_raw. erase. rewrite res_decode_samples. erase.
  - rewrite res_decode_samples. erase.
Qed.
Lemma res_dither p inv q l : result (ditherT p inv q l) = dither p inv q l.
Proof. revert q; induction l as [|x l IH]; intros q; cbn [ditherT dither]; erase. rewrite IH. erase. Qed.
Lemma res_encode_channel p pcm n k c j : result (encode_channelT p pcm n k c j) = encode_channel p pcm n k c j.
Proof. unfold encode_channelT, encode_channel. erase. rewrite res_dither. erase. rewrite res_encode_frame. erase. Qed.
Lemma res_encode p c pcm : result (ad_encodeT p c pcm) = ad_encode p c pcm.
Proof.
  unfold ad_encodeT, ad_encode. erase. rewrite (res_foldM _ (encode_channel p pcm (si_channels a) a0)) by (intros; apply res_encode_channel). erase.
Qed.
Lemma res_decode_channel p d j : result (decode_channelT p d j) = decode_channel p d j.
Proof. unfold decode_channelT, decode_channel. erase. rewrite res_decode_frame. erase. Qed.
Lemma res_buffer_audio p n fuel d : result (buffer_audioT p n fuel d) = buffer_audio p n fuel d.
Proof.
  revert d; induction fuel as [|fuel IH]; intros d; cbn [buffer_audioT buffer_audio]; erase.
  rewrite (res_foldM _ (decode_channel p)) by (intros; apply res_decode_channel). erase. rewrite IH. erase.
Qed.
Lemma res_pop_block chs n j fuel room : result (pop_blockT chs n j fuel room) = pop_block chs n j fuel room.
Proof.
  revert chs j room; induction fuel as [|fuel IH]; intros chs j room; cbn [pop_blockT pop_block]; erase; rewrite IH; erase.
Qed.
Lemma res_decode_loop p n fuel room d : result (decode_loopT p n fuel room d) = decode_loop p n fuel room d.
Proof.
  revert room d; induction fuel as [|fuel IH]; intros room d; cbn [decode_loopT decode_loop]; erase.
  rewrite res_buffer_audio. erase. rewrite res_pop_block. erase. rewrite IH. erase.
Qed.
Lemma res_decode p c buf : result (ad_decodeT p c buf) = ad_decode p c buf.
Proof. unfold ad_decodeT, ad_decode. erase. rewrite res_decode_loop. erase. Qed.
Lemma res_seek_walk p hs ch o fuel sk i len : result (seek_walkT p hs ch o fuel sk i len) = seek_walk p hs ch o fuel sk i len.
Proof. revert sk i; induction fuel as [|fuel IH]; intros sk i; cbn [seek_walkT seek_walk]; erase. apply IH. Qed.
Lemma res_seek_channel p st d j : result (seek_channelT p st d j) = seek_channel p st d j.
Proof.
  unfold seek_channelT, seek_channel. erase. destruct (fh_history a0) as [[h3 h2] h1]. erase. rewrite res_decode_frame. erase.
Qed.
Lemma res_prune fuel ch sk t chs : result (pruneT fuel ch sk t chs) = prune fuel ch sk t chs.
Proof. revert sk chs; induction fuel as [|fuel IH]; intros sk chs; cbn [pruneT prune]; erase. apply IH. Qed.
Lemma res_seek p c dt : result (ad_seekT p c dt) = ad_seek p c dt.
Proof.
  unfold ad_seekT, ad_seek. erase. rewrite res_seek_walk. erase.
  rewrite (res_foldM _ (seek_channel p (z0 * si_channels a))) by (intros; apply res_seek_channel). erase. rewrite res_prune. erase.
Qed.
Lemma res_count p c : result (ad_sample_countT p c) = ad_sample_count p c.
Proof.
  unfold ad_sample_countT, ad_sample_count. erase. erewrite res_foldM; [reflexivity|]. intros; erase.
Qed.

(** ** Bounds, in the style of amortised analysis: [m] takes at most [B] steps, and returns [a] with [Q a] of them to spare *)
Definition costs {A} (m : timed A) (B : Z) (Q : A -> Z) : Prop :=
  match result m with Ok a => steps m + Q a <= B | _ => steps m <= B end.
Lemma costs_run {A} n (m : outcome A) B Q : n <= B -> (forall a, m = Ok a -> n + Q a <= B) -> costs (run n m) B Q.
Proof. intros H1 H2. unfold costs. rewrite res_run. unfold steps, run. destruct m; cbn [fst]; auto. Qed.
Lemma costs_bind {A B} (m : timed A) (k : A -> timed B) b Q R :
  costs m b Q -> (forall a, result m = Ok a -> costs (k a) (Q a) R) -> costs (tbind m k) b R.
Proof.
  intros H1 H2. unfold costs in *. rewrite res_bind. unfold steps, tbind, result in *. destruct (snd m) as [a| |]; cbn [bind fst snd] in *; auto.
  specialize (H2 a eq_refl). destruct (snd (k a)); lia.
Qed.
(** A step of straight-line code, then the rest. *)
Lemma costs_then {A B} n (m : outcome A) (k : A -> timed B) b R :
  n <= b -> (forall a, m = Ok a -> costs (k a) (b - n) R) -> costs (tbind (run n m) k) b R.
Proof. intros H1 H2. apply (costs_bind _ _ _ (fun _ => b - n)); [apply costs_run; auto; intros; cbv beta; lia|]. rewrite res_run. auto. Qed.
Lemma costs_weaken {A} (m : timed A) B Q B' (Q' : A -> Z) :
  costs m B Q -> B <= B' -> (forall a, result m = Ok a -> Q' a - Q a <= B' - B) -> costs m B' Q'.
Proof. intros H1 H2 H3. unfold costs in *. destruct (result m); try lia. specialize (H3 a eq_refl). lia. Qed.
Lemma costs_foldM {S X} (I : S -> Prop) (pot : S -> Z) k (f : S -> X -> timed S) l s :
  0 <= k -> (forall s, I s -> 0 <= pot s) ->
  (forall s x, I s -> costs (f s x) (pot s + k) pot) -> (forall s x s', I s -> result (f s x) = Ok s' -> I s') ->
  I s -> costs (tfoldM f l s) (pot s + (k + 1) * zlen l) pot.
Proof.
  intros Hk HP Hf HI. revert s; induction l as [|x l IH]; intros s Hs; cbn [tfoldM].
  - apply costs_run; specialize (HP s Hs); change (zlen (@nil X)) with 0; [lia|]. intros a [= <-]. lia.
  - pose proof (zlen_nonneg l). pose proof (HP s Hs). rewrite zlen_cons. apply costs_then; [nia|]. intros _ _.
    apply (costs_bind _ _ _ (fun s => pot s + (k + 1) * zlen l)).
    + eapply costs_weaken; [apply Hf; auto|nia|]. intros a _. nia.
    + intros a E. apply IH. eauto.
Qed.

(** ** Encoding *)
Lemma ok_eq {A} (a b : A) : Ok a = Ok b -> a = b.
Proof. now intros [= ->]. Qed.
Lemma cost_write_unary p fuel m s q : q <= 128 * m -> 0 <= m -> costs (write_unaryT p fuel s q) (2 * m + 1) (fun _ => 0).
Proof.
  revert m s q; induction fuel as [|fuel IH]; intros m s q Hq Hm; cbn [write_unaryT].
  - apply costs_run; [lia|]. discriminate.
  - apply costs_then; [lia|]. intros _ _. destruct (Z.ltb_spec 0 q).
    + destruct (Z.ltb_spec 128 q).
      * apply costs_then; [lia|]. intros s' _. eapply costs_weaken; [apply (IH (m - 1)); lia|lia|]. intros; cbv beta; lia.
      * apply costs_run; intros; cbv beta; lia.
    + apply costs_run; intros; cbv beta; lia.
Qed.
Lemma shr_half p x e y : x <= 32767 -> 1 <= e < 16 -> shr p 16 x e = Ok y -> y <= 16383.
Proof.
  intros Hx He H. unfold shr in H. replace (in_u 32 e && (e <? 16)) with true in H
    by (symmetry; apply andb_true_intro; split; [unfold in_u; apply andb_true_intro; split|]; lia).
  injection H as <-. rewrite Z.shiftr_div_pow2 by lia. apply Z.lt_succ_r. apply Z.div_lt_upper_bound; [apply Z.pow_pos_nonneg; lia|].
  assert (2 ^ 1 <= 2 ^ e) by (apply Z.pow_le_mono_r; lia). change (2 ^ 1) with 2 in *. nia.
Qed.
Lemma cost_write_compressed p s e v : 1 <= e < 16 -> costs (write_compressedT p s e v) 261 (fun _ => 0).
Proof.
  intros He. unfold write_compressedT. apply costs_then; [lia|]. intros mag Em. apply schk16 in Em.
  apply costs_then; [lia|]. intros q Eq. apply shr_half in Eq; [|lia|lia]. do 3 (apply costs_then; [lia|intros ? _]).
  apply costs_then; [lia|]. intros s1 _. apply (costs_bind _ _ _ (fun _ => 2)).
  - eapply costs_weaken; [apply (cost_write_unary p 257 128); lia|lia|]. intros; cbv beta; lia.
  - intros s2 _. apply costs_then; [lia|]. intros s3 _. apply costs_run; intros; cbv beta; lia.
Qed.
Lemma cost_encode_samples p s h e l : 1 <= e < 16 -> costs (encode_samplesT p s h e l) (263 * zlen l) (fun _ => 0).
Proof.
  intros He. revert s h; induction l as [|x l IH]; intros s h; cbn [encode_samplesT].
  - apply costs_run; intros; change (zlen (@nil f32)) with 0; lia.
  - rewrite zlen_cons. pose proof (zlen_nonneg l). apply costs_then; [lia|]. intros _ _.
    apply (costs_bind _ _ _ (fun _ => 263 * zlen l)); [eapply costs_weaken; [now apply cost_write_compressed|lia|intros; cbv beta; lia]|].
    intros s1 _. apply IH.
Qed.
Lemma cost_sum_costs p h l t : costs (sum_costsT p h l t) (17 * zlen l) (fun _ => 0).
Proof.
  revert h t; induction l as [|x l IH]; intros h t; cbn [sum_costsT].
  - apply costs_run; intros; change (zlen (@nil f32)) with 0; lia.
  - rewrite zlen_cons. pose proof (zlen_nonneg l). apply costs_then; [lia|]. intros t1 _. eapply costs_weaken; [apply IH|lia|intros; cbv beta; lia].
Qed.
Lemma cost_exponent p h l : costs (compute_optimal_divisor_exponentT p h l) (17 * zlen l + 17) (fun _ => 0).
Proof.
  pose proof (zlen_nonneg l). unfold compute_optimal_divisor_exponentT. apply (costs_bind _ _ _ (fun _ => 17)).
  - eapply costs_weaken; [apply cost_sum_costs|lia|intros; cbv beta; lia].
  - intros t _. apply costs_run; intros; cbv beta; lia.
Qed.
Lemma pick_from_one t : 1 <= pick_exponent t < 16.
Proof.
  unfold pick_exponent. destruct (first_min _) as [[k b]|] eqn:E; [|lia].
  unfold first_min in E. apply first_min_in in E. destruct E as [E|E]; [discriminate|].
  apply filter_In in E. destruct E as [E _]. rewrite skipn_combine in E. apply in_combine_l in E.
  change (skipn 1 (range 16)) with (map Z.of_nat (seq 1 15)) in E. cbn in E.
  repeat (destruct E as [<-|E]; [lia|]). destruct E.
Qed.
Lemma exponent_from_one p h l e : result (compute_optimal_divisor_exponentT p h l) = Ok e -> 1 <= e < 16.
Proof. rewrite res_exponent. unfold compute_optimal_divisor_exponent. intros H. inv_bind H. injection H as <-. apply pick_from_one. Qed.
Lemma cost_encode_raw p s h pcm ks : costs (encode_rawT p s h pcm ks) (2 * zlen ks) (fun _ => 0).
Proof.
  revert s h; induction ks as [|k ks IH]; intros s h; cbn [encode_rawT].
  - apply costs_run; intros; change (zlen (@nil Z)) with 0; cbv beta; lia.
  - rewrite zlen_cons. pose proof (zlen_nonneg ks). do 2 (apply costs_then; [lia|intros ? _]).
    eapply costs_weaken; [apply IH|lia|intros; cbv beta; lia].
Qed.
Lemma cost_encode_frame p c s hs pcm : costs (encode_frameT p c s hs pcm) (280 * zlen pcm + 25) (fun _ => 0).
Proof.
  pose proof (zlen_nonneg pcm). unfold encode_frameT. destruct (fc_state c).
  - apply (costs_bind _ _ _ (fun _ => 280 * zlen pcm + 19)); [eapply costs_weaken; [apply cost_encode_raw|change (zlen [0; 1; 2]) with 3; lia|]|].
    { intros. cbv beta. change (zlen [0; 1; 2]) with 3. lia. }
    intros [s1 h1] _. apply costs_then; [lia|]. intros rest Er.
    assert (L : zlen rest <= zlen pcm).
    { unfold slice_from in Er. destruct (_ && _); [|discriminate]. apply ok_eq in Er. rewrite <- Er. unfold zlen. rewrite skipn_length. lia. }
    pose proof (zlen_nonneg rest). apply (costs_bind _ _ _ (fun _ => 263 * zlen pcm + 2)).
    { eapply costs_weaken; [apply cost_exponent|lia|intros; cbv beta; lia]. }
    intros e Ee. apply exponent_from_one in Ee. apply costs_then; [lia|]. intros hs1 _.
    apply (costs_bind _ _ _ (fun _ => 1)); [eapply costs_weaken; [now apply cost_encode_samples|lia|intros; cbv beta; lia]|].
    intros [s2 h2] _. apply costs_run; intros; cbv beta; lia.
  - apply (costs_bind _ _ _ (fun _ => 263 * zlen pcm + 2)).
    { eapply costs_weaken; [apply cost_exponent|lia|intros; cbv beta; lia]. }
    intros e Ee. apply exponent_from_one in Ee. apply costs_then; [lia|]. intros hs1 _.
    apply (costs_bind _ _ _ (fun _ => 1)); [eapply costs_weaken; [now apply cost_encode_samples|lia|intros; cbv beta; lia]|].
    intros [s2 h2] _. apply costs_run; intros; cbv beta; lia.
  - apply costs_run; [lia|discriminate].
Qed.
Lemma cost_dither p inv q l : costs (ditherT p inv q l) (3 * zlen l) (fun r => 0).
Proof.
  revert q; induction l as [|x l IH]; intros q; cbn [ditherT].
  - apply costs_run; intros; change (zlen (@nil f32)) with 0; cbv beta; lia.
  - rewrite zlen_cons. pose proof (zlen_nonneg l). apply costs_then; [lia|]. intros [q1 n1] _.
    apply (costs_bind _ _ _ (fun _ => 0)); [eapply costs_weaken; [apply IH|lia|intros; cbv beta; lia]|].
    intros [q2 r] _. apply costs_run; intros; cbv beta; lia.
Qed.
Lemma dither_length p inv q l q' l' : dither p inv q l = Ok (q', l') -> zlen l' = zlen l.
Proof.
  revert q q' l'; induction l as [|x l IH]; intros q q' l' H; cbn [dither] in H; [now injection H as <- <-|].
  inv_bind H. destruct a as [q1 n1]. inv_bind H. destruct a as [q2 r]. injection H as <- <-. rewrite !zlen_cons. f_equal. eauto.
Qed.
Lemma mapM_length {A B} (f : A -> outcome B) l l' : mapM f l = Ok l' -> length l' = length l.
Proof.
  revert l'; induction l as [|x l IH]; intros l' H; cbn [mapM] in H; [now injection H as <-|].
  inv_bind H. inv_bind H. injection H as <-. cbn [length]. f_equal. auto.
Qed.
Lemma cost_encode_channel p pcm n k c j : 0 <= k -> costs (encode_channelT p pcm n k c j) (284 * k + 26) (fun _ => 0).
Proof.
  intros Hk. unfold encode_channelT. apply costs_then; [lia|]. intros l El.
  assert (L : zlen l = k) by (apply mapM_length in El; unfold zlen; rewrite El, length_range; lia).
  apply (costs_bind _ _ _ (fun _ => 280 * k + 26)); [eapply costs_weaken; [apply cost_dither|lia|intros; cbv beta; lia]|].
  intros [q l1] E1. rewrite res_dither in E1. apply dither_length in E1. apply costs_then; [lia|]. intros fc _.
  apply (costs_bind _ _ _ (fun _ => 0)); [eapply costs_weaken; [apply cost_encode_frame|lia|intros; cbv beta; lia]|].
  intros [[fc1 s1] hs1] _. apply costs_then; [lia|]. intros chs _. apply costs_run; intros; cbv beta; lia.
Qed.
Lemma cost_encode p c pcm info : ad_info c = Ok info -> 0 <= si_channels info ->
  costs (ad_encodeT p c pcm) (284 * zlen pcm + 27 * si_channels info + 1) (fun _ => 0).
Proof.
  intros EI Hch. pose proof (zlen_nonneg pcm). unfold ad_encodeT. apply costs_then; [lia|]. intros i Ei. rewrite EI in Ei. injection Ei as <-.
  apply costs_then; [lia|]. intros k Ek. pose proof (udiv_pos _ _ _ Ek). apply udiv_val in Ek.
  assert (0 <= k) by (subst k; apply Z.div_pos; lia).
  assert (k * si_channels info <= zlen pcm) by (subst k; rewrite Z.mul_comm; apply Z.mul_div_le; lia).
  apply (costs_bind _ _ _ (fun _ => 0)).
  - eapply costs_weaken; [apply (costs_foldM (fun _ => True) (fun _ => 0) (284 * k + 26)); auto; try lia|rewrite zlen_range; nia|].
    + intros c' j _. apply cost_encode_channel. lia.
    + intros; cbv beta. rewrite zlen_range. nia.
  - intros c' _. apply costs_run; intros; cbv beta; lia.
Qed.

(** ** Decoding *)
Lemma offset_moves p s n s' : 0 <= bs_cursor s -> bs_cursor s + n < 2 ^ 70 -> 0 <= n -> offset_bit_cursor p s n = Ok s' ->
  bs_cursor s' = bs_cursor s + n.
Proof.
  intros C B N H. unfold offset_bit_cursor in H. assert (2 ^ 70 < 2 ^ 127) by (apply Z.pow_lt_mono_r; lia).
  assert (2 ^ 127 < 2 ^ 128) by (apply Z.pow_lt_mono_r; lia).
  rewrite swrap_small in H by (change (128 - 1) with 127; lia). rewrite schk_ok in H by (change (128 - 1) with 127; lia).
  cbn [bind] in H. rewrite uwrap_small in H by lia. injection H as <-. reflexivity.
Qed.
Lemma peek_stays p s n s' v : peek_bits p s n = Ok (s', v) -> bs_cursor s' = bs_cursor s.
Proof.
  unfold peek_bits. intros H. inv_bind H. destruct (_ <=? _).
  - injection H as <- _. now rewrite !alloc_cursor0.
  - inv_bind H. inv_bind H. injection H as <- _. now rewrite !alloc_cursor0.
Qed.
(** A one right at the cursor means that the cursor is in the first [L] chunks. *)
Lemma peek_one p L s s' v : tail0 L s -> peek_bits p s 128 = Ok (s', v) -> Z.testbit v 0 = true -> chunk_index s < L.
Proof.
  intros HT H HB. pose proof (peek_kept _ _ _ _ _ H) as HK. pose proof (tail0_kept _ _ _ HT HK) as HT'.
  unfold peek_bits in H. inv_bind H. set (s2 := allocate_if_needed _ a) in *. clearbody s2.
  destruct (zlen (bs_binary s2) <=? chunk_index s) eqn:LE.
  { injection H as _ <-. rewrite Z.testbit_0_l in HB. discriminate. }
  inv_bind H. inv_bind H. injection H as <- H.
  destruct (Z.lt_ge_cases (chunk_index s) L) as [G|G]; auto. exfalso.
  apply index_nth0 in Ha0. destruct Ha0 as [R0 Ha0]. destruct HT' as ([T0 _] & _ & HZ). rewrite HZ in Ha0 by lia. subst a0.
  assert (B : Z.testbit a1 0 = false).
  { rewrite Z.shiftr_0_l in Ha1. unfold chunk_bit_index in Ha1. pose proof (Z.mod_pos_bound (bs_cursor s) 128 ltac:(lia)) as M.
    destruct (128 - bs_cursor s mod 128 <? 128) eqn:Q.
    - inv_bind Ha1. inv_bind Ha1. injection Ha1 as <-. rewrite ?Z.lor_0_l. apply Z.ltb_lt in Q.
      match goal with E : ushl _ _ _ _ = Ok _ |- _ => unfold ushl in E;
        replace (_ && _) with true in E by (symmetry; apply andb_true_intro; split; [unfold in_u; apply andb_true_intro; split|]; lia);
        apply ok_inj0 in E; rewrite <- E end.
      unfold uwrap. rewrite Z.mod_pow2_bits_low by lia. apply Z.shiftl_spec_low. lia.
    - injection Ha1 as <-. apply Z.testbit_0_l. }
  apply (f_equal (fun x => Z.testbit x 0)) in H. rewrite Z.land_spec, B in H. cbn [andb] in H. rewrite HB in H. discriminate H.
Qed.
(** The cursor stays below [X] within [k] more samples, and does not wrap. *)
Section Reach.
Variable X : Z.
Hypothesis X_small : X <= 2 ^ 70.
Definition far (L k : Z) (s : bitstream) : Prop :=
  0 <= bs_cursor s /\ Z.max (bs_cursor s) (128 * L + 256) + 512 * k < X.
(** What the ones still ahead can cost. *)
Definition ahead (L : Z) (s : bitstream) : Z := 2 * Z.max 0 (128 * L + 256 - bs_cursor s).
Lemma ahead_nonneg L s : 0 <= ahead L s.
Proof. unfold ahead. lia. Qed.
Lemma chunk_lt L k s : far L k s -> 0 <= k -> chunk_index s < L -> bs_cursor s < 128 * L.
Proof.
  intros [H1 H2] Hk. unfold chunk_index, uwrap. intros H. pose proof X_small as HX. change (2 ^ 70) with 1180591620717411303424 in HX. change (2 ^ 64) with 18446744073709551616 in H.
  pose proof (Z.mod_pos_bound (bs_cursor s) 128 ltac:(lia)). pose proof (Z.div_mod (bs_cursor s) 128 ltac:(lia)).
  rewrite Z.mod_small in H; lia.
Qed.
Lemma far_less L k k' s : far L k s -> k' <= k -> far L k' s.
Proof. intros [H1 H2] H. split; lia. Qed.
Lemma cost_skip p L fuel s q : tail0 L s -> far L 0 s ->
  costs (skip_onesT p fuel s q) (ahead L s + 1) (fun '(s', _, _) => ahead L s') /\
  forall s' q' v, skip_ones p fuel s q = Ok (s', q', v) ->
    bs_cursor s <= bs_cursor s' /\ Z.max (bs_cursor s') (128 * L + 256) = Z.max (bs_cursor s) (128 * L + 256) /\
    (Z.testbit v 0 = true -> bs_cursor s' < 128 * L).
Proof.
  revert s q; induction fuel as [|fuel IH]; intros s q HT HF; cbn [skip_onesT skip_ones]; pose proof (ahead_nonneg L s).
  { split; [apply costs_run; [lia|discriminate]|discriminate]. }
  assert (NEXT : forall s1 chunk s2, peek_bits p s 128 = Ok (s1, chunk) -> chunk = 2 ^ 128 - 1 -> offset_bit_cursor p s1 128 = Ok s2 ->
    tail0 L s2 /\ far L 0 s2 /\ bs_cursor s2 = bs_cursor s + 128 /\ bs_cursor s < 128 * L).
  { intros s1 chunk s2 E1 -> E2. assert (C : bs_cursor s < 128 * L) by (eapply chunk_lt; [exact HF|lia|]; eapply peek_one; [exact HT|exact E1|apply ones_odd]).
    pose proof HF as [F1 F2]. pose proof (peek_stays _ _ _ _ _ E1) as S1.
    pose proof (offset_moves p s1 128 s2 ltac:(lia) ltac:(lia) ltac:(lia) E2) as M.
    split; [eapply tail0_kept; [|eapply offset_kept; eauto]; eapply tail0_kept; [exact HT|eapply peek_kept; eauto]|].
    split; [|lia]. split; lia. }
  split.
  - apply costs_then; [lia|]. intros [s1 chunk] E1. destruct (Z.eqb_spec chunk (2 ^ 128 - 1)) as [EC|EC].
    + apply (costs_then 1); [unfold ahead|].
      { assert (C : bs_cursor s < 128 * L).
        { eapply chunk_lt; [exact HF|lia|]. eapply peek_one; [exact HT|exact E1|rewrite EC; apply ones_odd]. } lia. }
      intros s2 E2. destruct (NEXT _ _ _ E1 EC E2) as (T2 & F2 & C2 & C).
      apply costs_then; [unfold ahead; lia|]. intros q2 _. destruct (IH s2 q2 T2 F2) as [I _].
      eapply costs_weaken; [exact I|unfold ahead; lia|]. intros [[s3 q3] v3] _. cbv beta. unfold ahead. lia.
    + apply costs_run; [unfold ahead; lia|]. intros [[s3 q3] v3] [= <- _ _]. unfold ahead. rewrite (peek_stays _ _ _ _ _ E1). lia.
  - intros s' q' v E. inv_bind E. destruct a as [s1 chunk]. destruct (Z.eqb_spec chunk (2 ^ 128 - 1)) as [EC|EC].
    + inv_bind E. inv_bind E. destruct (NEXT _ _ _ Ha EC Ha0) as (T2 & F2 & C2 & C).
      destruct (IH _ a0 T2 F2) as [_ I]. destruct (I _ _ _ E) as (I1 & I2 & I3). repeat split; auto; lia.
    + injection E as <- _ <-. rewrite (peek_stays _ _ _ _ _ Ha). repeat split; try lia. intros B.
      eapply chunk_lt; [exact HF|lia|]. eapply peek_one; eauto.
Qed.
Lemma trailing_bound n v : 0 <= trailing_ones n v <= Z.of_nat n /\ (0 < trailing_ones n v -> Z.testbit v 0 = true).
Proof.
  revert v; induction n as [|n IH]; intros v; cbn [trailing_ones]; [split; lia|]. destruct (IH (Z.shiftr v 1)) as [I _].
  rewrite <- Z.bit0_odd. destruct (Z.testbit v 0); split; auto; lia.
Qed.
Lemma read_bit_moves p s s' v : 0 <= bs_cursor s -> bs_cursor s + 1 < 2 ^ 70 -> read_bit p s = Ok (s', v) ->
  bs_cursor s <= bs_cursor s' <= bs_cursor s + 1.
Proof.
  intros H1 H2 H. unfold read_bit in H. destruct (_ <=? _); [injection H as <- _; lia|]. inv_bind H. inv_bind H. injection H as <- _.
  apply offset_moves in Ha; lia.
Qed.
Lemma read_bits_moves p s n s' v : 0 <= bs_cursor s -> bs_cursor s + n < 2 ^ 70 -> 0 <= n -> read_bits p s n = Ok (s', v) ->
  bs_cursor s' = bs_cursor s + n.
Proof.
  intros H1 H2 H3 H. unfold read_bits in H. inv_bind H. destruct a as [s1 w]. inv_bind H. injection H as <- _.
  pose proof (peek_stays _ _ _ _ _ Ha). apply offset_moves in Ha0; lia.
Qed.
Lemma cost_read p L k s e : tail0 L s -> far L (k + 1) s -> 0 <= k -> 0 <= e < 16 ->
  costs (read_compressedT p s e) (ahead L s + 6) (fun '(s', _) => ahead L s') /\
  forall s' v, read_compressed p s e = Ok (s', v) -> tail0 L s' /\ far L k s'.
Proof.
  intros HT HF Hk He. pose proof (ahead_nonneg L s) as HA. assert (EU : uwrap 32 e = e) by (apply uwrap_small; lia).
  assert (FIRST : forall s1 b, read_bit p s = Ok (s1, b) -> tail0 L s1 /\ 0 <= bs_cursor s1 /\
    bs_cursor s <= bs_cursor s1 <= bs_cursor s + 1 /\ far L 0 s1).
  { intros s1 b E. pose proof HF as [F1 F2]. pose proof (read_bit_moves _ _ _ _ F1 ltac:(lia) E).
    split; [eapply tail0_kept; [exact HT|eapply read_bit_kept; eauto]|]. split; [lia|]. split; [lia|]. split; lia. }
  assert (THIRD : forall s1 s2 q ck s3, tail0 L s1 -> far L 0 s1 -> bs_cursor s1 <= bs_cursor s + 1 -> skip_ones p (S (S (length (bs_binary s1)))) s1 0 = Ok (s2, q, ck) ->
     offset_bit_cursor p s2 (trailing_ones 128 ck + 1) = Ok s3 ->
     0 <= bs_cursor s2 /\ bs_cursor s3 = bs_cursor s2 + trailing_ones 128 ck + 1 /\ ahead L s3 + trailing_ones 128 ck <= ahead L s2 /\
     Z.max (bs_cursor s3) (128 * L + 256) <= Z.max (bs_cursor s) (128 * L + 256) + 130).
  { intros s1 s2 q ck s3 T1 F1 C1 E2 E3. pose proof HF as [G1 G2]. destruct (cost_skip p L (S (S (length (bs_binary s1)))) s1 0 T1 F1) as [_ SK]. destruct (SK _ _ _ E2) as (M1 & M2 & M3).
    destruct F1 as [F1 F1']. destruct (trailing_bound 128 ck) as [B1 B2]. change (Z.of_nat 128) with 128 in B1.
    pose proof (offset_moves p s2 (trailing_ones 128 ck + 1) s3 ltac:(lia) ltac:(lia) ltac:(lia) E3) as M. split; [lia|]. split; [lia|]. split; [|lia].
    unfold ahead. destruct (Z.eq_dec (trailing_ones 128 ck) 0) as [Z0|Z0]; [lia|]. specialize (B2 ltac:(lia)). specialize (M3 B2). lia. }
  split.
  - unfold read_compressedT. apply (costs_then 2); [lia|]. intros [s1 b] E1. destruct (FIRST _ _ E1) as (T1 & C1 & C1' & F1).
    apply costs_then; [lia|]. intros dv _. destruct (cost_skip p L (S (S (length (bs_binary s1)))) s1 0 T1 F1) as [SK _].
    apply (costs_bind _ _ _ (fun '(s2, _, _) => ahead L s2 + 3)).
    { eapply costs_weaken; [exact SK|unfold ahead; lia|]. intros [[s2 q] ck] _. unfold ahead. lia. }
    intros [[s2 q] ck] E2. rewrite res_skip_ones in E2. pose proof (ahead_nonneg L s2).
    destruct (trailing_bound 128 ck) as [B1 B2]. change (Z.of_nat 128) with 128 in B1.
    apply (costs_bind _ _ _ (fun s3 => ahead L s3 + 1)).
    { apply costs_run.
      - destruct (cost_skip p L (S (S (length (bs_binary s1)))) s1 0 T1 F1) as [_ SK']. destruct (SK' _ _ _ E2) as (M1 & M2 & M3).
        unfold ahead. destruct (Z.eq_dec (trailing_ones 128 ck) 0) as [Z0|Z0]; [lia|]. specialize (B2 ltac:(lia)). specialize (M3 B2). lia.
      - intros s3 E3. destruct (THIRD _ _ _ _ _ T1 F1 ltac:(lia) E2 E3) as (P1 & P2 & P3 & P4). lia. }
    intros s3 E3. rewrite res_run in E3. destruct (THIRD _ _ _ _ _ T1 F1 ltac:(lia) E2 E3) as (P1 & P2 & P3 & P4).
    pose proof (ahead_nonneg L s3). apply costs_then; [lia|]. intros q' _.
    apply (costs_bind _ _ _ (fun '(s4, _) => ahead L s4)).
    { apply costs_run; [lia|]. intros [s4 r] E4. rewrite EU in E4. pose proof HF as [G1 G2].
      apply read_bits_moves in E4; [|lia|lia|lia]. unfold ahead. lia. }
    intros [s4 r] _. pose proof (ahead_nonneg L s4). do 7 (apply costs_then; [lia|intros ? _]). apply costs_run; [lia|].
    intros [s5 v] [= <- _]. lia.
  - intros s' v E. split; [eapply tail0_kept; [exact HT|eapply read_compressed_kept; eauto]|].
    unfold read_compressed in E. inv_bind E. destruct a as [s1 b]. destruct (FIRST _ _ Ha) as (T1 & C1 & C1' & F1).
    inv_bind E. inv_bind E. destruct a0 as [[s2 q] ck]. inv_bind E. destruct (THIRD _ _ _ _ _ T1 F1 ltac:(lia) Ha1 Ha2) as (P1 & P2 & P3 & P4).
    inv_bind E. inv_bind E. destruct a2 as [s4 r]. rewrite EU in Ha4. destruct (trailing_bound 128 ck) as [B1 _]. change (Z.of_nat 128) with 128 in B1. pose proof HF as [G1 G2]. apply read_bits_moves in Ha4; [|lia|lia|lia].
    do 7 inv_bind E. injection E as <- _. split; lia.
Qed.
Lemma cost_decode_samples p L n k s h b e : tail0 L s -> far L (k + Z.of_nat n) s -> 0 <= k -> 0 <= e < 16 ->
  costs (decode_samplesT p s h b e n) (ahead L s + 9 * Z.of_nat n) (fun '(s', _, _) => ahead L s') /\
  forall s' h' b', decode_samples p s h b e n = Ok (s', h', b') -> tail0 L s' /\ far L k s'.
Proof.
  intros HT HF Hk He. revert s h b HT HF; induction n as [|n IH]; intros s h b HT HF; cbn [decode_samplesT decode_samples]; pose proof (ahead_nonneg L s).
  { split; [apply costs_run; [lia|]; intros [[s' h'] b'] [= <- _ _]; lia|]. intros s' h' b' [= <- _ _]. split; auto. eapply far_less; [exact HF|lia]. }
  rewrite Nat2Z.inj_succ in *. destruct (cost_read p L (k + Z.of_nat n) s e HT) as [R1 R2]; [eapply far_less; [exact HF|lia]|lia|lia|]. split.
  - apply costs_then; [lia|]. intros _ _. apply (costs_bind _ _ _ (fun '(s1, _) => ahead L s1 + 9 * Z.of_nat n)).
    { eapply costs_weaken; [exact R1|lia|]. intros [s1 v] _. lia. }
    intros [s1 v] E1. rewrite res_read_compressed in E1. destruct (R2 _ _ E1) as [T1 F1]. apply IH; auto.
  - intros s' h' b' E. inv_bind E. destruct a as [s1 v]. destruct (R2 _ _ Ha) as [T1 F1]. eapply IH; eauto.
Qed.
Lemma cost_decode_raw p L n k s h : tail0 L s -> far L (k + Z.of_nat n) s -> 0 <= k ->
  costs (decode_rawT p s h n) (ahead L s + 2 * Z.of_nat n) (fun '(s', _) => ahead L s') /\
  forall s' h', decode_raw p s h n = Ok (s', h') -> tail0 L s' /\ far L k s'.
Proof.
  intros HT HF Hk. revert s h HT HF; induction n as [|n IH]; intros s h HT HF; cbn [decode_rawT decode_raw]; pose proof (ahead_nonneg L s).
  { split; [apply costs_run; [lia|]; intros [s' h'] [= <- _]; lia|]. intros s' h' [= <- _]. split; auto. eapply far_less; [exact HF|lia]. }
  rewrite Nat2Z.inj_succ in *.
  assert (ONE : forall s1 v, read_typed p s 16 = Ok (s1, v) -> tail0 L s1 /\ far L (k + Z.of_nat n) s1 /\ ahead L s1 <= ahead L s).
  { intros s1 v E. pose proof HF as [F1 F2]. pose proof E as E'. change (read_typed p s 16) with (read_bits p s 16) in E, E'. apply read_bits_moves in E'; [|lia|lia|lia].
    split; [eapply tail0_kept; [exact HT|eapply read_bits_kept; eauto]|]. split; [split; lia|unfold ahead; lia]. }
  split.
  - apply (costs_bind _ _ _ (fun '(s1, _) => ahead L s1 + 2 * Z.of_nat n)).
    { apply costs_run; [lia|]. intros [s1 v] E. destruct (ONE _ _ E) as (_ & _ & A). lia. }
    intros [s1 v] E. rewrite res_run in E. destruct (ONE _ _ E) as (T1 & F1 & _). apply IH; auto.
  - intros s' h' E. inv_bind E. destruct a as [s1 v]. destruct (ONE _ _ Ha) as (T1 & F1 & _). eapply IH; eauto.
Qed.
Lemma nl_get_range n i : 0 <= nl_get n i < 16.
Proof.
  unfold nl_get. destruct (_ <=? _); [lia|]. change 15 with (Z.ones 4). rewrite Z.land_ones by lia. apply Z.mod_pos_bound. lia.
Qed.
Lemma next_exponent p hs hs' hd : fhs_next p hs = Ok (hs', Some hd) -> 0 <= fh_exponent hd < 16.
Proof. unfold fhs_next. destruct (_ <? _); [|discriminate]. intros H. do 4 inv_bind H. injection H as _ <-. apply nl_get_range. Qed.
(** What the rest of the stream can still cost. *)
Definition left_over (L : Z) (s : bitstream) (hs : frame_headers) : Z := ahead L s + 9 * rest hs.
Definition fit (L : Z) (s : bitstream) (hs : frame_headers) : Prop := tail0 L s /\ hs_ok hs /\ far L (rest hs) s.
Lemma left_nonneg L s hs : fit L s hs -> 0 <= left_over L s hs.
Proof. intros (_ & H & _). unfold left_over. pose proof (ahead_nonneg L s). pose proof (rest_nonneg _ H). lia. Qed.
Lemma cost_decode_frame p L c s hs : fit L s hs ->
  costs (decode_frameT p c s hs) (left_over L s hs + 2) (fun '(_, s', hs') => left_over L s' hs') /\
  forall c' s' hs', decode_frame p c s hs = Ok (c', s', hs') -> fit L s' hs'.
Proof.
  intros HX. pose proof (left_nonneg _ _ _ HX) as HN. destruct HX as (HT & HO & HF).
  assert (NX : forall hs1 hd, fhs_next p hs = Ok (hs1, Some hd) -> hs_ok hs1 /\ 0 <= fh_size hd /\ rest hs = fh_size hd + 3 + rest hs1 /\
    0 <= fh_exponent hd < 16 /\ 0 <= rest hs1).
  { intros hs1 hd E. destruct (next_rest _ _ _ _ HO E) as [O1 [S1 R1]]. pose proof (next_exponent _ _ _ _ E). pose proof (rest_nonneg _ O1). auto. }
  pose proof (ahead_nonneg L s) as HA. split.
  - unfold decode_frameT. apply costs_then; [lia|]. intros [hs1 oh] E1. destruct oh as [hd|].
    + destruct (NX _ _ E1) as (O1 & S1 & R1 & X1 & P1). destruct (fc_state c).
      * destruct (cost_decode_raw p L 3 (rest hs1 + fh_size hd) s (fc_history c) HT) as [C1 C2]; [eapply far_less; [exact HF|lia]|lia|].
        apply (costs_bind _ _ _ (fun '(s1, _) => ahead L s1 + 9 * (fh_size hd + 3 + rest hs1) - 6)).
        { eapply costs_weaken; [exact C1|unfold left_over; lia|]. intros [s1 h1] _. unfold left_over. lia. }
        intros [s1 h1] E2. rewrite res_decode_raw in E2. destruct (C2 _ _ E2) as [T1 F1].
        destruct (cost_decode_samples p L (Z.to_nat (fh_size hd - 3)) (rest hs1) s1 h1 (fc_buffer c ++ [normalize_sample (cs_prev 0 h1 3); normalize_sample (cs_prev 0 h1 2); normalize_sample (cs_prev 0 h1 1)]) (fh_exponent hd) T1) as [D1 D2];
          [eapply far_less; [exact F1|lia]|lia|lia|].
        apply (costs_bind _ _ _ (fun '(s2, _, _) => ahead L s2 + 9 * rest hs1 + 3)).
        { eapply costs_weaken; [exact D1|lia|]. intros [[s2 h2] b2] _. lia. }
        intros [[s2 h2] b2] _. pose proof (ahead_nonneg L s2). apply costs_run; [lia|]. intros [[c3 s3] hs3] [= _ <- <-]. unfold left_over. lia.
      * apply costs_run; [lia|discriminate].
      * destruct (cost_decode_samples p L (Z.to_nat (fh_size hd)) (rest hs1) s (fc_history c) (fc_buffer c) (fh_exponent hd) HT) as [D1 D2];
          [eapply far_less; [exact HF|lia]|lia|lia|].
        apply (costs_bind _ _ _ (fun '(s2, _, _) => ahead L s2 + 9 * rest hs1 + 3)).
        { eapply costs_weaken; [exact D1|unfold left_over; lia|]. intros [[s2 h2] b2] _. unfold left_over. lia. }
        intros [[s2 h2] b2] _. pose proof (ahead_nonneg L s2). apply costs_run; [lia|]. intros [[c3 s3] hs3] [= _ <- <-]. unfold left_over. lia.
    + destruct (next_rest _ _ _ _ HO E1) as [_ ->]. apply costs_run; [lia|]. intros [[c3 s3] hs3] [= _ <- <-]. lia.
  - intros c' s' hs' E. unfold decode_frame in E. inv_bind E. destruct a as [hs1 oh]. destruct oh as [hd|].
    + destruct (NX _ _ Ha) as (O1 & S1 & R1 & X1 & P1). destruct (fc_state c).
      * inv_bind E. destruct a as [s1 h1]. inv_bind E. destruct a as [[s2 h2] b2]. injection E as _ <- <-.
        destruct (cost_decode_raw p L 3 (rest hs1 + fh_size hd) s (fc_history c) HT) as [_ C2]; [eapply far_less; [exact HF|lia]|lia|].
        destruct (C2 _ _ Ha0) as [T1 F1].
        destruct (cost_decode_samples p L (Z.to_nat (fh_size hd - 3)) (rest hs1) s1 h1 (fc_buffer c ++ [normalize_sample (cs_prev 0 h1 3); normalize_sample (cs_prev 0 h1 2); normalize_sample (cs_prev 0 h1 1)]) (fh_exponent hd) T1) as [_ D2];
          [eapply far_less; [exact F1|lia]|lia|lia|].
        destruct (D2 _ _ _ Ha1) as [T2 F2]. split; auto.
      * discriminate.
      * inv_bind E. destruct a as [[s2 h2] b2]. injection E as _ <- <-.
        destruct (cost_decode_samples p L (Z.to_nat (fh_size hd)) (rest hs1) s (fc_history c) (fc_buffer c) (fh_exponent hd) HT) as [_ D2];
          [eapply far_less; [exact HF|lia]|lia|lia|].
        destruct (D2 _ _ _ Ha0) as [T2 F2]. split; auto.
    + destruct (next_rest _ _ _ _ HO Ha) as [_ ->]. injection E as _ <- <-. exact (conj HT (conj HO HF)).
Qed.
Definition dleft (L : Z) (d : dstate) : Z := left_over L (snd (fst d)) (snd d).
Definition dfit (L n : Z) (d : dstate) : Prop := zlen (fst (fst d)) = n /\ fit L (snd (fst d)) (snd d).
Lemma dleft_nonneg L n d : dfit L n d -> 0 <= dleft L d.
Proof. intros [_ H]. now apply left_nonneg. Qed.
Lemma cost_decode_channel p L n d j : dfit L n d ->
  costs (decode_channelT p d j) (dleft L d + 2) (dleft L) /\ forall d', decode_channel p d j = Ok d' -> dfit L n d'.
Proof.
  intros HD. pose proof (dleft_nonneg _ _ _ HD) as HN. destruct d as [[chs s] hs]. destruct HD as [HZ HX]. cbn [fst snd] in HZ, HX.
  unfold dleft in *. cbn [fst snd] in *. split.
  - unfold decode_channelT. apply costs_then; [lia|]. intros fc _. destruct (cost_decode_frame p L fc s hs HX) as [C1 C2].
    apply (costs_bind _ _ _ (fun '(_, s1, hs1) => left_over L s1 hs1)).
    { eapply costs_weaken; [exact C1|lia|]. intros [[c1 s1] hs1] _. lia. }
    intros [[c1 s1] hs1] E1. rewrite res_decode_frame in E1. pose proof (left_nonneg _ _ _ (C2 _ _ _ E1)).
    apply costs_then; [lia|]. intros chs1 _. apply costs_run; [lia|]. intros d' [= <-]. cbn [fst snd]. lia.
  - intros d' E. pose proof (decode_channel_keeps _ _ _ _ E) as [K _]. cbn [fst] in K. split; [lia|].
    unfold decode_channel in E. inv_bind E. inv_bind E. destruct a0 as [[c1 s1] hs1]. inv_bind E. injection E as <-. cbn [fst snd].
    eapply cost_decode_frame; eauto.
Qed.
Lemma fit_foldM p L n l d d' : dfit L n d -> foldM (decode_channel p) l d = Ok d' -> dfit L n d'.
Proof.
  revert d; induction l as [|j l IH]; intros d HD H; cbn [foldM] in H; [now injection H as <-|]. inv_bind H. eapply IH; [|exact H].
  eapply (proj2 (cost_decode_channel p L n d j HD)); eauto.
Qed.
Lemma cost_buffer_audio p L n fuel d : 0 <= n -> dfit L n d ->
  costs (buffer_audioT p n fuel d) (dleft L d + Z.of_nat fuel * (4 * n + 1) + 1) (fun '(d', _) => dleft L d') /\
  forall d' k, buffer_audio p n fuel d = Ok (d', k) -> dfit L n d'.
Proof.
  intros Hn. revert d; induction fuel as [|fuel IH]; intros d HD; pose proof (dleft_nonneg _ _ _ HD); cbn [buffer_audioT buffer_audio].
  { split; [apply costs_run; [lia|]; intros [d' k] [= <- _]; lia|]. intros d' k [= <- _]. auto. }
  rewrite Nat2Z.inj_succ. destruct d as [[chs s] hs] eqn:ED. rewrite <- ED in *. pose proof HD as [HZ _]. rewrite ED in HZ. cbn [fst] in HZ. split.
  - apply costs_then; [nia|]. intros _ _. destruct (buffers_empty chs).
    + apply (costs_bind _ _ _ (fun d1 => dleft L d1 + Z.of_nat fuel * (4 * n + 1) + 1)).
      { pose proof (costs_foldM (dfit L n) (dleft L) 2 (decode_channelT p) (range n) d ltac:(lia) (dleft_nonneg L n)) as CF.
        rewrite zlen_range in CF by lia. eapply costs_weaken; [apply CF|nia|].
        - intros d0 x D0. apply (cost_decode_channel p L n d0 x D0).
        - intros d0 x d1 D0 E0. rewrite res_decode_channel in E0. eapply (proj2 (cost_decode_channel p L n d0 x D0)); eauto.
        - exact HD.
        - intros d1 _. nia. }
      intros d1 E1. rewrite res_foldM with (g := decode_channel p) in E1 by apply res_decode_channel. pose proof (fit_foldM _ _ _ _ _ _ HD E1) as D1.
      destruct (IH d1 D1) as [I1 I2]. apply (costs_bind _ _ _ (fun '(d2, _) => dleft L d2)); [exact I1|].
      intros [d2 k] E2. rewrite res_buffer_audio in E2. pose proof (dleft_nonneg _ _ _ (I2 _ _ E2)). apply costs_run; [lia|]. intros [d3 k3] [= <- _]. lia.
    + apply costs_run; [nia|]. intros [d3 k3] [= <- _]. nia.
  - intros d' k E. destruct (buffers_empty chs); [|injection E as <- _; exact HD].
    inv_bind E. inv_bind E. destruct a0 as [d2 k2]. injection E as <- _. pose proof (fit_foldM _ _ _ _ _ _ HD Ha) as D1.
    eapply (proj2 (IH _ D1)); eauto.
Qed.
Lemma cost_pop_block chs n j fuel room : costs (pop_blockT chs n j fuel room) (2 * Z.of_nat fuel + 1) (fun _ => 0).
Proof.
  revert chs j room; induction fuel as [|fuel IH]; intros chs j room; cbn [pop_blockT]; [apply costs_run; intros; cbv beta; lia|].
  rewrite Nat2Z.inj_succ. destruct (_ && _); [|apply costs_run; intros; cbv beta; lia]. apply costs_then; [lia|]. intros fc _.
  destruct (match fc_buffer fc with [] => _ | _ => _ end) as [v rst]. apply costs_then; [lia|]. intros chs1 _.
  apply (costs_bind _ _ _ (fun _ => 0)); [eapply costs_weaken; [apply IH|lia|intros; cbv beta; lia]|]. intros [chs2 o] _.
  apply costs_run; intros; cbv beta; lia.
Qed.
Lemma cost_decode_loop p L n fuel q d : 0 < n -> 0 <= q -> dfit L n d ->
  costs (decode_loopT p n fuel (q * n) d) (dleft L d + q * (42 * n + 13) + 1) (fun '(d', _) => dleft L d') /\
  forall d' out, decode_loop p n fuel (q * n) d = Ok (d', out) -> dfit L n d'.
Proof.
  intros Hn. revert q d; induction fuel as [|fuel IH]; intros q d Hq HD; pose proof (dleft_nonneg _ _ _ HD) as HN; cbn [decode_loopT decode_loop].
  { split; [apply costs_run; [nia|discriminate]|discriminate]. }
  destruct (cost_buffer_audio p L n MAX_DECODE_ATTEMPTS d ltac:(lia) HD) as [B1 B2]. change (Z.of_nat MAX_DECODE_ATTEMPTS) with 10 in B1.
  assert (NEXT : forall chs s hs chs1 out, 0 < q -> dfit L n (chs, s, hs) -> pop_block chs n 0 (Z.to_nat n) (q * n) = Ok (chs1, out) ->
    dfit L n (chs1, s, hs) /\ q * n - zlen out = (q - 1) * n).
  { intros chs s hs chs1 out Q D E. pose proof (pop_block_keeps _ _ _ _ _ _ _ E) as [K _]. apply pop_block_len in E; [|lia|nia].
    destruct D as [D1 D2]. split; [split; [cbn [fst] in *; lia|exact D2]|]. rewrite E. nia. }
  split.
  - apply costs_then; [nia|]. intros _ _. destruct (Z.ltb_spec 0 (q * n)) as [H0|H0].
    + assert (0 < q) by nia. apply (costs_bind _ _ _ (fun '(d1, _) => dleft L d1 + (q - 1) * (42 * n + 13) + 2 * n + 2)).
      { eapply costs_weaken; [exact B1|nia|]. intros [d1 k] _. nia. }
      intros [d1 k] E1. rewrite res_buffer_audio in E1. pose proof (B2 _ _ E1) as D1. pose proof (dleft_nonneg _ _ _ D1).
      destruct (_ <=? _)%nat; [apply costs_run; [nia|]; intros [d2 o] [= <- _]; nia|]. destruct d1 as [[chs s] hs].
      apply (costs_bind _ _ _ (fun _ => dleft L (chs, s, hs) + (q - 1) * (42 * n + 13) + 1)).
      { eapply costs_weaken; [apply cost_pop_block|rewrite Z2Nat.id by lia; nia|]. intros a _. rewrite Z2Nat.id by lia. lia. }
      intros [chs1 out] E2. rewrite res_pop_block in E2. destruct (NEXT _ _ _ _ _ ltac:(lia) D1 E2) as [D2 R2]. rewrite R2.
      destruct (IH (q - 1) (chs1, s, hs) ltac:(lia) D2) as [I1 I2].
      apply (costs_bind _ _ _ (fun '(d3, _) => dleft L d3)).
      { eapply costs_weaken; [exact I1|unfold dleft; cbn [fst snd]; lia|]. intros [d3 o3] _. unfold dleft. cbn [fst snd]. lia. }
      intros [d3 o3] E3. rewrite res_decode_loop in E3. pose proof (dleft_nonneg _ _ _ (I2 _ _ E3)). apply costs_run; [lia|]. intros [d4 o4] [= <- _]. lia.
    + apply costs_run; [nia|]. intros [d2 o] [= <- _]. nia.
  - intros d' out E. destruct (Z.ltb_spec 0 (q * n)) as [H0|H0]; [|now injection E as <- _]. assert (0 < q) by nia.
    inv_bind E. destruct a as [d1 k]. pose proof (B2 _ _ Ha) as D1. destruct (_ <=? _)%nat; [now injection E as <- _|].
    destruct d1 as [[chs s] hs]. inv_bind E. destruct a as [chs1 o]. destruct (NEXT _ _ _ _ _ ltac:(lia) D1 Ha0) as [D2 R2].
    inv_bind E. destruct a as [d3 o3]. injection E as <- _. rewrite R2 in Ha1. eapply (proj2 (IH (q - 1) _ ltac:(lia) D2)); eauto.
Qed.
Lemma cost_decode p L c buf info : ad_info c = Ok info -> 0 <= si_channels info -> dfit L (si_channels info) (codec_state c) ->
  costs (ad_decodeT p c buf) (dleft L (codec_state c) + 56 * zlen buf + 2) (fun '(c', _, _) => dleft L (codec_state c')) /\
  forall c' out k, ad_decode p c buf = Ok (c', out, k) -> dfit L (si_channels info) (codec_state c').
Proof.
  intros EI Hc HD. pose proof (dleft_nonneg _ _ _ HD) as HN. pose proof (zlen_nonneg buf). split.
  - unfold ad_decodeT. apply costs_then; [lia|]. intros i Ei. rewrite EI in Ei. injection Ei as <-.
    apply costs_then; [lia|]. intros q Eq. pose proof (udiv_pos _ _ _ Eq). apply udiv_val in Eq.
    assert (0 <= q) by (subst q; apply Z.div_pos; lia).
    assert (q * si_channels info <= zlen buf) by (subst q; rewrite Z.mul_comm; apply Z.mul_div_le; lia).
    destruct (cost_decode_loop p L (si_channels info) (S (length buf)) q (codec_state c) ltac:(lia) ltac:(lia) HD) as [C1 C2].
    apply (costs_bind _ _ _ (fun '(d', _) => dleft L d' + zlen buf)).
    { eapply costs_weaken; [exact C1|nia|]. intros [d1 o] _. nia. }
    intros [d1 o] E1. rewrite res_decode_loop in E1. pose proof (dleft_nonneg _ _ _ (C2 _ _ E1)). destruct d1 as [[chs s] hs].
    apply costs_run; [lia|]. intros [[c' out'] k'] E. injection E as <- _ _. change (codec_state _) with (chs, s, hs). lia.
  - intros c' out k E. unfold ad_decode in E. rewrite EI in E. cbn [bind] in E. inv_bind E. pose proof (udiv_pos _ _ _ Ha). apply udiv_val in Ha.
    assert (0 <= a) by (subst a; apply Z.div_pos; lia).
    inv_bind E. destruct a0 as [d1 o]. destruct (cost_decode_loop p L (si_channels info) (S (length buf)) a (codec_state c) ltac:(lia) ltac:(lia) HD) as [_ C2].
    pose proof (C2 _ _ Ha0) as D1. destruct d1 as [[chs s] hs]. injection E as <- _ _. exact D1.
Qed.

(** ** Counting and seeking *)
Lemma cost_count p c : costs (ad_sample_countT p c) (2 * Z.max 0 (fhs_len (ad_headers c)) + 1) (fun _ => 0).
Proof.
  unfold ad_sample_countT. apply costs_then; [lia|]. intros i _. apply (costs_bind _ _ _ (fun _ => 0)).
  - eapply costs_weaken; [apply (costs_foldM (fun _ => True) (fun _ => 0) 1); auto; try lia|rewrite zlen_range; lia|intros; cbv beta; rewrite zlen_range; lia].
    intros acc j _. apply costs_then; [lia|]. intros [h|] _; apply costs_run; intros; cbv beta; lia.
  - intros t _. apply costs_run; intros; cbv beta; lia.
Qed.
Lemma cost_walk p hs ch o fuel sk i len : costs (seek_walkT p hs ch o fuel sk i len) (2 * Z.max 0 (len - i) + 1) (fun _ => 0).
Proof.
  revert sk i; induction fuel as [|fuel IH]; intros sk i; cbn [seek_walkT]; [apply costs_run; [lia|discriminate]|].
  apply costs_then; [lia|]. intros _ _. destruct (Z.ltb_spec i len); cbn [andb]; [|apply costs_run; intros; cbv beta; lia].
  destruct (_ <? _); [|apply costs_run; intros; cbv beta; lia].
  do 5 (apply costs_then; [lia|intros ? _]). destruct (_ <=? _); [apply costs_run; intros; cbv beta; lia|].
  eapply costs_weaken; [apply IH|lia|intros; cbv beta; lia].
Qed.
Lemma uchk_below p v r : 0 <= v -> uchk p 64 v = Ok r -> 0 <= r <= v.
Proof.
  intros H. unfold uchk. destruct (in_u 64 v); [intros [= <-]; lia|]. destruct p; [discriminate|]. intros [= <-].
  unfold uwrap. pose proof (Z.mod_pos_bound v (2 ^ 64) ltac:(lia)). split; [lia|]. apply Z.mod_le; lia.
Qed.
Lemma get_size hs i oh hd M : Forall (fun x => 0 <= x <= M) (fhs_sizes hs) -> fhs_get hs i = Ok oh -> expect oh = Ok hd -> 0 <= fh_size hd <= M.
Proof.
  intros HM H E. unfold fhs_get in H. destruct (_ <? _); [|injection H as <-; discriminate]. do 3 inv_bind H. injection H as <-.
  cbn [expect] in E. injection E as <-. cbn [fh_size]. apply index_inv in Ha. destruct Ha as [_ Ha].
  apply nth_error_In in Ha. rewrite Forall_forall in HM. now apply HM.
Qed.
(** Where the walk stops: past the last block, or at a block that reaches the target, or at once. *)
Lemma walk_stops p hs ch o M fuel sk i len sk' i' : 0 <= ch -> Forall (fun x => 0 <= x <= M) (fhs_sizes hs) -> 0 <= sk ->
  seek_walk p hs ch o fuel sk i len = Ok (sk', i') -> len <= i' \/ o - sk' <= M * ch \/ (o <= sk /\ sk' = sk).
Proof.
  intros Hc HM. revert sk i; induction fuel as [|fuel IH]; intros sk i H0 H; cbn [seek_walk] in H; [discriminate|].
  destruct (Z.ltb_spec i len); cbn [andb] in H; [|injection H as <- <-; lia]. destruct (Z.ltb_spec sk o); [|injection H as <- <-; lia].
  do 5 inv_bind H. pose proof (get_size _ _ _ _ _ HM Ha0 Ha1) as S.
  apply uchk_below in Ha2; [|nia]. apply uchk_below in Ha3; [|lia]. destruct (Z.leb_spec o a3) as [Q|Q]; [injection H as <- <-; right; left; nia|].
  destruct (IH a3 (i + 1) ltac:(lia) H) as [I|[I|[I _]]]; auto. lia.
Qed.
Lemma cost_prune fuel ch sk t chs k : 0 < ch -> 0 <= k -> t - sk <= k * ch -> costs (pruneT fuel ch sk t chs) (k * (1 + 2 * ch) + 1) (fun _ => 0).
Proof. clear X_small.
  intros Hc. revert sk chs k; induction fuel as [|fuel IH]; intros sk chs k Hk HT; cbn [pruneT]; destruct (Z.ltb_spec sk t) as [Q|Q];
    try solve [apply costs_run; intros; cbv beta; nia].
  assert (1 <= k) by nia. apply costs_then; [nia|]. intros _ _. eapply costs_weaken; [apply (IH _ _ (k - 1)); nia|nia|intros; cbv beta; nia].
Qed.
(** Decoding leaves the tables alone. *)
Definition same_tables (a b : frame_headers) : Prop := fhs_len a = fhs_len b /\ fhs_sizes a = fhs_sizes b.
Lemma next_tables p hs hs' oh : fhs_next p hs = Ok (hs', oh) -> same_tables hs' hs.
Proof.
  unfold fhs_next. destruct (_ <? _); intros H; [|injection H as <- _; split; reflexivity].
  do 4 inv_bind H. injection H as <- _. split; reflexivity.
Qed.
Lemma frame_tables p c s hs c' s' hs' : decode_frame p c s hs = Ok (c', s', hs') -> same_tables hs' hs.
Proof.
  intros H. unfold decode_frame in H. inv_bind H. destruct a as [hs1 oh]. apply next_tables in Ha. destruct oh as [hd|]; [|now injection H as _ _ <-].
  destruct (fc_state c); [|discriminate|].
  - inv_bind H. destruct a as [s1 h1]. inv_bind H. destruct a as [[s2 h2] b2]. now injection H as _ _ <-.
  - inv_bind H. destruct a as [[s2 h2] b2]. now injection H as _ _ <-.
Qed.
Lemma seek_channel_tables p st d j d' : seek_channel p st d j = Ok d' -> same_tables (snd d') (snd d) /\ st + j < fhs_len (snd d).
Proof.
  destruct d as [[chs s] hs]. unfold seek_channel. intros H. inv_bind H. inv_bind H. inv_bind H. destruct (fh_history a0) as [[h3 h2] h1].
  inv_bind H. destruct a2 as [[fc s1] hs1]. inv_bind H. injection H as <-. cbn [snd]. split; [eapply frame_tables; eauto|].
  unfold fhs_get in Ha. destruct (Z.ltb_spec (st + j) (fhs_len hs)); auto. injection Ha as <-. discriminate.
Qed.
Lemma seek_fold_tables p st l d d' : foldM (seek_channel p st) l d = Ok d' -> same_tables (snd d') (snd d) /\ Forall (fun j => st + j < fhs_len (snd d)) l.
Proof.
  revert d; induction l as [|j l IH]; intros d H; cbn [foldM] in H; [injection H as <-; split; [split; reflexivity|constructor]|].
  inv_bind H. apply seek_channel_tables in Ha. destruct Ha as [[T1 T2] L1]. apply IH in H. destruct H as [[T3 T4] L2].
  split; [split; congruence|]. constructor; auto. now rewrite T1 in L2.
Qed.
Lemma cost_seek_channel p L n st d j : dfit L n d ->
  costs (seek_channelT p st d j) (dleft L d + 6) (dleft L) /\ forall d', seek_channel p st d j = Ok d' -> dfit L n d'.
Proof.
  intros HD. pose proof (dleft_nonneg _ _ _ HD) as HN. destruct d as [[chs s] hs]. destruct HD as [HZ HX]. cbn [fst snd] in HZ, HX.
  unfold dleft in *. cbn [fst snd] in *. split.
  - unfold seek_channelT. do 3 (apply costs_then; [lia|intros ? _]). destruct (fh_history a0) as [[h3 h2] h1].
    destruct (cost_decode_frame p L (mkFC (if fh_is_init a0 then CInit else CDecoding) (cs_push (cs_push (cs_push (fc_history a1) h3) h2) h1) []) s hs HX) as [C1 C2].
    apply (costs_bind _ _ _ (fun '(_, s1, hs1) => left_over L s1 hs1 + 3)).
    { eapply costs_weaken; [exact C1|lia|]. intros [[c1 s1] hs1] _. lia. }
    intros [[c1 s1] hs1] E1. rewrite res_decode_frame in E1. pose proof (left_nonneg _ _ _ (C2 _ _ _ E1)).
    apply costs_then; [lia|]. intros chs1 _. apply costs_run; [lia|]. intros d' [= <-]. cbn [fst snd]. lia.
  - intros d' E. unfold seek_channel in E. inv_bind E. inv_bind E. inv_bind E. destruct (fh_history a0) as [[h3 h2] h1].
    inv_bind E. destruct a2 as [[c1 s1] hs1]. inv_bind E. injection E as <-. split; cbn [fst snd]; [apply store_inv in Ha3; destruct Ha3 as [_ ->]; rewrite zlen_replace_nth; lia|].
    eapply cost_decode_frame; eauto.
Qed.
Lemma seek_fold_fit p L n st l d d' : dfit L n d -> foldM (seek_channel p st) l d = Ok d' -> dfit L n d'.
Proof.
  revert d; induction l as [|j l IH]; intros d HD H; cbn [foldM] in H; [now injection H as <-|]. inv_bind H. eapply IH; [|exact H].
  eapply (proj2 (cost_seek_channel p L n st d j HD)); eauto.
Qed.
End Reach.
Lemma init_channels c : zlen (ad_channels (ad_init c)) = zlen (ad_channels c).
Proof. unfold ad_init. cbn [ad_channels]. apply zlen_map. Qed.
Lemma sum3_skip n l : Forall (fun x => 0 <= x) l ->
  fold_right (fun size acc => size + 3 + acc) 0 (skipn n l) <= fold_right (fun size acc => size + 3 + acc) 0 l.
Proof.
  intros H. revert l H; induction n as [|n IH]; intros l H; [reflexivity|]. destruct H as [|x l H0 H]; [reflexivity|]. cbn [skipn fold_right].
  specialize (IH l H). lia.
Qed.
Definition all_frames (hs : frame_headers) : Z := fold_right (fun size acc => size + 3 + acc) 0 (fhs_sizes hs).
Lemma rest_all hs : Forall (fun x => 0 <= x) (fhs_sizes hs) -> rest hs <= all_frames hs.
Proof. apply sum3_skip. Qed.
Lemma cost_seek p c dt info M : ad_info c = Ok info -> 0 <= si_channels info -> zlen (ad_channels c) = si_channels info ->
  let L := zlen (bs_binary (as_stream (ad_stream c))) in let hs := ad_headers c in
  L < 2 ^ 60 -> fhs_len hs < 2 ^ 32 -> all_frames hs < 2 ^ 60 -> Forall (fun x => 0 <= x <= M) (fhs_sizes hs) -> 0 <= M ->
  Forall (fun x => 0 <= x < 2 ^ 64) (fhs_cursors hs) ->
  costs (ad_seekT p c dt) (256 * L + 512 + 9 * all_frames hs + 2 * Z.max 0 (fhs_len hs) + 8 * si_channels info + M * (2 * si_channels info + 1) + 5) (fun _ => 0).
Proof.
  intros EI Hc HZ L hs HL Hlen HA HM M0 HC. assert (N : Forall (fun x => 0 <= x) (fhs_sizes hs)) by (eapply Forall_impl; [|exact HM]; cbv beta; lia).
  assert (0 <= L) by apply zlen_nonneg. assert (A0 : 0 <= all_frames hs) by (apply sum3_nonneg; exact N).
  assert (MN : 0 <= M * (2 * si_channels info + 1)) by nia.
  unfold ad_seekT. apply costs_then; [lia|]. intros i Ei. rewrite EI in Ei. injection Ei as <-. apply costs_then; [lia|]. intros _ _.
  destruct dt as [dt| |]; [|apply costs_run; [lia|discriminate]|apply costs_run; [lia|discriminate]].
  destruct (dt =? 0); [apply costs_run; intros; cbv beta; lia|]. apply costs_then; [lia|]. intros o _. apply costs_then; [lia|]. intros bl EB.
  pose proof (udiv_pos _ _ _ EB). apply udiv_val in EB. change (fhs_len (ad_headers (ad_init c))) with (fhs_len hs) in *.
  assert (BL : bl <= Z.max 0 (fhs_len hs)).
  { subst bl. destruct (Z.neg_nonneg_cases (fhs_len hs)); apply Z.div_le_upper_bound; nia. }
  apply (costs_bind _ _ _ (fun _ => 256 * L + 512 + 9 * all_frames hs + 7 * si_channels info + M * (2 * si_channels info + 1) + 2)).
  { eapply costs_weaken; [apply cost_walk|lia|intros; cbv beta; lia]. }
  intros [sk idx] EW. rewrite res_seek_walk in EW. apply (walk_stops p (ad_headers (ad_init c)) (si_channels info) o M) in EW; [|lia|exact HM|lia].
  apply costs_then; [lia|]. intros oh Eo. apply costs_then; [lia|]. intros hd Eh.
  set (s1 := set_bit_cursor _ _). set (hs1 := fhs_set_cursor _ _).
  assert (CU : 0 <= fh_bit_cursor hd < 2 ^ 64).
  { unfold fhs_get in Eo. destruct (_ <? _); [|injection Eo as <-; discriminate]. do 3 inv_bind Eo. injection Eo as <-.
    cbn [expect] in Eh. injection Eh as <-. cbn [fh_bit_cursor]. apply index_inv in Ha0. destruct Ha0 as [_ Ha0].
    apply nth_error_In in Ha0. rewrite Forall_forall in HC. now apply HC. }
  assert (R1 : rest hs1 <= all_frames hs) by (exact (rest_all hs1 N)).
  assert (D1 : dfit (2 ^ 70) L (si_channels info) (ad_channels (ad_init c), s1, hs1)).
  { split; cbn [fst snd]; [rewrite init_channels; exact HZ|]. split.
    - refine (tail0_start s1 _). change (zlen (bs_binary s1)) with L. assert (2 ^ 60 < 2 ^ 63) by (apply Z.pow_lt_mono_r; lia). lia.
    - split; [split; [exact N|split; [|exact Hlen]]|].
      + unfold hs1. cbn [fhs_set_cursor fhs_cursor]. unfold uwrap. apply Z.mod_pos_bound. lia.
      + split; change (bs_cursor s1) with (fh_bit_cursor hd); [lia|]. change (2 ^ 64) with 18446744073709551616 in CU.
        change (2 ^ 60) with 1152921504606846976 in *. change (2 ^ 70) with 1180591620717411303424. lia. }
  assert (LV : forall s, 0 <= bs_cursor s -> 0 <= ahead L s <= 256 * L + 512) by (intros s; unfold ahead; lia).
  assert (LV1 : dleft L (ad_channels (ad_init c), s1, hs1) <= 256 * L + 512 + 9 * all_frames hs).
  { unfold dleft, left_over. cbn [fst snd]. pose proof (LV s1 ltac:(change (bs_cursor s1) with (fh_bit_cursor hd); lia)). lia. }
  apply (costs_bind _ _ _ (fun _ => M * (2 * si_channels info + 1) + 1)).
  { pose proof (costs_foldM (dfit (2 ^ 70) L (si_channels info)) (dleft L) 6 (seek_channelT p (idx * si_channels info)) (range (si_channels info))
      (ad_channels (ad_init c), s1, hs1) ltac:(lia) (dleft_nonneg (2 ^ 70) L (si_channels info))) as CF. rewrite zlen_range in CF.
    unfold costs in *. assert (X : match result (tfoldM (seek_channelT p (idx * si_channels info)) (range (si_channels info)) (ad_channels (ad_init c), s1, hs1)) with
      | Ok a => 0 <= dleft L a | _ => True end).
    { rewrite (res_foldM _ (seek_channel p (idx * si_channels info))) by (intros; apply res_seek_channel). destruct (foldM _ _ _) eqn:E; auto.
      eapply dleft_nonneg, seek_fold_fit; [apply Z.le_refl|exact D1|exact E]. }
    specialize (CF (fun d x D => proj1 (cost_seek_channel (2 ^ 70) (Z.le_refl _) p L _ _ d x D))).
    specialize (CF (fun d x d' D E => proj2 (cost_seek_channel (2 ^ 70) (Z.le_refl _) p L _ _ d x D) d' (eq_trans (eq_sym (res_seek_channel p _ d x)) E)) D1).
    destruct (result _); lia. }
  intros [[chs s2] hs2] E2. rewrite (res_foldM _ (seek_channel p (idx * si_channels info))) in E2 by (intros; apply res_seek_channel).
  apply seek_fold_tables in E2. destruct E2 as [_ E2]. cbn [snd] in E2. change (fhs_len hs1) with (fhs_len hs) in E2.
  assert (I : o - sk <= M * si_channels info).
  { destruct EW as [EW|[EW|[EW1 EW2]]]; [exfalso|exact EW|].
    - rewrite Forall_forall in E2. specialize (E2 (si_channels info - 1) ltac:(apply in_range; lia)). subst bl.
      pose proof (Z.div_mod (fhs_len hs) (si_channels info) ltac:(lia)). pose proof (Z.mod_pos_bound (fhs_len hs) (si_channels info) ltac:(lia)). nia.
    - subst sk. nia. }
  apply (costs_bind _ _ _ (fun _ => 0)).
  { eapply costs_weaken; [apply (cost_prune _ _ _ _ _ M); lia|nia|intros; cbv beta; nia]. }
  intros chs1 _. apply costs_run; intros; cbv beta; lia.
Qed.
