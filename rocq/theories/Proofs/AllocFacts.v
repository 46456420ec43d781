(** * The logging functions do what the model does; what they ask for; what that costs *)
From Coq Require Import ZArith List Bool Lia.
From Verif Require Import Model.Base Model.F32 Model.Noise Model.Sample Model.BitStream Model.NibbleList Model.BitVec Model.CircularStack Model.Frame Model.Adhoc
  Model.Wav Model.Allocs Spec.Allocation Proofs.BaseFacts.
Import ListNotations.
Open Scope Z_scope.

(** ** Erasure *)
Lemma out_bind {A B} (m : logged A) (k : A -> logged B) : outcome_of (lbind m k) = bind (outcome_of m) (fun a => outcome_of (k a)).
Proof. unfold outcome_of, lbind, bind. destruct (snd m); reflexivity. Qed.
Lemma out_quiet {A} (m : outcome A) : outcome_of (quiet m) = m.
Proof. reflexivity. Qed.
Lemma out_ask v n : outcome_of (ask v n) = Ok tt.
Proof. reflexivity. Qed.
Lemma out_push {A} v (l : list A) a : outcome_of (pushL v l a) = Ok (l ++ [a]).
Proof. reflexivity. Qed.
Lemma same_bind {A B} (m : outcome A) (k k' : A -> outcome B) : (forall a, k a = k' a) -> bind m k = bind m k'.
Proof. intros H. destruct m; cbn [bind]; auto. Qed.
Lemma out_foldM {S X} (f : S -> X -> logged S) g l s : (forall s x, outcome_of (f s x) = g s x) -> outcome_of (lfoldM f l s) = foldM g l s.
Proof.
  intros H. revert s; induction l as [|x l IH]; intros s; cbn [lfoldM foldM]; [reflexivity|].
  rewrite out_bind, H. apply same_bind. intros a. apply IH.
Qed.
Ltac hush :=
  repeat first
    [ progress rewrite ?out_quiet, ?out_ask, ?out_push
    | rewrite out_bind
    | progress cbn [bind]
    | reflexivity
    | match goal with
      | |- bind ?m _ = bind ?m _ => apply same_bind; intros
      | |- outcome_of (let '(_, _) := ?x in _) = _ => destruct x
      | |- outcome_of (if ?b then _ else _) = (if ?b then _ else _) => destruct b
      | |- outcome_of (match ?x with _ => _ end) = match ?x with _ => _ end => destruct x
      end ].
Lemma out_allocate s i : outcome_of (allocateL s i) = Ok (allocate_if_needed s i).
Proof. unfold allocateL, allocate_if_needed. destruct (_ <=? _); reflexivity. Qed.
Lemma out_write_bits p s v n : outcome_of (write_bitsL p s v n) = write_bits p s v n.
Proof. unfold write_bitsL, write_bits. hush. rewrite out_allocate. hush. rewrite out_allocate. hush. Qed.
Lemma out_peek p s n : outcome_of (peek_bitsL p s n) = peek_bits p s n.
Proof. unfold peek_bitsL, peek_bits. hush. rewrite out_allocate. hush. rewrite out_allocate. hush. Qed.
Lemma out_write_bit p s v : outcome_of (write_bitL p s v) = write_bit p s v.
Proof. unfold write_bitL, write_bit. hush. rewrite out_allocate. hush. Qed.
Lemma out_read_bits p s n : outcome_of (read_bitsL p s n) = read_bits p s n.
Proof. unfold read_bitsL, read_bits. hush. rewrite out_peek. hush. Qed.
Lemma out_write_unary p fuel s q : outcome_of (write_unaryL p fuel s q) = write_unary p fuel s q.
Proof.
  revert s q; induction fuel as [|fuel IH]; intros s q; cbn [write_unaryL write_unary]; hush; rewrite out_write_bits; hush. apply IH.
Qed.
Lemma out_write_compressed p s e v : outcome_of (write_compressedL p s e v) = write_compressed p s e v.
Proof.
  unfold write_compressedL, write_compressed. hush. rewrite out_write_bit. hush. rewrite out_write_unary. hush. rewrite out_write_bit. hush.
  apply out_write_bits.
Qed.
Lemma out_skip_ones p fuel s q : outcome_of (skip_onesL p fuel s q) = skip_ones p fuel s q.
Proof. revert s q; induction fuel as [|fuel IH]; intros s q; cbn [skip_onesL skip_ones]; hush. rewrite out_peek. hush. apply IH. Qed.
Lemma out_read_compressed p s e : outcome_of (read_compressedL p s e) = read_compressed p s e.
Proof. unfold read_compressedL, read_compressed. hush. rewrite out_skip_ones. hush. rewrite out_read_bits. hush. Qed.
Lemma out_nl_push p n v : outcome_of (nl_pushL p n v) = nl_push p n v.
Proof. unfold nl_pushL, nl_push. destruct (_ <=? _); hush. Qed.
Lemma out_bv_push p n v : outcome_of (bv_pushL p n v) = bv_push p n v.
Proof. unfold bv_pushL, bv_push. destruct (_ <=? _); hush. Qed.
Lemma out_fhs_push p f h : outcome_of (fhs_pushL p f h) = fhs_push p f h.
Proof.
  unfold fhs_pushL, fhs_push. destruct (_ <=? _); rewrite !out_bind.
  - rewrite out_nl_push. destruct (nl_push _ _ _); [|reflexivity|reflexivity]. cbn [bind]. rewrite out_bind, out_bv_push. destruct (bv_push _ _ _); [|reflexivity|reflexivity]. hush.
  - rewrite out_quiet. destruct (store _ _ _); [|reflexivity|reflexivity]. cbn [bind]. hush. destruct (store _ _ _); [|reflexivity|reflexivity]. cbn [bind]. hush. destruct (store _ _ _); [|reflexivity|reflexivity]. hush.
Qed.
Lemma out_encode_samples p s h e l : outcome_of (encode_samplesL p s h e l) = encode_samples p s h e l.
Proof.
  revert s h; induction l as [|x l IH]; intros s h; cbn [encode_samplesL encode_samples]; hush.
  rewrite out_write_compressed. hush. apply IH.
Qed.
Lemma out_encode_raw p s h pcm ks : outcome_of (encode_rawL p s h pcm ks) = encode_raw p s h pcm ks.
Proof.
  revert s h; induction ks as [|k ks IH]; intros s h; cbn [encode_rawL encode_raw]; hush. rewrite out_write_bits. unfold write_typed. hush. apply IH.
Qed.
Lemma out_encode_frame p c s hs pcm : outcome_of (encode_frameL p c s hs pcm) = encode_frame p c s hs pcm.
Proof.
  unfold encode_frameL, encode_frame. destruct (fc_state c); hush.
  - rewrite out_encode_raw. hush. rewrite out_fhs_push. hush. rewrite out_encode_samples. hush.
  - rewrite out_fhs_push. hush. rewrite out_encode_samples. hush.
Qed.
Lemma out_decode_samples p j s h b e n : outcome_of (decode_samplesL p j s h b e n) = decode_samples p s h b e n.
Proof.
  revert s h b; induction n as [|n IH]; intros s h b; cbn [decode_samplesL decode_samples]; hush.
  rewrite out_read_compressed. hush. apply IH.
Qed.
Lemma out_decode_raw p s h n : outcome_of (decode_rawL p s h n) = decode_raw p s h n.
Proof.
  revert s h; induction n as [|n IH]; intros s h; cbn [decode_rawL decode_raw]; hush. rewrite out_read_bits. unfold read_typed, read_bits. hush. apply IH.
Qed.
Lemma out_decode_frame p j c s hs : outcome_of (decode_frameL p j c s hs) = decode_frame p c s hs.
Proof.
  unfold decode_frameL, decode_frame. hush.
  - rewrite out_decode_raw. hush. rewrite out_decode_samples. rewrite <- !app_assoc. cbn [app]. hush.
  - rewrite out_decode_samples. hush.
Qed.
Lemma out_encode_channel p pcm n k c j : outcome_of (encode_channelL p pcm n k c j) = encode_channel p pcm n k c j.
Proof. unfold encode_channelL, encode_channel. hush. rewrite out_encode_frame. hush. Qed.
Lemma out_encode p c pcm : outcome_of (ad_encodeL p c pcm) = ad_encode p c pcm.
Proof.
  unfold ad_encodeL, ad_encode. hush. rewrite (out_foldM _ (encode_channel p pcm (si_channels a) a0)) by (intros; apply out_encode_channel). hush.
Qed.
Lemma out_decode_channel p d j : outcome_of (decode_channelL p d j) = decode_channel p d j.
Proof. unfold decode_channelL, decode_channel. hush. rewrite out_decode_frame. hush. Qed.
Lemma out_buffer_audio p n fuel d : outcome_of (buffer_audioL p n fuel d) = buffer_audio p n fuel d.
Proof.
  revert d; induction fuel as [|fuel IH]; intros d; cbn [buffer_audioL buffer_audio]; hush.
  rewrite (out_foldM _ (decode_channel p)) by (intros; apply out_decode_channel). hush. rewrite IH. hush.
Qed.
Lemma out_decode_loop p n fuel room d : outcome_of (decode_loopL p n fuel room d) = decode_loop p n fuel room d.
Proof.
  revert room d; induction fuel as [|fuel IH]; intros room d; cbn [decode_loopL decode_loop]; hush.
  rewrite out_buffer_audio. hush. rewrite IH. hush.
Qed.
Lemma out_decode p c buf : outcome_of (ad_decodeL p c buf) = ad_decode p c buf.
Proof. unfold ad_decodeL, ad_decode. hush. rewrite out_decode_loop. hush. Qed.
Lemma out_wav_write p w s : outcome_of (wav_write_sampleL p w s) = wav_write_sample p w s.
Proof. unfold wav_write_sampleL, wav_write_sample. destruct (_ <? _); hush. rewrite <- app_assoc. reflexivity. Qed.
Lemma out_wav_encode p w l : outcome_of (wav_encodeL p w l) = wav_encode p w l.
Proof.
  unfold wav_encodeL, wav_encode. hush. rewrite (out_foldM _ (fun w s => wav_write_sample p w (truncate_sample s))) by (intros; apply out_wav_write). hush.
Qed.
