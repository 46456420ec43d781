(** * Playback never changes the recorded bits *)
From Coq Require Import ZArith List Bool Lia.
From Verif Require Import Model.Base Model.F32 Model.Sample Model.BitStream Model.CircularStack Model.Frame Model.Adhoc
  Spec.Recording Spec.Frames Proofs.BaseFacts Proofs.BitStreamFacts Proofs.BitLog Proofs.AnyState.
Import ListNotations.
Open Scope Z_scope.

(** Reading may append zero chunks to the memory, nothing else. *)
Definition kept (s s' : bitstream) : Prop := exists n, bs_binary s' = bs_binary s ++ repeat 0 n.
Lemma kept_refl s : kept s s. Proof. exists 0%nat. now rewrite app_nil_r. Qed.
Lemma kept_trans a b c : kept a b -> kept b c -> kept a c.
Proof. intros [n H] [m H']. exists (n + m)%nat. rewrite H', H, repeat_app, app_assoc. reflexivity. Qed.
Lemma kept_ext s s' : kept s s' -> ext (bs_binary s) (bs_binary s').
Proof.
  intros [n ->]. split; [rewrite zlen_app; pose proof (zlen_nonneg (repeat 0 n)); lia|]. intros i _.
  induction n as [|n IH]; [cbn [repeat]; now rewrite app_nil_r|].
  replace (repeat 0 (S n)) with (repeat 0 n ++ [0]) by (symmetry; apply repeat_cons).
  rewrite app_assoc. unfold mbit. rewrite mchunk_app0. exact IH.
Qed.
Lemma alloc_kept s i : kept s (allocate_if_needed s i).
Proof. unfold allocate_if_needed. destruct (_ <=? _); [exists 1%nat; reflexivity|apply kept_refl]. Qed.
Lemma offset_kept p s n s' : offset_bit_cursor p s n = Ok s' -> kept s s'.
Proof. unfold offset_bit_cursor. intros H. inv_bind H. injection H as <-. exists 0%nat; symmetry; apply app_nil_r. Qed.
Lemma peek_kept p s n s' v : peek_bits p s n = Ok (s', v) -> kept s s'.
Proof.
  intros H. unfold peek_bits in H. inv_bind H.
  set (s2 := allocate_if_needed _ a) in *. assert (H2 : kept s s2) by (eapply kept_trans; apply alloc_kept). clearbody s2.
  destruct (_ <=? _); [injection H as <- _; auto|]. do 2 inv_bind H. injection H as <- _. exact H2.
Qed.
Lemma read_bit_kept p s s' v : read_bit p s = Ok (s', v) -> kept s s'.
Proof.
  intros H. unfold read_bit in H. destruct (_ <=? _); [injection H as <- _; apply kept_refl|].
  do 2 inv_bind H. injection H as <- _. eapply offset_kept; eauto.
Qed.
Lemma read_bits_kept p s n s' v : read_bits p s n = Ok (s', v) -> kept s s'.
Proof.
  intros H. unfold read_bits in H. inv_bind H. destruct a. inv_bind H. injection H as <- _.
  eapply kept_trans; [eapply peek_kept; eauto|eapply offset_kept; eauto].
Qed.
Lemma skip_ones_kept p fuel s q s' q' v : skip_ones p fuel s q = Ok (s', q', v) -> kept s s'.
Proof.
  revert s q; induction fuel as [|fuel IH]; intros s q H; cbn [skip_ones] in H; [discriminate|].
  inv_bind H. destruct a as [s1 chunk]. apply peek_kept in Ha. destruct (_ =? _).
  - do 2 inv_bind H. eapply kept_trans; [exact Ha|]. eapply kept_trans; [|eapply IH; exact H]. eapply offset_kept; eauto.
  - injection H as <- _ _. exact Ha.
Qed.
Lemma read_compressed_kept p s e s' v : read_compressed p s e = Ok (s', v) -> kept s s'.
Proof.
  intros H. unfold read_compressed in H. inv_bind H. destruct a as [s1 sb]. inv_bind H. inv_bind H. destruct a0 as [[s2 q] ck].
  do 2 inv_bind H. inv_bind H. destruct a2 as [s3 r]. do 7 inv_bind H. injection H as <- _.
  eapply kept_trans; [eapply read_bit_kept; eauto|]. eapply kept_trans; [eapply skip_ones_kept; eauto|].
  eapply kept_trans; [eapply offset_kept; eauto|eapply read_bits_kept; eauto].
Qed.
Lemma decode_raw_kept p s h n s' h' : decode_raw p s h n = Ok (s', h') -> kept s s'.
Proof.
  revert s h; induction n as [|n IH]; intros s h H; cbn [decode_raw] in H; [injection H as <- <-; apply kept_refl|].
  inv_bind H. destruct a as [s1 v]. eapply kept_trans; [|eapply IH; exact H]. eapply read_bits_kept. exact Ha.
Qed.
Lemma decode_samples_kept p s h b e n s' h' b' : decode_samples p s h b e n = Ok (s', h', b') -> kept s s'.
Proof.
  revert s h b; induction n as [|n IH]; intros s h b H; cbn [decode_samples] in H; [injection H as <- <- _; apply kept_refl|].
  inv_bind H. destruct a as [s1 v]. eapply kept_trans; [|eapply IH; exact H]. eapply read_compressed_kept; eauto.
Qed.
Lemma decode_frame_kept p c s hs c' s' hs' : decode_frame p c s hs = Ok (c', s', hs') -> kept s s'.
Proof.
  intros H. unfold decode_frame in H. inv_bind H. destruct a as [hs1 oh].
  destruct oh as [hd|]; [|injection H as <- <- <-; apply kept_refl]. destruct (fc_state c).
  - inv_bind H. destruct a as [s1 h1]. apply decode_raw_kept in Ha0.
    inv_bind H. destruct a as [[s2 h2] b2]. injection H as <- <- <-. apply decode_samples_kept in Ha1. eapply kept_trans; eauto.
  - discriminate.
  - inv_bind H. destruct a as [[s2 h2] b2]. injection H as <- <- <-. eapply decode_samples_kept; eauto.
Qed.

Definition d_kept (d d' : dstate) : Prop := kept (snd (fst d)) (snd (fst d')).
Lemma d_kept_refl d : d_kept d d. Proof. apply kept_refl. Qed.
Lemma d_kept_trans a b c : d_kept a b -> d_kept b c -> d_kept a c. Proof. apply kept_trans. Qed.
Lemma decode_channel_kept p d j d' : decode_channel p d j = Ok d' -> d_kept d d'.
Proof.
  destruct d as [[chs s] hs]. intros H. unfold decode_channel in H. inv_bind H. inv_bind H. destruct a0 as [[c2 s2] hs2].
  inv_bind H. injection H as <-. eapply decode_frame_kept; eauto.
Qed.
Lemma buffer_audio_kept p n fuel d d' k : buffer_audio p n fuel d = Ok (d', k) -> d_kept d d'.
Proof.
  revert d d' k; induction fuel as [|fuel IH]; intros d d' k H; cbn [buffer_audio] in H; [injection H as <- _; apply d_kept_refl|].
  destruct d as [[chs s] hs] eqn:E. destruct (buffers_empty chs); [|injection H as <- _; apply d_kept_refl].
  inv_bind H. inv_bind H. destruct a0. injection H as <- _. eapply d_kept_trans; [|eapply IH; exact Ha0].
  eapply (foldM_rel (decode_channel p) d_kept); eauto using d_kept_refl, d_kept_trans, decode_channel_kept.
Qed.
Lemma decode_loop_kept p n fuel room d d' out : decode_loop p n fuel room d = Ok (d', out) -> d_kept d d'.
Proof.
  revert room d d' out; induction fuel as [|fuel IH]; intros room d d' out H; cbn [decode_loop] in H; [discriminate|].
  destruct (0 <? room); [|injection H as <- _; apply d_kept_refl]. inv_bind H. destruct a as [d1 k]. apply buffer_audio_kept in Ha.
  destruct (_ <=? _)%nat; [injection H as <- _; auto|]. destruct d1 as [[chs s] hs]. inv_bind H. destruct a as [chs1 o].
  inv_bind H. destruct a as [d2 o2]. injection H as <- _. apply IH in Ha1. eapply d_kept_trans; [exact Ha|exact Ha1].
Qed.
Definition c_kept (c c' : adhoc) : Prop := kept (as_stream (ad_stream c)) (as_stream (ad_stream c')).
Lemma decode_kept p c buf c' out k : ad_decode p c buf = Ok (c', out, k) -> c_kept c c'.
Proof.
  intros H. unfold ad_decode in H. do 2 inv_bind H. inv_bind H. destruct a1 as [[[chs s] hs] o].
  apply decode_loop_kept in Ha1. injection H as <- _ _. exact Ha1.
Qed.
Lemma seek_channel_kept p start d j d' : seek_channel p start d j = Ok d' -> d_kept d d'.
Proof.
  destruct d as [[chs s] hs]. intros H. unfold seek_channel in H. do 3 inv_bind H.
  destruct (fh_history a0) as [[h3 h2] h1]. inv_bind H. destruct a2 as [[c2 s2] hs2].
  inv_bind H. injection H as <-. eapply decode_frame_kept; eauto.
Qed.
Lemma seek_kept p c dt c' : ad_seek p c dt = Ok c' -> c_kept c c'.
Proof.
  intros H. unfold ad_seek in H. inv_bind H. destruct dt as [dt| |]; try discriminate.
  destruct (dt =? 0); [injection H as <-; exists 0%nat; symmetry; apply app_nil_r|].
  do 2 inv_bind H. inv_bind H. destruct a2 as [sk idx]. do 2 inv_bind H. inv_bind H. destruct a4 as [[chs s] hs]. inv_bind H. injection H as <-.
  eapply (foldM_rel (seek_channel p _) d_kept) in Ha5; eauto using d_kept_refl, d_kept_trans, seek_channel_kept.
Qed.
Lemma play_kept p ops c c' : play_all p ops c = Ok c' -> c_kept c c'.
Proof.
  apply foldM_rel; [intros; apply kept_refl|intros a b d; apply kept_trans|]. clear. intros c op c' H.
  destruct op; cbn [play] in H.
  - inv_bind H. destruct a as [[c1 o] k]. injection H as <-. eapply decode_kept; eauto.
  - injection H as <-. exists 0%nat; symmetry; apply app_nil_r.
  - eapply seek_kept; eauto.
Qed.
