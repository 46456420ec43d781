(** * What is held back between calls, and what the command line tool writes *)
From Coq Require Import ZArith List Bool Lia.
From Verif Require Import Model.Base Model.F32 Model.Sample Model.BitStream Model.NibbleList Model.BitVec Model.Frame Model.Adhoc Model.Bincode
  Model.Wav Model.Cli Spec.Bombs Spec.Wave Spec.Recording Proofs.BaseFacts Proofs.AnyState Proofs.DecodeFacts Proofs.DamageFacts Proofs.Terminates Proofs.BombFacts
  Proofs.Chunks Proofs.WavFacts Proofs.WavFile.
Import ListNotations.
Open Scope Z_scope.

(** ** Samples held back *)
Definition held (chs : list frame_codec) : Z := fold_right Z.add 0 (map (fun fc => zlen (fc_buffer fc)) chs).
Definition supplied (d : dstate) : Z := held (fst (fst d)) + 65535 * readable (snd d).
Lemma held_replace chs j c d : (j < length chs)%nat -> held (replace_nth j chs c) = held chs - zlen (fc_buffer (nth j chs d)) + zlen (fc_buffer c).
Proof.
  unfold held. revert j; induction chs as [|x chs IH]; intros [|j] Hj; cbn [length nth replace_nth map fold_right] in *; try lia.
  rewrite IH by lia. lia.
Qed.
Lemma held_peak chs : held chs <= zlen chs * peak chs.
Proof.
  unfold held, peak. induction chs as [|x chs IH]; cbn [map fold_right]; [change (zlen (@nil frame_codec)) with 0; lia|].
  rewrite zlen_cons. fold (peak chs) in *. pose proof (peak_nonneg chs). pose proof (zlen_nonneg chs). nia.
Qed.
Lemma held_pop chs : held (map popc chs) <= held chs.
Proof.
  unfold held. induction chs as [|x chs IH]; cbn [map fold_right]; [lia|]. unfold popc at 1. cbn [fc_buffer].
  destruct (fc_buffer x) as [|a l]; cbn [tl]; rewrite ?zlen_cons; [change (zlen (@nil f32)) with 0|]; lia.
Qed.
Lemma channel_supplied p d j d' : u16s (snd d) -> decode_channel p d j = Ok d' -> u16s (snd d') /\ supplied d' <= supplied d.
Proof.
  destruct d as [[chs s] hs]. cbn [snd]. intros HU H. unfold decode_channel in H. inv_bind H. inv_bind H. destruct a0 as [[fc s1] hs1]. inv_bind H. injection H as <-.
  destruct (frame_grows _ _ _ _ _ _ _ HU Ha0) as (U1 & R1 & G1). split; [exact U1|]. unfold supplied. cbn [fst snd].
  apply store_inv in Ha1. destruct Ha1 as [_ ->]. apply index_inv in Ha. destruct Ha as [B E]. apply (nth_error_nth _ _ fc_new) in E.
  rewrite (held_replace _ _ _ fc_new) by (unfold zlen in B; lia). rewrite E, R1. destruct (Z.ltb_spec 0 (readable hs)); unfold readable in *; lia.
Qed.
Lemma round_supplied p l : forall d d', u16s (snd d) -> foldM (decode_channel p) l d = Ok d' -> u16s (snd d') /\ supplied d' <= supplied d.
Proof.
  induction l as [|j l IH]; intros d d' HU H; cbn [foldM] in H; [injection H as <-; split; [auto|lia]|]. inv_bind H.
  destruct (channel_supplied _ _ _ _ HU Ha) as [U1 L1]. destruct (IH _ _ U1 H) as [U2 L2]. split; [auto|lia].
Qed.
(** What is held back is bounded in two ways. *)
Definition held_ok (n S : Z) (d : dstate) : Prop := zlen (fst (fst d)) = n /\ u16s (snd d) /\ peak (fst (fst d)) <= 65535 /\ supplied d <= S.
Lemma buffer_held p n S fuel : 0 < n -> forall d d' k, held_ok n S d -> buffer_audio p n fuel d = Ok (d', k) -> held_ok n S d'.
Proof.
  intros Hn. induction fuel as [|fuel IH]; intros d d' k HD H.
  - cbn [buffer_audio] in H. injection H as <- _. exact HD.
  - cbn [buffer_audio] in H. destruct d as [[chs s] hs]. destruct (buffers_empty chs) eqn:B; [|injection H as <- _; exact HD].
    inv_bind H. inv_bind H. destruct a0 as [e m]. injection H as <- _. eapply (IH a); [|exact Ha0]. destruct HD as (HZ & HU & HP & HS). cbn [fst snd] in *.
    destruct (round_blocks p n (chs, s, hs) a Hn HU B Ha) as (U1 & _ & P1 & _). destruct (round_supplied p (range n) (chs, s, hs) a HU Ha) as [_ S1]. cbn [snd] in P1.
    split; [|split; [exact U1|]; split; [destruct (0 <? readable hs); lia|lia]].
    assert (K : zlen (fst (fst (chs, s, hs))) = zlen (fst (fst a))); [|cbn [fst] in K; lia].
    revert Ha. apply (foldM_rel (decode_channel p) (fun d d' => zlen (fst (fst d)) = zlen (fst (fst d')))); [reflexivity|intros; congruence|].
    intros [[c1 s1] h1] j d2 E. unfold decode_channel in E. inv_bind E. inv_bind E. destruct a1 as [[f2 s2] h2]. inv_bind E. injection E as <-. cbn [fst].
    apply store_inv in Ha2. destruct Ha2 as [_ ->]. unfold zlen. now rewrite length_replace_nth.
Qed.
Lemma loop_held p n S fuel : 0 < n -> forall q d d' out, held_ok n S d -> decode_loop p n fuel (q * n) d = Ok (d', out) -> held_ok n S d'.
Proof.
  intros Hn. induction fuel as [|fuel IH]; intros q d d' out HD H; cbn [decode_loop] in H; [discriminate|].
  destruct (Z.ltb_spec 0 (q * n)) as [H0|H0]; [|injection H as <- _; exact HD]. inv_bind H. destruct a as [d1 k].
  pose proof (buffer_held _ _ _ _ Hn _ _ _ HD Ha) as HD1. destruct (Nat.leb MAX_DECODE_ATTEMPTS k); [injection H as <- _; exact HD1|].
  destruct d1 as [[chs s] hs]. destruct HD1 as (Z1 & U1 & P1 & S1). cbn [fst snd] in *.
  assert (Q1 : 0 < q) by (apply (Z.mul_pos_cancel_r q n); lia). assert (R : n <= q * n) by (clear - Q1 Hn; nia).
  pose proof (pop_block_spec (Z.to_nat n) chs 0 (q * n) ltac:(lia) ltac:(lia) ltac:(lia)) as PB. rewrite Z1 in PB. rewrite PB in H. clear PB.
  change (Z.to_nat 0) with 0%nat in H. cbn [firstn skipn app bind] in H. inv_bind H. destruct a as [d2 o]. injection H as <- _.
  rewrite zlen_map, Z1 in Ha0. replace (q * n - n) with ((q - 1) * n) in Ha0 by lia. eapply IH; [|exact Ha0].
  split; [cbn [fst]; rewrite zlen_map; exact Z1|]. split; [exact U1|]. cbn [fst]. split; [rewrite peak_pop; lia|].
  unfold supplied in *. cbn [fst snd] in *. pose proof (held_pop chs). lia.
Qed.
Lemma decode_held p S c info buf c' out r : ad_info c = Ok info -> 0 < si_channels info -> held_ok (si_channels info) S (codec_state c) ->
  ad_decode p c buf = Ok (c', out, r) -> ad_info c' = Ok info /\ held_ok (si_channels info) S (codec_state c').
Proof.
  intros EI Hn HD H. unfold ad_decode in H. rewrite EI in H. cbn [bind] in H. inv_bind H. inv_bind H.
  destruct a0 as [[[chs s] hs] o]. injection H as <- _ _. split; [exact EI|].
  exact (loop_held _ _ _ _ Hn _ (codec_state c) _ _ HD Ha0).
Qed.
Lemma calls_held p S c c' info : after_calls p c c' -> ad_info c = Ok info -> 0 < si_channels info -> held_ok (si_channels info) S (codec_state c) ->
  ad_info c' = Ok info /\ held_ok (si_channels info) S (codec_state c').
Proof.
  induction 1 as [|c c1 buf out r c2 _ IH E]; intros EI Hn HD; [auto|]. destruct (IH EI Hn HD) as [EI1 HD1]. eapply decode_held; eauto.
Qed.

(** ** The loop of the tool *)
Lemma at_end t xs : overwrite t (length t) xs = t ++ xs.
Proof. unfold overwrite. rewrite firstn_all, skipn_all2 by lia. now rewrite app_nil_r. Qed.
Lemma tool_upper p info fuel : let n := si_channels info in 0 < n -> forall c track buf w', ad_info c = Ok info -> zlen (ad_channels c) = n -> u16s (ad_headers c) ->
  zlen track + n * blocks_left n (codec_state c) < 2 ^ 62 ->
  adhoc_to_wav_loop p fuel c (mkWav info (pcm_bytes track) (zlen track)) buf = Ok w' ->
  exists track' cur, w' = mkWav info (pcm_bytes track') cur /\ zlen track' <= zlen track + n * blocks_left n (codec_state c).
Proof.
  intros n Hn. induction fuel as [|fuel IH]; intros c track buf w' EI HZ HU HB H; cbn [adhoc_to_wav_loop] in H; [discriminate|].
  inv_bind H. destruct a as [[c1 buf1] r]. destruct (decode_blocks _ _ _ _ _ _ _ EI Hn HZ HU Ha) as (A & B & C & D). fold n in B, D.
  pose proof (blocks_nonneg n (codec_state c) Hn) as B0. pose proof (blocks_nonneg n (codec_state c1) Hn) as B1.
  set (X := n * blocks_left n (codec_state c)) in *. set (Y := n * blocks_left n (codec_state c1)) in *.
  assert (X0 : 0 <= X) by (subst X; clear - Hn B0; nia). assert (Y0 : 0 <= Y) by (subst Y; clear - Hn B1; nia).
  destruct r as [k|]; [|injection H as <-; exists track, (zlen track); split; [reflexivity|lia]].
  assert (Kn : 0 <= k).
  { unfold ad_decode in Ha. rewrite EI in Ha. cbn [bind] in Ha. inv_bind Ha. inv_bind Ha. destruct a0 as [[[? ?] ?] o]. destruct (Z.ltb_spec 0 (zlen o)); [|discriminate].
    injection Ha as _ _ <-. lia. }
  inv_bind H. destruct a as [w1 r1]. assert (K : zlen (firstn (Z.to_nat k) buf1) <= k) by (unfold zlen; rewrite firstn_length; lia).
  pose proof (zlen_nonneg (firstn (Z.to_nat k) buf1)) as KN. assert (EY : n * blocks_left n (codec_state c1) = Y) by reflexivity. clearbody X Y. change (2 ^ 62) with 4611686018427387904 in *.
  rewrite encode_ok in Ha0 by (fold n; change (2 ^ 63) with 9223372036854775808; pose proof (zlen_nonneg track); lia). injection Ha0 as <- _.
  replace (Z.to_nat (zlen track)) with (length track) in H by (unfold zlen; lia). rewrite at_end in H.
  set (t2 := track ++ _) in *. assert (ZT : zlen t2 = zlen track + zlen (whole n (firstn (Z.to_nat k) buf1))) by (subst t2; rewrite zlen_app, zlen_map; reflexivity).
  fold n in H. rewrite <- ZT in H. assert (ZW : zlen (whole n (firstn (Z.to_nat k) buf1)) <= k).
  { rewrite whole_len by exact Hn. pose proof (Z.mul_div_le (zlen (firstn (Z.to_nat k) buf1)) n Hn). lia. }
  destruct (IH c1 t2 buf1 w' A B C) as (track' & cur & -> & L); [rewrite EY; lia|exact H|].
  exists track', cur. split; [reflexivity|]. rewrite EY in L. lia.
Qed.
Lemma tool_exact L info fuel : let n := si_channels info in 0 < n <= 1024 -> forall B c track buf, ad_info c = Ok info -> filled L n B (codec_state c) ->
  zlen buf = 1024 -> B < Z.of_nat fuel -> zlen track + n * B < 2 ^ 62 ->
  exists track' cur, adhoc_to_wav_loop Release fuel c (mkWav info (pcm_bytes track) (zlen track)) buf = Ok (mkWav info (pcm_bytes track') cur) /\
    zlen track' = zlen track + n * B.
Proof.
  intros n Hn. induction fuel as [|fuel IH]; intros B c track buf EI HF Hb Hf Ht; [pose proof (blocks_nonneg n (codec_state c) ltac:(lia)); rewrite (fd_blocks _ _ _ _ HF) in *; lia|].
  assert (B0 : 0 <= B) by (rewrite <- (fd_blocks _ _ _ _ HF); apply blocks_nonneg; lia).
  destruct (decode_full L B c info buf EI ltac:(fold n; lia) HF) as (c1 & buf1 & E & EI1 & F1 & Zb). fold n in E, F1. rewrite Hb in E, F1, Zb.
  assert (Q1 : 1 <= 1024 / n) by (apply Z.div_le_lower_bound; lia). pose proof (Z.mul_div_le 1024 n ltac:(lia)) as Q2.
  set (m := Z.min (1024 / n) B) in *. assert (M0 : 0 <= m) by lia. assert (M1 : n * m <= 1024) by (assert (m <= 1024 / n) by lia; clear - Hn H Q2; nia).
  cbn [adhoc_to_wav_loop]. rewrite E. cbn [bind]. destruct (Z.ltb_spec 0 (n * m)) as [P|P].
  - assert (MP : 1 <= m) by (clear - P Hn; nia).
    assert (ZF : zlen (firstn (Z.to_nat (n * m)) buf1) = n * m) by (unfold zlen in *; rewrite firstn_length; lia).
    assert (MB : n * m <= n * B) by (assert (m <= B) by lia; clear - H Hn; nia). change (2 ^ 62) with 4611686018427387904 in *.
    rewrite encode_ok by (fold n; change (2 ^ 63) with 9223372036854775808; pose proof (zlen_nonneg track); lia). cbn [bind]. fold n.
    replace (Z.to_nat (zlen track)) with (length track) by (unfold zlen; lia). rewrite at_end.
    rewrite (whole_all n _ m) by (lia || exact ZF). set (t2 := track ++ _).
    assert (ZT : zlen t2 = zlen track + n * m) by (subst t2; rewrite zlen_app, zlen_map, ZF; reflexivity). rewrite ZF, <- ZT.
    destruct (IH (B - m) c1 t2 buf1 EI1 F1 Zb) as (track' & cur & E2 & L2); [lia|rewrite ZT; lia|].
    exists track', cur. split; [exact E2|]. rewrite L2, ZT. lia.
  - assert (MZ : m = 0) by (clear - P Hn M0; nia). assert (B = 0) by lia. subst B. exists track, (zlen track). split; [reflexivity|lia].
Qed.
Lemma save_size p info t cur out : wav_save p (mkWav info (pcm_bytes t) cur) = Ok out -> zlen out = 44 + 2 * zlen t.
Proof.
  unfold wav_save, wav_save_to. intros H. inv_bind H. assert (out = firstn 44 a ++ wav_pcm (mkWav info (pcm_bytes t) cur)) as -> by congruence. apply header_len_any in Ha. rewrite firstn_all2 by lia.
  rewrite zlen_app. cbn [wav_pcm]. rewrite zlen_pcm. unfold zlen. lia.
Qed.
(** The header never stops a release build. *)
Lemma save_release info t cur : exists out, wav_save Release (mkWav info (pcm_bytes t) cur) = Ok out.
Proof.
  unfold wav_save, wav_save_to, wav_header, uchk, schk.
  repeat (match goal with |- context [if ?b then _ else _] => destruct b end; cbn [bind]); eexists; reflexivity.
Qed.
