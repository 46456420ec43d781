(** * Counting the blocks a codec can still deliver *)
From Coq Require Import ZArith List Bool Lia.
From Verif Require Import Model.Base Model.F32 Model.Sample Model.BitStream Model.NibbleList Model.BitVec Model.Frame Model.Adhoc Model.Bincode
  Spec.Bombs Proofs.BaseFacts Proofs.AnyState Proofs.DecodeFacts Proofs.DamageFacts Proofs.Terminates.
Import ListNotations.
Open Scope Z_scope.

(** ** Rounding up *)
Lemma up_zero n : 0 < n -> rounded_up 0 n = 0.
Proof. intros H. unfold rounded_up. apply Z.div_small. lia. Qed.
Lemma up_next a n : 0 < n -> 0 < a -> rounded_up (Z.max 0 (a - n)) n = rounded_up a n - 1.
Proof.
  intros Hn Ha. unfold rounded_up. destruct (Z.le_gt_cases n a).
  - rewrite Z.max_r by lia. replace (a - n + n - 1) with (a + n - 1 + (-1) * n) by lia. rewrite Z.div_add by lia. lia.
  - rewrite Z.max_l by lia. rewrite Z.div_small by lia. symmetry. enough ((a + n - 1) / n = 1) by lia.
    symmetry. apply Z.div_unique with (r := a - 1); lia.
Qed.
Lemma up_mono a b n : 0 < n -> a <= b -> rounded_up a n <= rounded_up b n.
Proof. intros. unfold rounded_up. apply Z.div_le_mono; lia. Qed.
Lemma up_nonneg a n : 0 < n -> 0 <= a -> 0 <= rounded_up a n.
Proof. intros. unfold rounded_up. apply Z.div_pos; lia. Qed.
Lemma up_total a n : 0 < n -> 0 <= a -> n * rounded_up a n <= a + n - 1.
Proof. intros. unfold rounded_up. apply Z.mul_div_le. lia. Qed.

(** ** Headers that can still be read *)
Definition readable (hs : frame_headers) : Z :=
  Z.max 0 (Z.min (fhs_len hs) (Z.min (zlen (fhs_sizes hs)) (Z.min (zlen (fhs_cursors hs)) (zlen (fhs_hists hs)))) - fhs_cursor hs).
Definition u16s (hs : frame_headers) : Prop :=
  Forall (fun x => 0 <= x < 65536) (fhs_sizes hs) /\ 0 <= fhs_cursor hs /\ fhs_len hs < 2 ^ 32.
Lemma index_below {A} (l : list A) i a : index l i = Ok a -> 0 <= i < zlen l.
Proof. intros H. apply index_inv in H. tauto. Qed.
Lemma next_readable p hs hs' oh : u16s hs -> fhs_next p hs = Ok (hs', oh) ->
  u16s hs' /\ readable hs' = Z.max 0 (readable hs - 1) /\
  match oh with Some hd => 0 <= fh_size hd < 65536 /\ 0 < readable hs | None => hs' = hs /\ readable hs = 0 end.
Proof.
  intros (H1 & H2 & H3) H. unfold fhs_next in H. destruct (Z.ltb_spec (fhs_cursor hs) (fhs_len hs)) as [Q|Q].
  - do 3 inv_bind H. inv_bind H. injection H as <- <-. rewrite uchk_ok in Ha2 by lia. injection Ha2 as <-.
    split; [split; [exact H1|split; [cbn [fhs_set_cursor fhs_cursor]; lia|exact H3]]|].
    apply index_below in Ha0, Ha1. apply index_nth0 in Ha. destruct Ha as [R E]. split.
    + unfold readable. change (fhs_len (fhs_set_cursor hs (fhs_cursor hs + 1))) with (fhs_len hs).
      cbn [fhs_set_cursor fhs_cursor fhs_sizes fhs_cursors fhs_hists]. lia.
    + cbn [fh_size]. split; [|unfold readable; lia]. rewrite Forall_forall in H1. apply H1. rewrite <- E. apply nth_In. unfold zlen in R. lia.
  - injection H as <- <-. split; [split; auto|]. unfold readable. split; [lia|split; [reflexivity|lia]].
Qed.
Lemma frame_grows p c s hs c' s' hs' : u16s hs -> decode_frame p c s hs = Ok (c', s', hs') ->
  u16s hs' /\ readable hs' = Z.max 0 (readable hs - 1) /\
  zlen (fc_buffer c) <= zlen (fc_buffer c') <= zlen (fc_buffer c) + (if 0 <? readable hs then 65535 else 0).
Proof.
  intros HO H. unfold decode_frame in H. inv_bind H. destruct a as [hs1 oh]. destruct (next_readable _ _ _ _ HO Ha) as (HO1 & HR & HS).
  destruct oh as [hd|].
  - destruct HS as [HS HP]. destruct (Z.ltb_spec 0 (readable hs)); [|lia]. destruct (fc_state c).
    + inv_bind H. destruct a as [s1 h1]. inv_bind H. destruct a as [[s2 h2] b2]. injection H as <- _ <-.
      apply decode_samples_len in Ha1. rewrite zlen_app in Ha1. change (zlen [_; _; _]) with 3 in Ha1. cbn [fc_buffer]. split; [auto|]. split; [auto|lia].
    + discriminate.
    + inv_bind H. destruct a as [[s2 h2] b2]. injection H as <- _ <-. apply decode_samples_len in Ha0. cbn [fc_buffer]. split; [auto|]. split; [auto|lia].
  - destruct HS as [-> HS]. injection H as <- _ <-. split; [auto|]. split; [auto|]. destruct (0 <? readable hs); lia.
Qed.

(** ** The longest buffer *)
Definition peak (chs : list frame_codec) : Z := fold_right Z.max 0 (map (fun fc => zlen (fc_buffer fc)) chs).
Lemma peak_nonneg chs : 0 <= peak chs.
Proof. unfold peak. induction chs; cbn [map fold_right]; lia. Qed.
Lemma peak_le chs M : 0 <= M -> (peak chs <= M <-> Forall (fun fc => zlen (fc_buffer fc) <= M) chs).
Proof.
  intros HM. unfold peak. induction chs as [|fc chs IH]; cbn [map fold_right]; [split; auto|]. split.
  - intros H. constructor; [lia|]. apply IH. lia.
  - intros H. inversion H; subst. apply IH in H3. lia.
Qed.
Lemma peak_empty chs : buffers_empty chs = true <-> peak chs = 0.
Proof.
  unfold buffers_empty, peak. induction chs as [|fc chs IH]; cbn [forallb map fold_right]; [tauto|].
  fold (peak chs) in *. pose proof (peak_nonneg chs). destruct (fc_buffer fc) as [|x l]; cbn [andb].
  - rewrite IH. change (zlen (@nil f32)) with 0. lia.
  - rewrite zlen_cons. pose proof (zlen_nonneg l). split; [discriminate|lia].
Qed.
Lemma peak_pop chs : peak (map popc chs) = Z.max 0 (peak chs - 1).
Proof.
  unfold peak. induction chs as [|fc chs IH]; cbn [map fold_right]; [lia|]. rewrite IH. unfold popc at 1. cbn [fc_buffer].
  pose proof (peak_nonneg chs) as P. unfold peak in P. destruct (fc_buffer fc) as [|x l]; cbn [tl]; rewrite ?zlen_cons;
    [change (zlen (@nil f32)) with 0|]; lia.
Qed.

(** ** One round of frames *)
Definition blocks_left (n : Z) (d : dstate) : Z := let '(chs, _, hs) := d in peak chs + 65535 * rounded_up (readable hs) n.
Lemma round_peak p l M : NoDup l -> forall d d', foldM (decode_channel p) l d = Ok d' ->
  0 <= M -> u16s (snd d) -> Forall (fun fc => zlen (fc_buffer fc) <= M) (fst (fst d)) ->
  (forall j fc, In j l -> index (fst (fst d)) j = Ok fc -> fc_buffer fc = []) -> (0 < readable (snd d) -> 65535 <= M) ->
  u16s (snd d') /\ readable (snd d') = Z.max 0 (readable (snd d) - zlen l) /\ Forall (fun fc => zlen (fc_buffer fc) <= M) (fst (fst d')).
Proof.
  induction l as [|j l IH]; intros ND d d' H HM HU HF HE HP; cbn [foldM] in H.
  - injection H as <-. change (zlen (@nil Z)) with 0. split; [auto|]. split; [unfold readable; lia|auto].
  - inversion ND as [|? ? NI ND']; subst. inv_bind H. destruct d as [[chs s] hs]. cbn [fst snd] in *. unfold decode_channel in Ha. inv_bind Ha. inv_bind Ha.
    destruct a1 as [[fc s1] hs1]. inv_bind Ha. injection Ha as <-. destruct (frame_grows _ _ _ _ _ _ _ HU Ha1) as (U1 & R1 & G1).
    rewrite (HE j a0 (or_introl eq_refl) Ha0) in G1. change (zlen (@nil f32)) with 0 in G1.
    destruct (IH ND' _ _ H HM) as (A & B & C); cbn [fst snd]; auto.
    + apply store_inv in Ha2. destruct Ha2 as [_ ->]. apply Forall_replace; auto. destruct (Z.ltb_spec 0 (readable hs)); lia.
    + intros k fk Hk Ek. rewrite (index_other _ _ _ _ _ Ha2) in Ek by (intros ->; contradiction). apply (HE k); [right|]; auto.
    + intros Q. apply HP. lia.
    + split; auto. split; auto. cbn [snd] in B. rewrite B, R1, zlen_cons. pose proof (zlen_nonneg l). lia.
Qed.
Lemma empty_all chs j fc : buffers_empty chs = true -> index chs j = Ok fc -> fc_buffer fc = [].
Proof.
  intros B E. apply index_inv in E. destruct E as [_ E]. apply nth_error_In in E. unfold buffers_empty in B. rewrite forallb_forall in B.
  specialize (B _ E). now destruct (fc_buffer fc).
Qed.
Lemma zlen_range n : 0 <= n -> zlen (range n) = n.
Proof. intros H. unfold zlen. rewrite length_range. lia. Qed.
Lemma round_blocks p n d d' : 0 < n -> u16s (snd d) -> buffers_empty (fst (fst d)) = true -> foldM (decode_channel p) (range n) d = Ok d' ->
  u16s (snd d') /\ readable (snd d') = Z.max 0 (readable (snd d) - n) /\
  peak (fst (fst d')) <= (if 0 <? readable (snd d) then 65535 else 0) /\ blocks_left n d' <= blocks_left n d.
Proof.
  intros Hn HU HB H. destruct d as [[chs s] hs]. cbn [fst snd] in *. set (M := if 0 <? readable hs then 65535 else 0).
  assert (HM : 0 <= M) by (subst M; destruct (0 <? _); lia). pose proof (proj1 (peak_empty chs) HB) as P0.
  destruct (round_peak p (range n) M (range_nodup n) _ _ H HM) as (A & B & C); cbn [fst snd]; auto.
  - apply peak_le; [exact HM|]. rewrite P0. exact HM.
  - intros j fc _ E. eapply empty_all; eauto.
  - intros Q. subst M. destruct (Z.ltb_spec 0 (readable hs)); lia.
  - cbn [snd] in B. rewrite zlen_range in B by lia. split; [auto|]. split; [auto|]. assert (PM : peak (fst (fst d')) <= M) by (apply peak_le; auto).
    split; [exact PM|]. destruct d' as [[chs' s'] hs']. cbn [fst snd blocks_left] in *. rewrite P0, B.
    subst M. destruct (Z.ltb_spec 0 (readable hs)) as [Q|Q].
    + rewrite up_next by lia. lia.
    + assert (readable hs = 0) as -> by (unfold readable in *; lia). rewrite Z.max_l by lia. lia.
Qed.
Lemma buffer_audio_blocks p n fuel d d' k : 0 < n -> u16s (snd d) -> buffer_audio p n fuel d = Ok (d', k) ->
  u16s (snd d') /\ blocks_left n d' <= blocks_left n d.
Proof.
  intros Hn. revert d d' k; induction fuel as [|fuel IH]; intros d d' k HU H; cbn [buffer_audio] in H; [injection H as <- _; split; [auto|lia]|].
  destruct d as [[chs s] hs] eqn:E. destruct (buffers_empty chs) eqn:B; [|injection H as <- _; split; [auto|lia]].
  inv_bind H. inv_bind H. destruct a0 as [e m]. injection H as <- _.
  destruct (round_blocks _ _ _ _ Hn HU B Ha) as (U1 & _ & _ & L1). destruct (IH _ _ _ U1 Ha0) as [U2 L2]. split; [auto|lia].
Qed.

(** ** The loop *)
Lemma decode_loop_blocks p n fuel q d d' out : 0 < n -> zlen (fst (fst d)) = n -> u16s (snd d) ->
  decode_loop p n fuel (q * n) d = Ok (d', out) ->
  u16s (snd d') /\ zlen (fst (fst d')) = n /\ zlen out + n * blocks_left n d' <= n * blocks_left n d.
Proof.
  intros Hn. revert q d d' out; induction fuel as [|fuel IH]; intros q d d' out HZ HU H; cbn [decode_loop] in H; [discriminate|].
  destruct (Z.ltb_spec 0 (q * n)) as [H0|H0]; [|injection H as <- <-; change (zlen (@nil f32)) with 0; split; [auto|split; [auto|lia]]].
  inv_bind H. destruct a as [d1 k]. destruct (buffer_audio_keeps _ _ _ _ _ _ Ha) as [[Z1 _] B].
  destruct (buffer_audio_blocks _ _ _ _ _ _ Hn HU Ha) as [U1 L1].
  destruct (Nat.leb_spec MAX_DECODE_ATTEMPTS k); [injection H as <- <-; change (zlen (@nil f32)) with 0; split; [auto|split; [congruence|nia]]|].
  specialize (B ltac:(assumption)). destruct d1 as [[chs s] hs]. cbn [fst snd] in *.
  assert (Q1 : 0 < q) by (apply (Z.mul_pos_cancel_r q n); lia). assert (R : n <= q * n) by (clear - Q1 Hn; nia).
  assert (ZC : zlen chs = n) by congruence. rewrite <- ZC in H at 1. rewrite (pop_block_spec (Z.to_nat n) chs 0 (q * n)) in H by lia.
  change (Z.to_nat 0) with 0%nat in H. cbn [firstn skipn app bind] in H. inv_bind H. destruct a as [d2 o3]. injection H as <- <-.
  rewrite zlen_map, ZC in Ha0. replace (q * n - n) with ((q - 1) * n) in Ha0 by lia.
  destruct (IH (q - 1) (map popc chs, s, hs) d2 o3 ltac:(cbn [fst]; rewrite zlen_map; exact ZC) U1 Ha0) as (I1 & I2 & I3).
  split; [auto|]. split; [auto|]. rewrite zlen_app, zlen_map, ZC. cbn [blocks_left] in I3, L1.
  assert (P : 1 <= peak chs). { pose proof (peak_nonneg chs). destruct (Z.eq_dec (peak chs) 0) as [X|X]; [|lia]. apply peak_empty in X. congruence. }
  rewrite peak_pop, Z.max_r in I3 by lia. nia.
Qed.
Lemma decode_blocks p c info buf c' out r : ad_info c = Ok info -> 0 < si_channels info -> zlen (ad_channels c) = si_channels info -> u16s (ad_headers c) ->
  ad_decode p c buf = Ok (c', out, r) -> let n := si_channels info in
  ad_info c' = Ok info /\ zlen (ad_channels c') = n /\ u16s (ad_headers c') /\
  match r with Some k => k | None => 0 end + n * blocks_left n (codec_state c') <= n * blocks_left n (codec_state c).
Proof.
  intros EI Hn HZ HU H n. unfold ad_decode in H. rewrite EI in H. cbn [bind] in H. fold n in H, Hn, HZ. inv_bind H. inv_bind H.
  destruct a0 as [[[chs s] hs] o]. injection H as <- _ <-.
  destruct (decode_loop_blocks _ _ _ _ (ad_channels c, as_stream (ad_stream c), ad_headers c) _ _ Hn HZ HU Ha0) as (U & Z' & B). cbn [fst snd] in *. fold (codec_state c) in B.
  split; [exact EI|]. split; [exact Z'|]. split; [exact U|]. unfold codec_state at 1. cbn [ad_channels ad_stream as_stream ad_headers].
  destruct (Z.ltb_spec 0 (zlen o)); pose proof (zlen_nonneg o); lia.
Qed.
Lemma blocks_nonneg n d : 0 < n -> 0 <= blocks_left n d.
Proof. intros H. destruct d as [[chs s] hs]. cbn [blocks_left]. pose proof (peak_nonneg chs). pose proof (up_nonneg (readable hs) n H ltac:(unfold readable; lia)). lia. Qed.
Lemma played_blocks p info bufs c : ad_info c = Ok info -> 0 < si_channels info -> zlen (ad_channels c) = si_channels info -> u16s (ad_headers c) ->
  played p c bufs <= si_channels info * blocks_left (si_channels info) (codec_state c).
Proof.
  intros EI Hn. revert c EI; induction bufs as [|buf bufs IH]; intros c EI HZ HU; cbn [played].
  - pose proof (blocks_nonneg (si_channels info) (codec_state c) Hn). nia.
  - destruct (ad_decode p c buf) as [[[c' out] r]| |] eqn:E; try (pose proof (blocks_nonneg (si_channels info) (codec_state c) Hn); nia).
    destruct (decode_blocks _ _ _ _ _ _ _ EI Hn HZ HU E) as (A & B & C & D). specialize (IH _ A B C). lia.
Qed.

(** ** A table of full frames, in a release build *)
Definition full_frames (hs : frame_headers) : Prop := Forall (fun x => x = 65535) (fhs_sizes hs).
Lemma readable_left hs : table_ok hs -> readable hs = left hs.
Proof. intros [T1 T2 T3 T4 T5 T6]. unfold readable, left. lia. Qed.
Lemma table_u16s hs : table_ok hs -> u16s hs.
Proof. intros [T1 T2 T3 T4 T5 T6]. split; [exact T5|]. split; [exact T6|lia]. Qed.
Lemma good_table L d : good L d -> table_ok (snd d).
Proof. destruct d as [[chs s] hs]. intros H. apply H. Qed.
Lemma peak_replace chs j c d : (j < length chs)%nat -> zlen (fc_buffer (nth j chs d)) <= zlen (fc_buffer c) ->
  peak chs <= peak (replace_nth j chs c) /\ zlen (fc_buffer c) <= peak (replace_nth j chs c).
Proof.
  unfold peak. revert j; induction chs as [|x chs IH]; intros [|j] Hj H; cbn [length nth replace_nth map fold_right] in *; try lia.
  destruct (IH j ltac:(lia) H). lia.
Qed.
Lemma shape_sizes hs st n hs' st' n' : (hs', st', n') = frame_shape hs st n -> fhs_sizes hs' = fhs_sizes hs.
Proof. unfold frame_shape. destruct (_ <? _); intros E; injection E as -> _ _; reflexivity. Qed.
Lemma shape_grows hs st n hs' st' n' : table_ok hs -> (hs', st', n') = frame_shape hs st n -> n <= n'.
Proof.
  intros HT. unfold frame_shape. destruct (Z.ltb_spec (fhs_cursor hs) (fhs_len hs)) as [Q|Q]; intros E; apply (f_equal snd) in E; cbn [snd] in E; [|lia].
  assert (0 <= nth (Z.to_nat (fhs_cursor hs)) (fhs_sizes hs) 0).
  { pose proof (to_sizes _ HT). pose proof (to_range _ HT) as T5. pose proof (to_cursor _ HT). rewrite Forall_forall in T5. apply T5, nth_In. unfold zlen in *. lia. }
  destruct st; lia.
Qed.
Lemma channel_full L d j : good L d -> 0 <= j < zlen (channels_of d) ->
  exists d', decode_channel Release d j = Ok d' /\ good L d' /\ zlen (channels_of d') = zlen (channels_of d) /\
    fhs_sizes (snd d') = fhs_sizes (snd d) /\ peak (channels_of d) <= peak (channels_of d') /\
    (full_frames (snd d) -> 0 < left (snd d) -> 65535 <= peak (channels_of d')).
Proof.
  intros HG Hj. destruct (decode_channel_good L d j HG Hj) as (d' & E & G' & _ & Z' & c' & K & F). exists d'. split; [exact E|]. split; [exact G'|].
  split; [exact Z'|]. pose proof (good_table _ _ HG) as HT. unfold headers_in in F. pose proof (shape_sizes _ _ _ _ _ _ F) as FS.
  pose proof (shape_grows _ _ _ _ _ _ HT F) as FG. split; [exact FS|].
  destruct (peak_replace (channels_of d) (Z.to_nat j) c' fc_new) as [P1 P2]; [unfold zlen in Hj; lia|exact FG|]. rewrite K. split; [exact P1|].
  intros HF HL. eapply Z.le_trans; [|exact P2]. unfold frame_shape in F. unfold left in HL.
  destruct (Z.ltb_spec (fhs_cursor (snd d)) (fhs_len (snd d))) as [Q|Q]; [|lia]. apply (f_equal snd) in F. cbn [snd] in F. rewrite F.
  assert (N : nth (Z.to_nat (fhs_cursor (snd d))) (fhs_sizes (snd d)) 0 = 65535).
  { destruct HT as [T1 T2 T3 T4 T5 T6]. unfold full_frames in HF. rewrite Forall_forall in HF. apply HF, nth_In. unfold zlen in *. lia. }
  rewrite N. pose proof (zlen_nonneg (fc_buffer (nth (Z.to_nat j) (channels_of d) fc_new))). destruct (fc_state _); lia.
Qed.
Lemma fold_full L l : forall d, good L d -> (forall j, In j l -> 0 <= j < zlen (channels_of d)) ->
  exists d', foldM (decode_channel Release) l d = Ok d' /\ good L d' /\ zlen (channels_of d') = zlen (channels_of d) /\
    fhs_sizes (snd d') = fhs_sizes (snd d) /\ peak (channels_of d) <= peak (channels_of d').
Proof.
  induction l as [|j l IH]; intros d HG HJ; cbn [foldM].
  - exists d. split; [reflexivity|]. split; [auto|]. split; [auto|]. split; [auto|lia].
  - destruct (channel_full L d j HG (HJ j (or_introl eq_refl))) as (d1 & E & G1 & Z1 & S1 & P1 & _). rewrite E. cbn [bind].
    destruct (IH d1 G1) as (d2 & E2 & G2 & Z2 & S2 & P2); [intros k Hk; rewrite Z1; apply HJ; now right|].
    exists d2. split; [exact E2|]. split; [exact G2|]. split; [congruence|]. split; [congruence|lia].
Qed.
Lemma range_cons n : 0 < n -> exists l, range n = 0 :: l.
Proof. intros H. unfold range. destruct (Z.to_nat n) eqn:E; [lia|]. cbn [seq map]. eauto. Qed.
Lemma round_full L n d : good L d -> 0 < n -> zlen (channels_of d) = n -> full_frames (snd d) -> 0 < left (snd d) ->
  exists d', foldM (decode_channel Release) (range n) d = Ok d' /\ good L d' /\ zlen (channels_of d') = n /\ full_frames (snd d') /\
    65535 <= peak (channels_of d').
Proof.
  intros HG Hn HZ HF HL. destruct (range_cons n Hn) as [l El]. rewrite El. cbn [foldM].
  assert (HJ : forall j, In j (0 :: l) -> 0 <= j < n) by (intros j Hj; rewrite <- El in Hj; now apply in_range).
  destruct (channel_full L d 0 HG) as (d1 & E & G1 & Z1 & S1 & _ & P1); [lia|]. rewrite E. cbn [bind].
  destruct (fold_full L l d1 G1) as (d2 & E2 & G2 & Z2 & S2 & P2); [intros k Hk; rewrite Z1, HZ; apply HJ; now right|].
  exists d2. split; [exact E2|]. split; [exact G2|]. split; [congruence|]. split; [unfold full_frames in *; rewrite S2, S1; exact HF|]. specialize (P1 HF HL). lia.
Qed.
Record filled (L n B : Z) (d : dstate) : Prop := {
  fd_good : good L d;
  fd_channels : zlen (channels_of d) = n;
  fd_full : full_frames (snd d);
  fd_blocks : blocks_left n d = B }.
Lemma alike_refl L d : good L d -> alike L L d d.
Proof. intros H. constructor; auto. unfold channels_of. generalize (fst (fst d)). induction l; constructor; auto. split; reflexivity. Qed.
Lemma buffer_full L n B d : 0 < n -> filled L n B d -> exists d' k, buffer_audio Release n MAX_DECODE_ATTEMPTS d = Ok (d', k) /\
  filled L n B d' /\ (if 0 <? B then (k < MAX_DECODE_ATTEMPTS)%nat else (MAX_DECODE_ATTEMPTS <= k)%nat).
Proof.
  intros Hn [HG HZ HF HB]. pose proof (good_table _ _ HG) as HT. pose proof (table_u16s _ HT) as HU. pose proof (readable_left _ HT) as RL.
  destruct d as [[chs s] hs]. unfold channels_of in HZ. cbn [fst snd blocks_left] in *.
  pose proof (peak_nonneg chs) as P0. pose proof (up_nonneg (readable hs) n Hn ltac:(unfold readable; lia)) as R0.
  destruct (buffers_empty chs) eqn:BE.
  2: { assert (0 < peak chs). { destruct (Z.eq_dec (peak chs) 0) as [X|X]; [|lia]. apply peak_empty in X. congruence. }
    exists (chs, s, hs), 0%nat. split; [cbn; rewrite BE; reflexivity|]. split; [constructor; auto|]. destruct (Z.ltb_spec 0 B); [unfold MAX_DECODE_ATTEMPTS; lia|lia]. }
  pose proof (proj1 (peak_empty chs) BE) as PE. destruct (Z.ltb_spec 0 (left hs)) as [HL|HL].
  - destruct (round_full L n (chs, s, hs) HG Hn HZ HF HL) as (d1 & E & G1 & Z1 & F1 & P1).
    destruct (round_blocks Release n (chs, s, hs) d1 Hn HU BE E) as (_ & R1 & Q1 & _). cbn [fst snd] in *.
    assert (BE1 : buffers_empty (fst (fst d1)) = false).
    { destruct (buffers_empty (fst (fst d1))) eqn:X; auto. apply peak_empty in X. unfold channels_of in P1. lia. }
    exists d1, 1%nat. assert (EB : blocks_left n d1 = B).
    { unfold channels_of in P1. destruct d1 as [[chs1 s1] hs1]. cbn [fst snd blocks_left] in *. rewrite R1, up_next by lia.
      destruct (Z.ltb_spec 0 (readable hs)); lia. }
    split; [|split; [constructor; auto|]].
    + unfold MAX_DECODE_ATTEMPTS. cbn [buffer_audio]. rewrite BE, E. cbn [bind]. destruct d1 as [[chs1 s1] hs1]. cbn [fst] in BE1. rewrite BE1. reflexivity.
    + assert (1 <= rounded_up (readable hs) n).
      { unfold rounded_up. apply Z.div_le_lower_bound; lia. }
      destruct (Z.ltb_spec 0 B); [unfold MAX_DECODE_ATTEMPTS; lia|lia].
  - assert (RZ : readable hs = 0) by (rewrite RL; unfold left in *; lia). rewrite RZ, up_zero in HB by lia.
    destruct (buffer_audio_alike L L n MAX_DECODE_ATTEMPTS _ _ (alike_refl L _ HG) ltac:(unfold channels_of; cbn [fst]; lia)) as (d1 & d2 & k & E & _ & A & Z1 & _ & BF).
    destruct (buffer_audio_blocks Release n MAX_DECODE_ATTEMPTS (chs, s, hs) d1 k Hn HU E) as [U1 LE]. cbn [blocks_left] in LE. rewrite RZ, up_zero, PE in LE by lia.
    pose proof (blocks_nonneg n d1 Hn). exists d1, k. split; [exact E|]. split.
    + constructor; [exact (al_1 _ _ _ _ A)|rewrite Z1; exact HZ| |lia].
      assert (X : fhs_sizes (snd d1) = fhs_sizes hs); [|unfold full_frames in *; rewrite X; exact HF].
      rewrite (buffer_audio_table _ _ _ _ _ _ E). reflexivity.
    + destruct (Z.ltb_spec 0 B); [lia|]. destruct (Nat.ltb_spec k MAX_DECODE_ATTEMPTS) as [Q|Q]; [|exact Q]. specialize (BF Q). exfalso.
      destruct d1 as [[chs1 s1] hs1]. unfold channels_of in BF. cbn [fst blocks_left] in *. pose proof (peak_nonneg chs1).
      pose proof (up_nonneg (readable hs1) n Hn ltac:(unfold readable; lia)). assert (peak chs1 = 0) as X by lia. apply peak_empty in X. congruence.
Qed.
Lemma loop_full L n fuel : 0 < n -> forall q B d, filled L n B d -> 0 <= q -> q < Z.of_nat fuel ->
  exists d' out, decode_loop Release n fuel (q * n) d = Ok (d', out) /\ zlen out = n * Z.min q B /\ filled L n (B - Z.min q B) d'.
Proof.
  intros Hn. induction fuel as [|fuel IH]; intros q B d HD Hq Hf; [lia|]. cbn [decode_loop].
  assert (B0 : 0 <= B) by (rewrite <- (fd_blocks _ _ _ _ HD); now apply blocks_nonneg).
  destruct (Z.ltb_spec 0 (q * n)) as [H0|H0].
  2: { assert (q = 0) by nia. subst q. exists d, []. split; [reflexivity|]. change (zlen (@nil f32)) with 0. rewrite Z.min_l by lia.
    split; [lia|]. now rewrite Z.sub_0_r. }
  destruct (buffer_full L n B d Hn HD) as (d1 & k & E & F1 & K). rewrite E. cbn [bind].
  destruct (Nat.leb_spec MAX_DECODE_ATTEMPTS k) as [Q|Q].
  { destruct (Z.ltb_spec 0 B); [lia|]. exists d1, []. split; [reflexivity|]. change (zlen (@nil f32)) with 0. rewrite Z.min_r by lia.
    split; [lia|]. replace (B - B) with B by lia. exact F1. }
  assert (BP : 0 < B) by (destruct (Z.ltb_spec 0 B); [auto|lia]).
  destruct (buffer_audio_keeps _ _ _ _ _ _ E) as [_ BE]. specialize (BE Q). destruct F1 as [G1 Z1 L1 B1].
  destruct d1 as [[chs s] hs]. unfold channels_of in Z1. cbn [fst snd] in *.
  assert (Q1 : 0 < q) by (apply (Z.mul_pos_cancel_r q n); lia). assert (R : n <= q * n) by (clear - Q1 Hn; nia).
  pose proof (pop_block_spec (Z.to_nat n) chs 0 (q * n) ltac:(lia) ltac:(lia) ltac:(lia)) as PB. rewrite Z1 in PB. rewrite PB. clear PB.
  change (Z.to_nat 0) with 0%nat. cbn [firstn skipn app bind]. rewrite zlen_map, Z1. replace (q * n - n) with ((q - 1) * n) by lia.
  assert (P : 1 <= peak chs). { pose proof (peak_nonneg chs). destruct (Z.eq_dec (peak chs) 0) as [X|X]; [|lia]. apply peak_empty in X. congruence. }
  destruct (IH (q - 1) (B - 1) (map popc chs, s, hs)) as (d2 & o & E2 & Z2 & F2); [|lia|lia|].
  { constructor; [apply pop_good; exact G1|unfold channels_of; cbn [fst]; rewrite zlen_map; exact Z1|exact L1|].
    cbn [blocks_left] in *. rewrite peak_pop, Z.max_r by lia. lia. }
  rewrite E2. cbn [bind]. eexists _, _. split; [reflexivity|]. rewrite zlen_app, zlen_map, Z1, Z2.
  replace (Z.min q B) with (1 + Z.min (q - 1) (B - 1)) by lia. split; [lia|]. replace (B - (1 + Z.min (q - 1) (B - 1))) with (B - 1 - Z.min (q - 1) (B - 1)) by lia. exact F2.
Qed.
Lemma decode_full L B c info buf : ad_info c = Ok info -> let n := si_channels info in 0 < n -> filled L n B (codec_state c) ->
  exists c' out, ad_decode Release c buf = Ok (c', out, if 0 <? n * Z.min (zlen buf / n) B then Some (n * Z.min (zlen buf / n) B) else None) /\
    ad_info c' = Ok info /\ filled L n (B - Z.min (zlen buf / n) B) (codec_state c') /\ zlen out = zlen buf.
Proof.
  intros EI n Hn HF. unfold ad_decode. rewrite EI. cbn [bind]. fold n. rewrite udiv_ok by lia. cbn [bind].
  assert (Q0 : 0 <= zlen buf / n) by (apply Z.div_pos; [apply zlen_nonneg|lia]).
  assert (Q1 : zlen buf / n <= zlen buf) by (apply Z.div_le_upper_bound; [lia|]; pose proof (zlen_nonneg buf); nia).
  destruct (loop_full L n (S (length buf)) Hn (zlen buf / n) B _ HF Q0 ltac:(unfold zlen in *; lia)) as (d & o & E & Zo & F).
  unfold codec_state in E. rewrite E. cbn [bind]. destruct d as [[chs s] hs]. rewrite Zo. eexists _, _. split; [reflexivity|]. split; [exact EI|].
  split; [exact F|]. pose proof (Z.mul_div_le (zlen buf) n Hn).
  assert (zlen o <= zlen buf) by (rewrite Zo; nia). rewrite zlen_map, zlen_app. unfold zlen in *. rewrite skipn_length. lia.
Qed.
