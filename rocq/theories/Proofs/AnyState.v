(** * Facts that hold in every codec state, reachable or not *)
From Coq Require Import ZArith List Bool Lia FinFun.
From Verif Require Import Model.Base Model.F32 Model.Sample Model.BitStream Model.CircularStack Model.Frame Model.Adhoc
  Spec.Recording Spec.Frames Proofs.BaseFacts Proofs.SignalFacts.
Import ListNotations.
Open Scope Z_scope.

(** ** Playing back leaves the frame table alone, except for the cursor *)
Definition same_table (hs hs' : frame_headers) : Prop := hs' = fhs_set_cursor hs (fhs_cursor hs').
Lemma same_table_refl hs : same_table hs hs.
Proof. destruct hs. reflexivity. Qed.
Lemma same_table_trans a b c : same_table a b -> same_table b c -> same_table a c.
Proof. unfold same_table. intros -> ->. reflexivity. Qed.
Lemma same_table_set hs n : same_table hs (fhs_set_cursor hs n).
Proof. reflexivity. Qed.
Lemma same_table_get hs hs' i : same_table hs hs' -> fhs_get hs' i = fhs_get hs i.
Proof. intros ->. reflexivity. Qed.
Lemma same_table_len hs hs' : same_table hs hs' -> fhs_len hs' = fhs_len hs.
Proof. intros ->. reflexivity. Qed.
Lemma fhs_next_table p hs hs' h : fhs_next p hs = Ok (hs', h) -> same_table hs hs'.
Proof.
  unfold fhs_next. destruct (_ <? _).
  - intros H. do 4 inv_bind H. injection H as <- _. reflexivity.
  - intros [= <- _]. apply same_table_refl.
Qed.
Lemma decode_frame_table p c s hs c' s' hs' : decode_frame p c s hs = Ok (c', s', hs') -> same_table hs hs'.
Proof.
  unfold decode_frame. intros H. inv_bind H. destruct a as [hs1 oh]. apply fhs_next_table in Ha.
  destruct oh as [hd|]; [|injection H as _ _ <-; exact Ha].
  destruct (fc_state c); [| discriminate |].
  - inv_bind H. destruct a as [s1 h1]. inv_bind H. destruct a as [[s2 h2] b2]. injection H as _ _ <-. exact Ha.
  - inv_bind H. destruct a as [[s2 h2] b2]. injection H as _ _ <-. exact Ha.
Qed.
Definition d_headers (d : dstate) : frame_headers := snd d.
Lemma decode_channel_table p d j d' : decode_channel p d j = Ok d' -> same_table (snd d) (snd d').
Proof.
  destruct d as [[chs s] hs]. unfold decode_channel. intros H. inv_bind H. inv_bind H. destruct a0 as [[c2 s2] hs2].
  inv_bind H. injection H as <-. eapply decode_frame_table; eauto.
Qed.
Lemma foldM_rel {S X} (f : S -> X -> outcome S) (R : S -> S -> Prop) :
  (forall s, R s s) -> (forall a b c, R a b -> R b c -> R a c) ->
  (forall s x s', f s x = Ok s' -> R s s') ->
  forall l s s', foldM f l s = Ok s' -> R s s'.
Proof.
  intros R0 R1 HF l. induction l as [|x l IH]; intros s s' H; cbn [foldM] in H.
  - injection H as <-. auto.
  - inv_bind H. eauto.
Qed.
Lemma buffer_audio_table p n fuel d d' k : buffer_audio p n fuel d = Ok (d', k) -> same_table (snd d) (snd d').
Proof.
  revert d d' k; induction fuel as [|fuel IH]; intros d d' k H; cbn [buffer_audio] in H.
  - injection H as <- _. apply same_table_refl.
  - destruct d as [[chs s] hs]. destruct (buffers_empty chs); [|injection H as <- _; apply same_table_refl].
    inv_bind H. inv_bind H. destruct a0 as [d2 n2]. injection H as <- _.
    apply (same_table_trans _ (snd a)); [|eauto].
    eapply (foldM_rel (decode_channel p) (fun a b => same_table (snd a) (snd b))) in Ha; eauto using same_table_refl, same_table_trans, decode_channel_table.
Qed.
Lemma decode_loop_table p n fuel room d d' out : decode_loop p n fuel room d = Ok (d', out) -> same_table (snd d) (snd d').
Proof.
  revert room d d' out; induction fuel as [|fuel IH]; intros room d d' out H; cbn [decode_loop] in H; [discriminate|].
  destruct (0 <? room); [|injection H as <- _; apply same_table_refl].
  inv_bind H. destruct a as [d1 k]. apply buffer_audio_table in Ha.
  destruct (_ <=? _)%nat; [injection H as <- _; exact Ha|].
  destruct d1 as [[chs s] hs]. inv_bind H. destruct a as [chs2 o2]. inv_bind H. destruct a as [d2 o3].
  injection H as <- _. apply IH in Ha1. eapply same_table_trans; [exact Ha|exact Ha1].
Qed.
Definition same_recording (c c' : adhoc) : Prop :=
  same_table (ad_headers c) (ad_headers c') /\ as_info (ad_stream c') = as_info (ad_stream c) /\
  ad_level c' = ad_level c /\ ad_scale c' = ad_scale c /\ ad_inv_scale c' = ad_inv_scale c.
Lemma same_recording_refl c : same_recording c c.
Proof. split; auto. apply same_table_refl. Qed.
Lemma same_recording_trans a b c : same_recording a b -> same_recording b c -> same_recording a c.
Proof. intros (A1 & A2 & A3 & A4 & A5) (B1 & B2 & B3 & B4 & B5). split; [eapply same_table_trans; eauto|]. repeat split; congruence. Qed.
Lemma init_same c : same_recording c (ad_init c).
Proof. split; auto. reflexivity. Qed.
Lemma decode_same p c buf c' out k : ad_decode p c buf = Ok (c', out, k) -> same_recording c c'.
Proof.
  unfold ad_decode. intros H. inv_bind H. inv_bind H. inv_bind H. destruct a1 as [[[chs s] hs] o].
  apply decode_loop_table in Ha1. cbn [snd] in Ha1. injection H as <- _ _. split; auto.
Qed.
Lemma seek_channel_table p start d j d' : seek_channel p start d j = Ok d' -> same_table (snd d) (snd d').
Proof.
  destruct d as [[chs s] hs]. unfold seek_channel. intros H. inv_bind H. inv_bind H. inv_bind H.
  destruct (fh_history a0) as [[h3 h2] h1]. inv_bind H. destruct a2 as [[c2 s2] hs2].
  inv_bind H. injection H as <-. eapply decode_frame_table; eauto.
Qed.
Lemma seek_same p c dt c' : ad_seek p c dt = Ok c' -> same_recording c c'.
Proof.
  unfold ad_seek. intros H. inv_bind H. destruct dt as [dt| |]; try discriminate.
  destruct (dt =? 0); [injection H as <-; apply init_same|].
  inv_bind H. inv_bind H. inv_bind H. destruct a2 as [skipped idx]. inv_bind H. inv_bind H. inv_bind H.
  destruct a4 as [[chs s] hs]. inv_bind H. injection H as <-.
  eapply (foldM_rel (seek_channel p _) (fun a b => same_table (snd a) (snd b))) in Ha5;
    eauto using same_table_refl, same_table_trans, seek_channel_table.
  cbn [snd] in Ha5. split; auto.
Qed.
Lemma play_same p ops c c' : play_all p ops c = Ok c' -> same_recording c c'.
Proof.
  apply foldM_rel; eauto using same_recording_refl, same_recording_trans. clear. intros c op c' H.
  destruct op; cbn [play] in H.
  - inv_bind H. destruct a as [[c1 o] k]. injection H as <-. eapply decode_same; eauto.
  - injection H as <-. apply init_same.
  - eapply seek_same; eauto.
Qed.
Lemma foldM_ext {S X} (f g : S -> X -> outcome S) l s : (forall s x, f s x = g s x) -> foldM f l s = foldM g l s.
Proof.
  intros E. revert s; induction l as [|x l IH]; intros s; cbn [foldM]; auto. rewrite E. destruct (g s x); cbn [bind]; auto.
Qed.
Lemma same_count p c c' : same_recording c c' -> ad_sample_count p c' = ad_sample_count p c.
Proof.
  intros (A1 & A2 & _). unfold ad_sample_count, ad_info. rewrite A2, (same_table_len _ _ A1).
  destruct (expect (as_info (ad_stream c))); cbn [bind]; auto.
  f_equal. apply foldM_ext. intros acc i. now rewrite (same_table_get _ _ _ A1).
Qed.

(** ** The shape of a decode call *)
Lemma pop_block_len chs n c fuel room chs' out : pop_block chs n c fuel room = Ok (chs', out) ->
  Z.of_nat fuel = n - c -> 0 <= room -> zlen out = Z.min room (n - c) .
Proof.
  revert chs c room chs' out; induction fuel as [|fuel IH]; intros chs c room chs' out H Hn Hr; cbn [pop_block] in H.
  - injection H as _ <-. change (zlen (@nil f32)) with 0. lia.
  - destruct (Z.ltb_spec 0 room); cbn [andb] in H; [|injection H as _ <-; change (zlen (@nil f32)) with 0; lia].
    destruct (Z.ltb_spec c n); [|lia]. inv_bind H. destruct (match fc_buffer a with [] => _ | _ => _ end) as [v rest].
    inv_bind H. inv_bind H. destruct a1 as [chs2 o2]. injection H as _ <-. apply IH in Ha1; try lia.
    rewrite zlen_cons, Ha1. lia.
Qed.
Lemma decode_loop_len p n fuel room d d' out : 0 < n -> (exists q, room = q * n) -> 0 <= room ->
  decode_loop p n fuel room d = Ok (d', out) -> zlen out <= room /\ exists q, zlen out = q * n.
Proof.
  intros Hn. revert room d d' out; induction fuel as [|fuel IH]; intros room d d' out [q Hq] H0 H; cbn [decode_loop] in H; [discriminate|].
  assert (Hz : zlen (@nil f32) <= room /\ exists q, zlen (@nil f32) = q * n).
  { change (zlen (@nil f32)) with 0. split; [lia|exists 0; lia]. }
  destruct (Z.ltb_spec 0 room); [|injection H as _ <-; exact Hz].
  inv_bind H. destruct a as [d1 k]. destruct (_ <=? _)%nat; [injection H as _ <-; exact Hz|].
  destruct d1 as [[chs s] hs]. inv_bind H. destruct a as [chs2 o2]. inv_bind H. destruct a as [d2 o3].
  injection H as _ <-. apply pop_block_len in Ha0; [|lia|lia].
  assert (1 <= q) by nia. assert (n <= room) by nia. rewrite Z.sub_0_r, Z.min_r in Ha0 by lia.
  rewrite Ha0 in Ha1. apply IH in Ha1; [|exists (q - 1); lia|lia]. destruct Ha1 as [B [q' E]].
  rewrite zlen_app, Ha0, E in *. split; [lia|exists (1 + q'); lia].
Qed.

(** ** Encoding never runs out of fuel *)
Definition nofuel {A} (o : outcome A) : Prop := o <> OutOfFuel.
Lemma nofuel_bind {A B} (m : outcome A) (f : A -> outcome B) :
  nofuel m -> (forall a, m = Ok a -> nofuel (f a)) -> nofuel (bind m f).
Proof. unfold nofuel. destruct m; cbn; intros; auto; congruence. Qed.
Lemma nofuel_ok {A} (a : A) : nofuel (Ok a).
Proof. discriminate. Qed.
Lemma nofuel_panic {A} r : nofuel (@Panic A r).
Proof. discriminate. Qed.
Lemma nofuel_uchk p w x : nofuel (uchk p w x).
Proof. unfold uchk. destruct (in_u w x), p; discriminate. Qed.
Lemma nofuel_schk p w x : nofuel (schk p w x).
Proof. unfold schk. destruct (in_s w x), p; discriminate. Qed.
Lemma nofuel_ushl p w x s : nofuel (ushl p w x s).
Proof. unfold ushl. destruct (_ && _), p; discriminate. Qed.
Lemma nofuel_sshl p w x s : nofuel (sshl p w x s).
Proof. unfold sshl. destruct (_ && _), p; discriminate. Qed.
Lemma nofuel_shr p w x s : nofuel (shr p w x s).
Proof. unfold shr. destruct (_ && _), p; discriminate. Qed.
Lemma nofuel_index {A} (l : list A) i : nofuel (index l i).
Proof. unfold index. destruct (_ && _); [destruct (nth_error _ _)|]; discriminate. Qed.
Lemma nofuel_store {A} (l : list A) i a : nofuel (store l i a).
Proof. unfold store. destruct (_ && _); discriminate. Qed.
Lemma nofuel_slice {A} (l : list A) i : nofuel (slice_from l i).
Proof. unfold slice_from. destruct (_ && _); discriminate. Qed.
Lemma nofuel_expect {A} (o : option A) : nofuel (expect o).
Proof. destruct o; discriminate. Qed.
Lemma nofuel_udiv a b : nofuel (udiv a b).
Proof. unfold udiv. destruct (_ =? _); discriminate. Qed.
Create HintDb nofuel.
Global Hint Resolve nofuel_ok nofuel_panic nofuel_uchk nofuel_schk nofuel_ushl nofuel_sshl nofuel_shr nofuel_index nofuel_store
  nofuel_slice nofuel_expect nofuel_udiv : nofuel.
Ltac nf := intros; repeat first
  [ solve [eauto with nofuel]
  | apply nofuel_bind; [|intros]
  | match goal with
    | |- nofuel (match ?x with _ => _ end) => destruct x
    | |- nofuel (let '(_, _) := ?x in _) => destruct x
    end ].
Lemma nofuel_mapM {A B} (f : A -> outcome B) l : (forall a, nofuel (f a)) -> nofuel (mapM f l).
Proof. intros H. induction l; cbn [mapM]; nf. Qed.
Lemma nofuel_foldM {S X} (f : S -> X -> outcome S) l s : (forall s x, nofuel (f s x)) -> nofuel (foldM f l s).
Proof. intros H. revert s; induction l; intros s; cbn [foldM]; nf. Qed.
Lemma nofuel_offset p s n : nofuel (offset_bit_cursor p s n).
Proof. unfold offset_bit_cursor. nf. Qed.
Global Hint Resolve nofuel_offset : nofuel.
Lemma nofuel_write_bits p s v n : nofuel (write_bits p s v n).
Proof. unfold write_bits. nf. Qed.
Lemma nofuel_write_bit p s v : nofuel (write_bit p s v).
Proof. unfold write_bit. nf. Qed.
Global Hint Resolve nofuel_write_bits nofuel_write_bit : nofuel.
Lemma nofuel_write_unary p fuel s q : q <= 128 * (Z.of_nat fuel - 1) -> (0 < fuel)%nat -> nofuel (write_unary p fuel s q).
Proof.
  revert s q; induction fuel as [|fuel IH]; intros s q Hq Hf; [lia|]. cbn [write_unary].
  destruct (Z.ltb_spec 0 q); [|nf]. destruct (Z.ltb_spec 128 q); [|nf].
  apply nofuel_bind; [nf|]. intros s' _. apply IH; lia.
Qed.
Lemma swrap16 x : -32768 <= swrap 16 x <= 32767.
Proof. unfold swrap. change (2 ^ 16) with 65536. change (2 ^ (16 - 1)) with 32768. pose proof (Z.mod_pos_bound (x + 32768) 65536). lia. Qed.
Lemma schk16 p x y : schk p 16 x = Ok y -> -32768 <= y <= 32767.
Proof.
  unfold schk, in_s. change (2 ^ (16 - 1)) with 32768.
  destruct (_ && _) eqn:B; intros E.
  - apply andb_prop in B. injection E as <-. lia.
  - destruct p; [discriminate|]. injection E as <-. apply swrap16.
Qed.
Lemma shiftr_le x e : 0 <= e -> x <= 32767 -> Z.shiftr x e <= 32767.
Proof.
  intros He H. rewrite Z.shiftr_div_pow2 by auto. assert (0 < 2 ^ e) by (apply Z.pow_pos_nonneg; lia).
  destruct (Z.neg_nonneg_cases x).
  - assert (x / 2 ^ e < 0) by (apply Z.div_lt_upper_bound; lia). lia.
  - assert (x / 2 ^ e <= x); [|lia]. apply Z.div_le_upper_bound; nia.
Qed.
Lemma shr_le p x e y : x <= 32767 -> shr p 16 x e = Ok y -> y <= 32767.
Proof.
  intros H. unfold shr, in_u. destruct (Z.leb_spec 0 e); cbn [andb].
  - destruct ((e <? 2 ^ 32) && (e <? 16)).
    + intros [= <-]. now apply shiftr_le.
    + destruct p; [discriminate|]. intros [= <-]. apply shiftr_le; auto. apply Z.mod_pos_bound. lia.
  - destruct p; [discriminate|]. intros [= <-]. apply shiftr_le; auto. apply Z.mod_pos_bound. lia.
Qed.
Lemma nofuel_write_compressed p s e v : nofuel (write_compressed p s e v).
Proof.
  unfold write_compressed. apply nofuel_bind; [nf|]. intros mag Hm. apply nofuel_bind; [nf|]. intros q Hq.
  apply schk16 in Hm. apply shr_le in Hq; [|lia].
  do 4 (apply nofuel_bind; [nf|intros ? _]). apply nofuel_bind; [apply nofuel_write_unary; lia|]. nf.
Qed.
Global Hint Resolve nofuel_write_compressed : nofuel.
Lemma nofuel_encode_samples p s h e l : nofuel (encode_samples p s h e l).
Proof. revert s h; induction l; intros s h; cbn [encode_samples]; nf. Qed.
Lemma nofuel_encode_raw p s h pcm ks : nofuel (encode_raw p s h pcm ks).
Proof. revert s h; induction ks; intros s h; cbn [encode_raw]; unfold write_typed; nf. Qed.
Lemma nofuel_add_costs p t e : nofuel (add_costs p t e).
Proof. unfold add_costs. apply nofuel_mapM. intros [k sum]. unfold cost_of. nf. Qed.
Lemma nofuel_sum_costs p h l t : nofuel (sum_costs p h l t).
Proof. revert h t; induction l; intros h t; cbn [sum_costs]; [nf|]. apply nofuel_bind; [apply nofuel_add_costs|nf]. Qed.
Lemma nofuel_exponent p h l : nofuel (compute_optimal_divisor_exponent p h l).
Proof. unfold compute_optimal_divisor_exponent. apply nofuel_bind; [apply nofuel_sum_costs|nf]. Qed.
Lemma nofuel_push p hs h : nofuel (fhs_push p hs h).
Proof. unfold fhs_push, NibbleList.nl_push, BitVec.bv_push, BitVec.bv_offset_cursor. nf. Qed.
Global Hint Resolve nofuel_encode_samples nofuel_encode_raw nofuel_exponent nofuel_push : nofuel.
Lemma nofuel_encode_frame p c s hs pcm : nofuel (encode_frame p c s hs pcm).
Proof. unfold encode_frame. nf. Qed.
Lemma nofuel_rand p s : nofuel (Noise.rand p s).
Proof. unfold Noise.rand. nf. Qed.
Global Hint Resolve nofuel_encode_frame nofuel_rand : nofuel.
Lemma nofuel_dither p inv s l : nofuel (dither p inv s l).
Proof. revert s; induction l; intros s; cbn [dither]; unfold Noise.triangle_next; nf. Qed.
Lemma nofuel_encode_channel p pcm n k c j : nofuel (encode_channel p pcm n k c j).
Proof.
  unfold encode_channel, deinterleave. apply nofuel_bind; [apply nofuel_mapM; nf|]. intros l _.
  apply nofuel_bind; [apply nofuel_dither|]. nf.
Qed.
Lemma nofuel_encode p c pcm : nofuel (ad_encode p c pcm).
Proof.
  unfold ad_encode. do 2 (apply nofuel_bind; [nf|intros ? _]). apply nofuel_bind; [|nf].
  apply nofuel_foldM. intros. apply nofuel_encode_channel.
Qed.
Lemma encode_panics p c pcm : (forall r, ad_encode p c pcm <> Ok r) -> panics (ad_encode p c pcm).
Proof. intros H. pose proof (nofuel_encode p c pcm) as N. destruct (ad_encode p c pcm) as [a|r|]; [destruct (H a); auto|exists r; auto|destruct N; auto]. Qed.

(** ** Channel states over a session *)
Definition chan_ok (fc : frame_codec) : Prop := fc_buffer fc <> [] -> fc_state fc = CDecoding.
Definition good (info : stream_info) (c : adhoc) : Prop :=
  as_info (ad_stream c) = Some info /\ zlen (ad_channels c) = si_channels info /\ Forall chan_ok (ad_channels c).
Lemma Forall_index {A} (P : A -> Prop) l i a : Forall P l -> index l i = Ok a -> P a.
Proof. intros H E. apply index_inv in E. destruct E as [_ E]. apply nth_error_In in E. rewrite Forall_forall in H. auto. Qed.
Lemma Forall_replace {A} (P : A -> Prop) l n a : Forall P l -> P a -> Forall P (replace_nth n l a).
Proof. intros H Ha. revert n; induction H; intros [|n]; cbn [replace_nth]; constructor; auto. Qed.
Lemma Forall_store {A} (P : A -> Prop) l i a l' : Forall P l -> P a -> store l i a = Ok l' -> Forall P l'.
Proof. intros H Ha E. apply store_inv in E. destruct E as [_ ->]. now apply Forall_replace. Qed.
Lemma zlen_store {A} (l : list A) i a l' : store l i a = Ok l' -> zlen l' = zlen l.
Proof. intros E. apply store_inv in E. destruct E as [_ ->]. apply zlen_replace_nth. Qed.

Lemma encode_frame_state p c s hs pcm c' s' hs' : chan_ok c -> encode_frame p c s hs pcm = Ok (c', s', hs') ->
  fc_state c' = CEncoding /\ fc_buffer c' = [] /\ fc_state c <> CDecoding.
Proof.
  intros HC H. unfold encode_frame in H. unfold chan_ok in HC.
  assert (HB : fc_state c <> CDecoding -> fc_buffer c = []).
  { intros N. destruct (fc_buffer c); auto. exfalso. apply N, HC. discriminate. }
  destruct (fc_state c); [| |discriminate].
  - inv_bind H. destruct a as [s1 h1]. do 3 inv_bind H. inv_bind H. destruct a2 as [s2 h2]. injection H as <- _ _.
    cbn. rewrite HB; repeat split; auto; discriminate.
  - do 2 inv_bind H. inv_bind H. destruct a1 as [s2 h2]. injection H as <- _ _. cbn. rewrite HB; repeat split; auto; discriminate.
Qed.
Lemma decode_frame_state p c s hs c' s' hs' : chan_ok c -> decode_frame p c s hs = Ok (c', s', hs') ->
  chan_ok c' /\ (fc_state c = CDecoding -> fc_state c' = CDecoding).
Proof.
  unfold decode_frame. intros HC H. inv_bind H. destruct a as [hs1 oh].
  destruct oh as [hd|]; [|injection H as <- _ _; auto].
  destruct (fc_state c) eqn:Es; [| discriminate |].
  - inv_bind H. destruct a as [s1 h1]. inv_bind H. destruct a as [[s2 h2] b2]. injection H as <- _ _. split; [intros _|]; auto.
  - inv_bind H. destruct a as [[s2 h2] b2]. injection H as <- _ _. split; [intros _|]; auto.
Qed.

(** Some channel is decoding. *)
Definition some_decoding (chs : list frame_codec) : Prop := exists fc, In fc chs /\ fc_state fc = CDecoding.
Definition keeps (a b : list frame_codec) : Prop :=
  zlen b = zlen a /\ (Forall chan_ok a -> Forall chan_ok b /\ (some_decoding a -> some_decoding b)).
Lemma keeps_refl a : keeps a a. Proof. split; auto. Qed.
Lemma keeps_trans a b c : keeps a b -> keeps b c -> keeps a c.
Proof. intros [L1 H1] [L2 H2]. split; [congruence|]. intros H. destruct (H1 H). destruct (H2 H0). auto. Qed.
Lemma some_replace l n a b : nth_error l n = Some a -> (fc_state a = CDecoding -> fc_state b = CDecoding) ->
  some_decoding l -> some_decoding (replace_nth n l b).
Proof.
  intros E K (fc & HI & HS). apply In_nth_error in HI. destruct HI as [m Em].
  destruct (Nat.eq_dec n m) as [<-|N].
  - exists b. rewrite E in Em. injection Em as ->. split; auto.
    apply (nth_error_In _ n). apply nth_error_replace_same. apply nth_error_Some. congruence.
  - exists fc. split; auto. apply (nth_error_In _ m). rewrite nth_error_replace_other; auto.
Qed.
Lemma keeps_store chs j a b chs' : index chs j = Ok a -> store chs j b = Ok chs' ->
  (chan_ok a -> chan_ok b /\ (fc_state a = CDecoding -> fc_state b = CDecoding)) -> keeps chs chs'.
Proof.
  intros E1 E2 K. split; [eapply zlen_store; eauto|]. intros HF. pose proof (Forall_index _ _ _ _ HF E1) as Ha.
  destruct (K Ha) as [K1 K2]. split; [eapply Forall_store; eauto|].
  apply index_inv in E1. apply store_inv in E2. destruct E1 as [_ E1], E2 as [_ ->]. eapply some_replace; eauto.
Qed.
Lemma decode_channel_keeps p d j d' : decode_channel p d j = Ok d' -> keeps (fst (fst d)) (fst (fst d')).
Proof.
  destruct d as [[chs s] hs]. unfold decode_channel. intros H. inv_bind H. inv_bind H. destruct a0 as [[c2 s2] hs2].
  inv_bind H. injection H as <-. cbn [fst]. eapply keeps_store; eauto. intros HC. eapply decode_frame_state; eauto.
Qed.
Lemma buffer_audio_keeps p n fuel d d' k : buffer_audio p n fuel d = Ok (d', k) -> keeps (fst (fst d)) (fst (fst d')) /\
  ((k < fuel)%nat -> buffers_empty (fst (fst d')) = false).
Proof.
  revert d d' k; induction fuel as [|fuel IH]; intros d d' k H; cbn [buffer_audio] in H.
  - injection H as <- <-. split; [apply keeps_refl|lia].
  - destruct d as [[chs s] hs]. destruct (buffers_empty chs) eqn:B; [|injection H as <- <-; split; [apply keeps_refl|auto]].
    inv_bind H. inv_bind H. destruct a0 as [d2 n2]. injection H as <- <-.
    apply (foldM_rel (decode_channel p) (fun a b => keeps (fst (fst a)) (fst (fst b)))) in Ha;
      eauto using keeps_refl, keeps_trans, decode_channel_keeps.
    apply IH in Ha0. destruct Ha0 as [K1 K2]. split; [eapply keeps_trans; eauto|]. intros. apply K2. lia.
Qed.
Lemma pop_block_keeps chs n c fuel room chs' out : pop_block chs n c fuel room = Ok (chs', out) -> keeps chs chs'.
Proof.
  revert chs c room chs' out; induction fuel as [|fuel IH]; intros chs c room chs' out H; cbn [pop_block] in H.
  - injection H as <- _. apply keeps_refl.
  - destruct ((0 <? room) && (c <? n)); [|injection H as <- _; apply keeps_refl].
    inv_bind H. destruct (match fc_buffer a with [] => _ | _ => _ end) as [v rest] eqn:Er. inv_bind H. inv_bind H.
    destruct a1 as [chs2 o2]. injection H as <- _. eapply keeps_trans; [|eapply IH; eauto].
    eapply keeps_store; eauto. intros HC. split; [|auto]. unfold chan_ok in *. cbn [fc_buffer fc_state]. intros Hr.
    apply HC. destruct (fc_buffer a); [|discriminate]. injection Er as _ <-. congruence.
Qed.
Lemma nonempty_decoding chs : Forall chan_ok chs -> buffers_empty chs = false -> some_decoding chs.
Proof.
  intros H. unfold buffers_empty. induction H as [|fc chs Hc H IH]; cbn [forallb]; [discriminate|].
  destruct (fc_buffer fc) eqn:E; cbn [andb].
  - intros B. destruct (IH B) as (x & I1 & I2). exists x. split; [right|]; auto.
  - intros _. exists fc. split; [left; auto|]. apply Hc. congruence.
Qed.
Lemma decode_loop_keeps p n fuel room d d' out : decode_loop p n fuel room d = Ok (d', out) ->
  keeps (fst (fst d)) (fst (fst d')) /\
  (Forall chan_ok (fst (fst d)) -> out <> [] -> some_decoding (fst (fst d'))).
Proof.
  revert room d d' out; induction fuel as [|fuel IH]; intros room d d' out H; cbn [decode_loop] in H; [discriminate|].
  destruct (0 <? room); [|injection H as <- <-; split; [apply keeps_refl|congruence]].
  inv_bind H. destruct a as [d1 k]. apply buffer_audio_keeps in Ha. destruct Ha as [K1 B].
  destruct (Nat.leb_spec MAX_DECODE_ATTEMPTS k); [injection H as <- <-; split; [exact K1|congruence]|].
  specialize (B ltac:(assumption)).
  destruct d1 as [[chs s] hs]. inv_bind H. destruct a as [chs2 o2]. inv_bind H. destruct a as [d2 o3].
  injection H as <- <-. apply pop_block_keeps in Ha. apply IH in Ha0. destruct Ha0 as [K3 _]. cbn [fst] in *.
  split; [eauto using keeps_trans|]. intros HF _. destruct K1 as [_ K1]. destruct (K1 HF) as [G1 _].
  pose proof (nonempty_decoding _ G1 B) as D. destruct Ha as [_ K2]. destruct (K2 G1) as [G2 D2].
  destruct K3 as [_ K3]. destruct (K3 G2) as [_ D3]. auto.
Qed.
Lemma decode_good p info c buf c' out k : good info c -> ad_decode p c buf = Ok (c', out, k) ->
  good info c' /\ (k <> None -> some_decoding (ad_channels c')).
Proof.
  intros (G1 & G2 & G3) H. unfold ad_decode in H. inv_bind H. inv_bind H. inv_bind H. destruct a1 as [[[chs s] hs] o].
  apply decode_loop_keeps in Ha1. cbn [fst] in Ha1. destruct Ha1 as [[K1 K2] D]. injection H as <- _ <-.
  destruct (K2 G3) as [K3 _]. split; [split; [auto|split; [cbn; congruence|auto]]|].
  intros N. apply D; auto. intros ->. apply N. reflexivity.
Qed.
Lemma init_good info c : good info c -> good info (ad_init c).
Proof.
  intros (G1 & G2 & G3). split; auto. cbn [ad_init ad_channels]. split; [unfold zlen; now rewrite map_length|].
  clear. induction (ad_channels c); cbn [map]; constructor; auto. intros H. cbn in H. congruence.
Qed.
Lemma encode_channel_good p info pcm n k c j c' : good info c -> encode_channel p pcm n k c j = Ok c' ->
  good info c' /\ (exists fc, index (ad_channels c) j = Ok fc /\ fc_state fc <> CDecoding) /\
  (forall i, i <> j -> index (ad_channels c') i = index (ad_channels c) i) /\
  (exists fc, index (ad_channels c') j = Ok fc /\ fc_state fc = CEncoding /\ fc_buffer fc = []).
Proof.
  intros (G1 & G2 & G3) H. unfold encode_channel in H. inv_bind H. inv_bind H. destruct a0 as [sq l]. inv_bind H. inv_bind H.
  destruct a1 as [[fc s] hs]. inv_bind H. injection H as <-.
  pose proof (Forall_index _ _ _ _ G3 Ha1) as HC. destruct (encode_frame_state _ _ _ _ _ _ _ _ HC Ha2) as (E1 & E2 & E3).
  cbn [ad_channels ad_stream as_info]. split; [|split; [|split]].
  - split; auto. cbn [ad_channels]. split; [erewrite zlen_store; eauto|]. refine (Forall_store _ _ _ _ _ G3 _ Ha3). intros N. congruence.
  - exists a0. auto.
  - intros i Hi. apply store_inv in Ha3. destruct Ha3 as [Hj ->]. unfold index. rewrite zlen_replace_nth.
    destruct (_ && _) eqn:B; auto. apply andb_prop in B. rewrite nth_error_replace_other by lia. reflexivity.
  - exists fc. split; auto. apply store_inv in Ha3. destruct Ha3 as [Hj ->]. unfold index. rewrite zlen_replace_nth.
    destruct (Z.leb_spec 0 j); [|lia]. destruct (Z.ltb_spec j (zlen (ad_channels c))); [|lia]. cbn [andb].
    rewrite nth_error_replace_same by (unfold zlen in *; lia). reflexivity.
Qed.
Lemma encode_channels_good p info pcm n k l c c' : good info c -> NoDup l ->
  foldM (encode_channel p pcm n k) l c = Ok c' ->
  good info c' /\
  (forall j, In j l -> exists fc, index (ad_channels c) j = Ok fc /\ fc_state fc <> CDecoding) /\
  (forall i, ~ In i l -> index (ad_channels c') i = index (ad_channels c) i) /\
  (forall j, In j l -> exists fc, index (ad_channels c') j = Ok fc /\ fc_state fc = CEncoding /\ fc_buffer fc = []).
Proof.
  intros G N. revert c G; induction N as [|j l HN N IH]; intros c G H; cbn [foldM] in H.
  - injection H as <-. cbn [In]. split; [exact G|]. split; [tauto|]. split; [auto|tauto].
  - inv_bind H. destruct (encode_channel_good _ _ _ _ _ _ _ _ G Ha) as (G1 & S1 & K1 & T1).
    destruct (IH _ G1 H) as (G2 & S2 & K2 & T2). split; [exact G2|]. split; [|split].
    + intros i [<-|Hi]; auto. destruct (S2 i Hi) as (fc & E & Es). exists fc. split; auto.
      rewrite <- K1; auto. congruence.
    + intros i Hi. cbn [In] in Hi. rewrite K2, K1; auto.
    + intros i [<-|Hi]; auto. rewrite K2 by auto. exact T1.
Qed.
Lemma range_nodup n : NoDup (range n).
Proof. unfold range. apply FinFun.Injective_map_NoDup; [|apply seq_NoDup]. intros a b. lia. Qed.
Lemma encode_good p info c pcm c' r : good info c -> ad_encode p c pcm = Ok (c', r) ->
  good info c' /\ ~ some_decoding (ad_channels c) /\
  Forall (fun fc => fc_state fc = CEncoding /\ fc_buffer fc = []) (ad_channels c').
Proof.
  intros G H. pose proof G as (G1 & G2 & G3). unfold ad_encode in H. inv_bind H. unfold ad_info in Ha. rewrite G1 in Ha.
  injection Ha as <-. inv_bind H. inv_bind H. injection H as <- _.
  destruct (encode_channels_good _ _ _ _ _ _ _ _ G (range_nodup _) Ha0) as (K1 & K2 & _ & K3).
  assert (B : forall x fc n, nth_error x n = Some fc -> zlen x = si_channels info -> In (Z.of_nat n) (range (si_channels info)) /\ @index frame_codec x (Z.of_nat n) = Ok fc).
  { intros x fc n E L. assert (n < length x)%nat by (apply nth_error_Some; congruence). split.
    - apply in_range. unfold zlen in L. lia.
    - unfold index. destruct (Z.leb_spec 0 (Z.of_nat n)); [|lia]. destruct (Z.ltb_spec (Z.of_nat n) (zlen x)); [|unfold zlen in *; lia].
      cbn [andb]. now rewrite Nat2Z.id, E. }
  split; [exact K1|]. split.
  - intros (fc & I & E). apply In_nth_error in I. destruct I as [n I]. destruct (B _ _ _ I G2) as [B1 B2].
    destruct (K2 _ B1) as (fc' & E' & Es). congruence.
  - apply Forall_forall. intros fc I. apply In_nth_error in I. destruct I as [n I].
    destruct (B _ _ _ I ltac:(apply K1)) as [B1 B2]. destruct (K3 _ B1) as (fc' & E' & Es). rewrite B2 in E'. injection E' as <-. exact Es.
Qed.
Lemma seek_channel_keeps p start d j d' : seek_channel p start d j = Ok d' -> zlen (fst (fst d')) = zlen (fst (fst d)) /\
  (Forall chan_ok (fst (fst d)) -> Forall chan_ok (fst (fst d'))).
Proof.
  destruct d as [[chs s] hs]. unfold seek_channel. intros H. inv_bind H. inv_bind H. inv_bind H.
  destruct (fh_history a0) as [[h3 h2] h1]. inv_bind H. destruct a2 as [[c2 s2] hs2].
  inv_bind H. injection H as <-. cbn [fst]. split; [eapply zlen_store; eauto|]. intros HF. eapply Forall_store; eauto.
  eapply decode_frame_state; [|eauto]. intros N. cbn in N. congruence.
Qed.
Lemma prune_keeps fuel n sk t chs chs' : prune fuel n sk t chs = Ok chs' -> zlen chs' = zlen chs /\ (Forall chan_ok chs -> Forall chan_ok chs').
Proof.
  revert sk chs; induction fuel as [|fuel IH]; intros sk chs H; cbn [prune] in H.
  - destruct (sk <? t); [discriminate|]. injection H as <-. auto.
  - destruct (sk <? t); [|injection H as <-; auto]. apply IH in H. destruct H as [H1 H2]. split.
    + rewrite H1. unfold zlen. rewrite app_length, map_length, firstn_length, skipn_length. lia.
    + intros HF. apply H2. rewrite <- (firstn_skipn (Z.to_nat n) chs) in HF. apply Forall_app in HF. destruct HF as [F1 F2].
      apply Forall_app. split; auto. apply Forall_map. eapply Forall_impl; [|exact F1]. intros fc HC N. cbn in *. apply HC.
      intros E. rewrite E in N. cbn in N. congruence.
Qed.
Lemma seek_good p info c dt c' : good info c -> ad_seek p c dt = Ok c' -> good info c'.
Proof.
  intros G H. apply init_good in G. unfold ad_seek in H. inv_bind H. destruct dt as [dt| |]; try discriminate.
  destruct (dt =? 0); [injection H as <-; exact G|]. destruct G as (G1 & G2 & G3).
  inv_bind H. inv_bind H. inv_bind H. destruct a2 as [skipped idx]. inv_bind H. inv_bind H. inv_bind H.
  destruct a4 as [[chs s] hs]. inv_bind H. injection H as <-.
  apply (foldM_rel (seek_channel p _) (fun a b => zlen (fst (fst b)) = zlen (fst (fst a)) /\ (Forall chan_ok (fst (fst a)) -> Forall chan_ok (fst (fst b))))) in Ha5;
    [|auto|intros ? ? ? [] []; split; [congruence|auto]|eauto using seek_channel_keeps].
  apply prune_keeps in Ha6. destruct Ha5 as [L1 F1], Ha6 as [L2 F2]. cbn [fst] in *. split; auto. split; [cbn [ad_channels]; congruence|auto].
Qed.
Lemma session_good p info acts c c' : good info c -> session p acts c = Ok c' -> good info c'.
Proof.
  intros G. unfold session. revert c G; induction acts as [|a acts IH]; intros c G H; cbn [foldM] in H.
  - now injection H as <-.
  - inv_bind H. apply (IH a0); auto. destruct a as [pcm|[buf| |dt]]; cbn [act play] in Ha.
    + inv_bind Ha. destruct a as [c2 r]. injection Ha as <-. eapply encode_good; eauto.
    + inv_bind Ha. destruct a as [[c2 o] r]. injection Ha as <-. eapply decode_good; eauto.
    + injection Ha as <-. now apply init_good.
    + eapply seek_good; eauto.
Qed.
Lemma Forall_repeat {A} (P : A -> Prop) a n : P a -> Forall P (repeat a n).
Proof. intros; induction n; cbn; auto. Qed.
Lemma new_good info level : 0 <= si_channels info -> good info (new_codec info level).
Proof.
  intros H. split; auto. split.
  - cbn. unfold resize. change (zlen (@nil frame_codec)) with 0. destruct (Z.leb_spec 0 (si_channels info)); [|lia].
    cbn [app length]. rewrite zlen_repeat. lia.
  - cbn. unfold resize. change (zlen (@nil frame_codec)) with 0. destruct (Z.leb_spec 0 (si_channels info)); [|lia].
    cbn [app]. apply Forall_repeat. intros N. cbn in N. congruence.
Qed.

(** ** Fields a session never changes *)
Definition same_scale (c c' : adhoc) : Prop := ad_scale c' = ad_scale c /\ ad_inv_scale c' = ad_inv_scale c /\ ad_level c' = ad_level c.
Lemma encode_channel_scale p pcm n k c j c' : encode_channel p pcm n k c j = Ok c' -> same_scale c c'.
Proof.
  intros H. unfold encode_channel in H. inv_bind H. inv_bind H. destruct a0. inv_bind H. inv_bind H. destruct a1 as [[fc s] hs].
  inv_bind H. injection H as <-. repeat split.
Qed.
Lemma encode_scale p c pcm c' r : ad_encode p c pcm = Ok (c', r) -> same_scale c c'.
Proof.
  unfold ad_encode. intros H. do 2 inv_bind H. inv_bind H. injection H as <- _.
  apply (foldM_rel _ same_scale) in Ha1; [exact Ha1|split; auto|intros x y z (A1 & A2 & A3) (B1 & B2 & B3); repeat split; congruence|].
  intros. eapply encode_channel_scale; eauto.
Qed.
Lemma session_scale p acts c c' : session p acts c = Ok c' -> same_scale c c'.
Proof.
  apply foldM_rel; [split; auto|intros x y z (A1 & A2 & A3) (B1 & B2 & B3); repeat split; congruence|]. clear.
  intros c [pcm|op] c' H; cbn [act] in H.
  - inv_bind H. destruct a. injection H as <-. eapply encode_scale; eauto.
  - assert (S : play_all p [op] c = Ok c') by (unfold play_all; cbn [foldM]; rewrite H; reflexivity).
    apply play_same in S. destruct S as (_ & _ & A & B & C). repeat split; auto.
Qed.

(** ** Decoding while encoding *)
Definition mid_encode (fc : frame_codec) : Prop := fc_state fc = CEncoding /\ fc_buffer fc = [].
Lemma replace_nth_same {A} n (l : list A) a : nth_error l n = Some a -> replace_nth n l a = l.
Proof. revert n; induction l; intros [|n]; cbn; intros H; try discriminate; [congruence|]. f_equal. auto. Qed.
Lemma stuck_channel p chs s hs j d : Forall mid_encode chs -> decode_channel p (chs, s, hs) j = Ok d -> d = (chs, s, hs).
Proof.
  intros HF H. unfold decode_channel in H. inv_bind H. inv_bind H. destruct a0 as [[c2 s2] hs2]. inv_bind H. injection H as <-.
  pose proof (Forall_index _ _ _ _ HF Ha) as [Hs _]. unfold decode_frame in Ha0. inv_bind Ha0. destruct a1 as [hs1 oh].
  rewrite Hs in Ha0. destruct oh; [discriminate|]. injection Ha0 as <- <- <-.
  unfold fhs_next in Ha2. destruct (_ <? _); [do 4 inv_bind Ha2; discriminate|]. injection Ha2 as <-.
  apply index_inv in Ha. apply store_inv in Ha1. destruct Ha as [_ Ha], Ha1 as [_ ->]. now rewrite replace_nth_same.
Qed.
Lemma stuck_channels p chs s hs l d : Forall mid_encode chs -> foldM (decode_channel p) l (chs, s, hs) = Ok d -> d = (chs, s, hs).
Proof.
  intros HF. induction l as [|j l IH]; cbn [foldM]; intros H; [congruence|]. inv_bind H.
  apply stuck_channel in Ha; auto. subst a. auto.
Qed.
Lemma mid_empty chs : Forall mid_encode chs -> buffers_empty chs = true.
Proof. unfold buffers_empty. induction 1 as [|fc chs [_ H1] H IH]; cbn [forallb]; auto. now rewrite H1. Qed.
Lemma stuck_buffer p n chs s hs fuel d k : Forall mid_encode chs ->
  buffer_audio p n fuel (chs, s, hs) = Ok (d, k) -> d = (chs, s, hs) /\ k = fuel.
Proof.
  intros HF. revert d k; induction fuel as [|fuel IH]; intros d k H; cbn [buffer_audio] in H; [injection H as <- <-; auto|].
  rewrite mid_empty in H by auto. inv_bind H. apply stuck_channels in Ha; auto. subst a. inv_bind H. destruct a as [d2 k2].
  apply IH in Ha. destruct Ha as [-> ->]. injection H as <- <-. auto.
Qed.
Lemma stuck_decode p c buf c' out k : Forall mid_encode (ad_channels c) ->
  ad_decode p c buf = Ok (c', out, k) -> c' = c /\ out = map (fun x => fmul x (ad_scale c)) buf /\ k = None.
Proof.
  intros HF H. unfold ad_decode in H. inv_bind H. inv_bind H. inv_bind H. destruct a1 as [[[chs s] hs] o].
  assert (E : (chs, s, hs, o) = (ad_channels c, as_stream (ad_stream c), ad_headers c, [])).
  { cbn [decode_loop] in Ha1. destruct (0 <? _); [|congruence]. inv_bind Ha1. destruct a1 as [d k1].
    apply stuck_buffer in Ha2; auto. destruct Ha2 as [-> ->]. rewrite Nat.leb_refl in Ha1. congruence. }
  injection E as -> -> -> ->. injection H as <- <- <-. split; auto. destruct c as [? ? [] ? ? ? ?]. reflexivity.
Qed.

(** ** Short first calls *)
Lemma encode_raw_short p s h pcm r : zlen pcm < 3 -> encode_raw p s h pcm [0; 1; 2] <> Ok r.
Proof.
  intros Hn H. cbn [encode_raw] in H. do 2 inv_bind H. do 2 inv_bind H. inv_bind H. apply index_inv in Ha3. lia.
Qed.
Lemma length_dither p inv s l s' l' : dither p inv s l = Ok (s', l') -> length l' = length l.
Proof.
  revert s s' l'; induction l as [|x l IH]; intros s s' l' H; cbn [dither] in H; [injection H as _ <-; reflexivity|].
  inv_bind H. destruct a as [s1 n]. inv_bind H. destruct a as [s2 l2]. injection H as _ <-. cbn [length]. f_equal. eauto.
Qed.
Lemma length_mapM {A B} (f : A -> outcome B) l l' : mapM f l = Ok l' -> length l' = length l.
Proof.
  revert l'; induction l; intros l' H; cbn [mapM] in H; [injection H as <-; reflexivity|].
  do 2 inv_bind H. injection H as <-. cbn [length]. f_equal. auto.
Qed.
Lemma short_first p c info pcm : as_info (ad_stream c) = Some info -> 0 < si_channels info ->
  Forall (fun fc => fc_state fc = CInit) (ad_channels c) -> zlen pcm < 3 * si_channels info ->
  panics (ad_encode p c pcm).
Proof.
  intros Hi Hch HF Hn. apply encode_panics. intros r H. unfold ad_encode, ad_info in H. rewrite Hi in H. cbn [expect bind] in H.
  rewrite udiv_ok in H by lia. cbn [bind] in H. inv_bind H.
  replace (range (si_channels info)) with (0 :: map Z.succ (range (si_channels info - 1))) in Ha.
  2: { unfold range. replace (Z.to_nat (si_channels info)) with (S (Z.to_nat (si_channels info - 1))) by lia.
       cbn [seq map]. f_equal. rewrite <- seq_shift, !map_map. apply map_ext. intros; lia. }
  cbn [foldM] in Ha. inv_bind Ha. clear Ha. unfold encode_channel in Ha0. inv_bind Ha0. inv_bind Ha0. destruct a2 as [sq l].
  inv_bind Ha0. inv_bind Ha0. pose proof (Forall_index _ _ _ _ HF Ha2) as Hs. cbv beta in Hs.
  unfold encode_frame in Ha3. rewrite Hs in Ha3. inv_bind Ha3. eapply encode_raw_short; [|eauto].
  apply length_dither in Ha1. apply length_mapM in Ha. rewrite length_range in Ha. unfold zlen at 1. rewrite Ha1, Ha.
  assert (zlen pcm / si_channels info < 3) by (apply Z.div_lt_upper_bound; lia). lia.
Qed.

(** ** Partial blocks *)
Lemma deinterleave_whole ch pcm j : 0 < ch -> 0 <= j < ch ->
  deinterleave (firstn (Z.to_nat (ch * (zlen pcm / ch))) pcm) ch j (zlen pcm / ch) = deinterleave pcm ch j (zlen pcm / ch).
Proof.
  intros Hch Hj. unfold deinterleave. set (n := zlen pcm / ch).
  pose proof (Z.mul_div_le (zlen pcm) ch Hch) as M. fold n in M.
  assert (K : forall l, (forall k, In k l -> 0 <= k < n) ->
    mapM (fun k => index (firstn (Z.to_nat (ch * n)) pcm) (k * ch + j)) l = mapM (fun k => index pcm (k * ch + j)) l).
  { induction l as [|k l IH]; intros HL; [reflexivity|]. cbn [mapM].
    rewrite IH by (intros; apply HL; right; auto). specialize (HL k (or_introl eq_refl)).
    assert (k * ch + j < ch * n) by nia.
    rewrite (index_ok _ _ f0) by (unfold zlen; rewrite firstn_length; unfold zlen in M; nia).
    rewrite (index_ok _ _ f0) by nia. rewrite nth_firstn_lt by nia. reflexivity. }
  apply K. intros k Hk. now apply in_range.
Qed.
