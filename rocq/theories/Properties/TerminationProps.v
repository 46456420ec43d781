(** * Properties C64 and C65: no call runs forever, and what loading allocates *)
From Coq Require Import ZArith List Bool Lia.
From Verif Require Import Model.Base Model.F32 Model.Sample Model.BitStream Model.NibbleList Model.BitVec Model.Frame Model.Adhoc Model.Bincode
  Model.Wav Model.Cli Spec.Recording Spec.Frames Spec.Files Spec.Damage
  Proofs.BaseFacts Proofs.AnyState Proofs.Memory Proofs.DamageFile Proofs.Terminates Properties.Demo Properties.DamageProps.
Import ListNotations.
Open Scope Z_scope.

(** ** C64: every call ends *)
(** The call returns or panics; what it does not do is run on.  (In the model a loop that does
    not stop within a bound that a stopping loop never reaches is [OutOfFuel].) *)
Definition ends {A} (o : outcome A) : Prop := (exists a, o = Ok a) \/ (exists r, o = Panic r).
Lemma nofuel_ends {A} (o : outcome A) : nofuel o -> ends o.
Proof. unfold nofuel, ends. destruct o; eauto. intros H. now destruct H. Qed.

(** Encode, decode, rewind, seek and count, from every state of a codec, reachable or not. *)
Theorem C64_codec_calls_end : forall p c,
  zlen (bs_binary (as_stream (ad_stream c))) < 2 ^ 63 ->
  (forall info, ad_info c = Ok info -> 0 <= si_channels info) ->
  (forall a, ends (act p c a)) /\ ends (ad_sample_count p c).
Proof.
  intros p c HM HI. assert (HP : possible c) by (split; auto). split; [|apply nofuel_ends, nofuel_count].
  intros a. apply nofuel_ends. destruct a as [pcm|[buf| |dt]]; cbn [act play].
  - apply nofuel_bind; [apply nofuel_encode|]. intros [c1 r] _. apply nofuel_ok.
  - apply nofuel_bind; [now apply nofuel_decode|]. intros [[c1 b] r] _. apply nofuel_ok.
  - apply nofuel_ok.
  - now apply nofuel_seek.
Qed.
Print Assumptions C64_codec_calls_end.
(** The WAV codec's calls, from every state. *)
Theorem C64_wav_calls_end : forall p w file,
  ends (wav_load p file) /\ ends (wav_save p w) /\
  (forall samples, ends (wav_encode p w samples)) /\ (forall buf, ends (wav_decode w buf)) /\ (forall dt, ends (wav_seek p w dt)).
Proof.
  intros p w file. repeat split; intros; apply nofuel_ends.
  - apply nofuel_wav_load. - apply nofuel_wav_save. - apply nofuel_wav_encode. - apply nofuel_wav_decode. - apply nofuel_wav_seek.
Qed.
Print Assumptions C64_wav_calls_end.
(** Whatever bytes the input file holds, both conversions of the command line tool end. *)
Theorem C64_tool_ends : forall p file level,
  Forall byte file -> zlen file < 2 ^ 63 -> ends (wav_to_adhoc p file level) /\ ends (adhoc_to_wav p file).
Proof.
  intros p file level HB HZ. split; apply nofuel_ends; [apply nofuel_wav_to_adhoc|].
  unfold adhoc_to_wav. apply nofuel_bind; [apply nofuel_load|]. intros [c|] E; [|apply nofuel_ok].
  apply nofuel_bind; [apply nofuel_info|]. intros info EI.
  destruct (load_shape _ _ _ E) as (lvl & h & s & r & sc & info' & G & Hi & EC).
  destruct (get_codec_types _ _ _ _ _ HB G) as (T1 & T2 & _ & T4 & T5). specialize (T5 _ Hi).
  assert (info' = info) by (subst c; unfold ad_info, ad_init in EI; cbn [ad_stream as_info] in EI; rewrite Hi in EI; now injection EI). subst info'.
  assert (SZ : Forall (fun x => 0 <= x) (fhs_sizes h)) by (eapply Forall_impl; [|exact T2]; cbn; intros; lia).
  apply nofuel_bind; [|intros w _; apply nofuel_bind; [apply nofuel_wav_save|]; intros; apply nofuel_ok].
  destruct (nofuel_adhoc_to_wav_loop p (zlen (bs_binary (as_stream s))) info (decode_rounds c) c (wav_new info) CLI_BUFFER) as [X|X]; auto.
  - lia.
  - subst c. cbn [ad_init ad_channels]. rewrite map_init_new. unfold zlen. rewrite repeat_length. lia.
  - subst c. apply (tail0_start (bs_seek_start (as_stream s))). cbn. lia.
  - subst c. split; [exact SZ|]. split; [cbn; lia|]. exact (proj2 T1).
  - subst c. unfold codec_state. cbn [ad_init ad_channels ad_stream as_stream ad_headers]. rewrite map_init_new. cbn [stock].
    assert (B0 : forall n, buffered (repeat fc_new n) = 0).
    { induction n as [|n IH]; [reflexivity|]. cbn [repeat]. unfold buffered in *. cbn [map fold_right]. rewrite IH. reflexivity. }
    rewrite B0. unfold rest, decode_rounds. cbn [fhs_reset fhs_set_cursor fhs_cursor fhs_sizes ad_headers ad_init]. change (Z.to_nat 0) with 0%nat. cbn [skipn].
    pose proof (sum3_nonneg _ SZ). lia.
  - unfold decode_rounds in X. discriminate X.
Qed.
Print Assumptions C64_tool_ends.

(** ** C65: what loading allocates *)
Definition consumes {A} (w : A -> nat) (g : parser A) : Prop := forall l a r, g l = Some (a, r) -> length l = (w a + length r)%nat.
Lemma consumes_uint n : consumes (fun _ => n) (get_uint n).
Proof.
  intros l a r E. unfold get_uint in E. destruct (Nat.leb_spec n (length l)); [|discriminate]. injection E as _ <-. rewrite skipn_length. lia.
Qed.
Lemma consumes_n {A} k (g : parser A) n : consumes (fun _ => k) g -> forall l v r, get_n g n l = Some (v, r) ->
  length l = (k * length v + length r)%nat /\ length v = n.
Proof.
  intros Hg. induction n as [|n IH]; intros l v r E; cbn [get_n] in E.
  - injection E as <- <-. cbn. lia.
  - unfold pbind, pret in E. destruct (g l) as [[a r1]|] eqn:G; [|discriminate]. destruct (get_n g n r1) as [[t r2]|] eqn:G2; [|discriminate].
    injection E as <- <-. apply Hg in G. apply IH in G2. cbn [length]. lia.
Qed.
Lemma consumes_vec {A} k (g : parser A) : consumes (fun _ => k) g -> consumes (fun v => 8 + k * length v)%nat (get_vec g).
Proof.
  intros Hg l v r E. unfold get_vec, pbind in E. destruct (get_u64 l) as [[n r1]|] eqn:G; [|discriminate].
  apply (consumes_uint 8) in G. destruct (_ <=? _); [|discriminate]. apply (consumes_n k) in E; auto. lia.
Qed.
Lemma consumes_i16 : consumes (fun _ => 2%nat) get_i16.
Proof. intros l a r E. unfold get_i16, pmap, pbind, pret in E. destruct (get_uint 2 l) as [[x r1]|] eqn:G; [|discriminate]. injection E as _ <-. now apply (consumes_uint 2) in G. Qed.
Lemma consumes_history : consumes (fun _ => 6%nat) get_history.
Proof.
  intros l a r E. unfold get_history, pbind, pret in E. destruct (get_i16 l) as [[x r1]|] eqn:G1; [|discriminate].
  destruct (get_i16 r1) as [[y r2]|] eqn:G2; [|discriminate]. destruct (get_i16 r2) as [[z r3]|] eqn:G3; [|discriminate]. injection E as _ <-.
  apply consumes_i16 in G1, G2, G3. lia.
Qed.
Ltac eat E H := let x := fresh "x" in let r := fresh "r" in let G := fresh "G" in
  match type of E with match ?t with _ => _ end = _ => destruct t as [[x r]|] eqn:G; [apply H in G|discriminate E] end.
Lemma consumes_nibbles : consumes (fun e => 12 + length (nl_data e))%nat get_nibble_list.
Proof.
  intros l a r E. unfold get_nibble_list, pbind, pret in E. eat E (consumes_vec 1 _ (consumes_uint 1)). eat E (consumes_uint 4).
  injection E as <- <-. cbn [nl_data]. lia.
Qed.
Lemma consumes_bits : consumes (fun e => 24 + 8 * length (bv_binary e))%nat get_bitvec.
Proof.
  intros l a r E. unfold get_bitvec, pbind, pret in E. eat E (consumes_vec 8 _ (consumes_uint 8)). eat E (consumes_uint 16).
  injection E as <- <-. cbn [bv_binary]. lia.
Qed.
Lemma consumes_bitstream : consumes (fun e => 40 + 16 * length (bs_binary e))%nat get_bitstream.
Proof.
  intros l a r E. unfold get_bitstream, pbind, pret in E. eat E (consumes_vec 16 _ (consumes_uint 16)). eat E (consumes_uint 16). eat E (consumes_uint 16).
  injection E as <- <-. cbn [bs_binary]. lia.
Qed.
Lemma consumes_info : consumes (fun i => match i with None => 1 | Some _ => 9 end)%nat get_info.
Proof.
  intros l a r E. unfold get_info, pbind, pret in E. eat E (consumes_uint 1).
  destruct (x =? 0); [injection E as <- <-; lia|]. destruct (x =? 1); [|discriminate].
  eat E (consumes_uint 4). eat E (consumes_uint 4). injection E as <- <-. lia.
Qed.
Definition headers_bytes (h : frame_headers) : nat :=
  (length (nl_data (fhs_exps h)) + 8 * length (bv_binary (fhs_inits h)) + 2 * length (fhs_sizes h) + 8 * length (fhs_cursors h) +
   6 * length (fhs_hists h))%nat.
Lemma consumes_headers : consumes (fun h => 64 + headers_bytes h)%nat get_headers.
Proof.
  intros l a r E. unfold get_headers, pbind, pret in E. eat E consumes_nibbles. eat E consumes_bits. eat E (consumes_vec 2 _ (consumes_uint 2)).
  eat E (consumes_vec 8 _ (consumes_uint 8)). eat E (consumes_vec 6 _ consumes_history). eat E (consumes_uint 4).
  injection E as <- <-. unfold headers_bytes. cbn [fhs_exps fhs_inits fhs_sizes fhs_cursors fhs_hists]. lia.
Qed.
Lemma get_codec_size file lvl h s r info : get_codec file = Some (lvl, h, s, r) -> as_info s = Some info ->
  length file = (117 + headers_bytes h + 16 * length (bs_binary (as_stream s)) + length r)%nat.
Proof.
  unfold get_codec, pbind, pret. intros E HI. eat E (consumes_uint 4). eat E consumes_headers. eat E consumes_info. eat E consumes_bitstream.
  injection E as <- <- <- <-. cbn [as_info as_stream] in *. subst x1. lia.
Qed.

(** The bytes held by the vectors of a codec whose length the file gives element by element:
    exponents (u8), init flags (u64), frame sizes (u16), bit cursors (u64), histories (3 x i16)
    and the chunks of the bit stream (u128). *)
Definition table_bytes (c : adhoc) : Z :=
  let h := ad_headers c in
  zlen (nl_data (fhs_exps h)) + 8 * zlen (bv_binary (fhs_inits h)) + 2 * zlen (fhs_sizes h) +
  8 * zlen (fhs_cursors h) + 6 * zlen (fhs_hists h) + 16 * zlen (bs_binary (as_stream (ad_stream c))).
(** A file that loads has at least 117 bytes, its tables take no more memory than the rest of the
    file, whatever lengths the file claims, and there is one channel state for each channel it claims. *)
Theorem C65_tables_bounded : forall p file c info,
  ad_load p file = Ok (Some c) -> ad_info c = Ok info -> 0 <= si_channels info ->
  table_bytes c + 117 <= zlen file /\ zlen (ad_channels c) = si_channels info.
Proof.
  intros p file c info HL HI Hch. destruct (load_shape _ _ _ HL) as (lvl & h & s & r & sc & info' & G & Hi & ->).
  assert (info' = info) by (unfold ad_info, ad_init in HI; cbn [ad_stream as_info] in HI; rewrite Hi in HI; now injection HI). subst info'.
  pose proof (get_codec_size _ _ _ _ _ _ G Hi) as L. unfold headers_bytes in L. split.
  - unfold table_bytes, ad_init, zlen. cbn [ad_headers ad_stream as_stream fhs_reset fhs_set_cursor fhs_exps fhs_inits fhs_sizes fhs_cursors fhs_hists bs_seek_start set_bit_cursor bs_binary]. lia.
  - cbn [ad_init ad_channels]. rewrite map_init_new. unfold zlen. rewrite repeat_length. lia.
Qed.
Print Assumptions C65_tables_bounded.

(** A 117-byte file that claims 2^32 - 1 channels and nothing else. *)
Definition many_channels : list Z := repeat 0 68 ++ [1; 0; 0; 0; 0; 255; 255; 255; 255] ++ repeat 0 40.
(** The channel states are not bounded by the file: no multiple of the file's size up to
    30 million channel states per byte is enough. *)
Theorem C65_channels_refuted : ~ (forall p file c,
  Forall byte file -> ad_load p file = Ok (Some c) -> zlen (ad_channels c) <= 30000000 * zlen file).
Proof.
  intros H.
  assert (G : get_codec many_channels = Some (0, mkFHS (mkNL [] 0) (mkBV [] 0) [] [] [] 0, mkAS (Some (mkInfo 0 4294967295)) (mkBS [] 0 0), []))
    by (vm_compute; reflexivity).
  assert (HB : Forall byte many_channels) by (unfold many_channels, byte; repeat first [apply Forall_cons; [lia|] | apply Forall_nil]; repeat constructor; lia).
  destruct (ad_load Release many_channels) as [[c|]| |] eqn:E.
  - specialize (H _ _ _ HB E). destruct (load_shape _ _ _ E) as (lvl & h & s & r & sc & info & G' & Hi & EC). rewrite G in G'.
    injection G' as _ _ Es _. subst s. cbn [as_info] in Hi. injection Hi as <-.
    assert (HI : ad_info c = Ok (mkInfo 0 4294967295)) by (subst c; reflexivity).
    destruct (C65_tables_bounded _ _ _ _ E HI) as [_ X]; [cbn; lia|]. rewrite X in H.
    change (zlen many_channels) with 117 in H. cbn [si_channels] in H. lia.
  - unfold ad_load in E. rewrite G in E. discriminate E.
  - unfold ad_load in E. rewrite G in E. discriminate E.
  - unfold ad_load in E. rewrite G in E. discriminate E.
Qed.
Print Assumptions C65_channels_refuted.

(** A damaged recording, loaded, meets the hypotheses of [C64_codec_calls_end] and
    [C65_tables_bounded], and its file those of [C64_tool_ends]. *)
Example C64_nonvacuous : exists file c info, Forall byte file /\ zlen file < 2 ^ 63 /\ ad_load Release file = Ok (Some c) /\
  ad_info c = Ok info /\ 0 < si_channels info /\ 0 < fhs_len (ad_headers c) /\ zlen (bs_binary (as_stream (ad_stream c))) < 2 ^ 63.
Proof.
  destruct C59_file_nonvacuous as (file & c & info & H1 & H2 & H3 & H4 & H5 & H6 & _). exists file, c, info.
  destruct (C65_tables_bounded _ _ _ _ H3 H4) as [T _]; [lia|]. unfold table_bytes in T.
  pose proof (zlen_nonneg (nl_data (fhs_exps (ad_headers c)))). pose proof (zlen_nonneg (bv_binary (fhs_inits (ad_headers c)))).
  pose proof (zlen_nonneg (fhs_sizes (ad_headers c))). pose proof (zlen_nonneg (fhs_cursors (ad_headers c))).
  pose proof (zlen_nonneg (fhs_hists (ad_headers c))).
  repeat split; auto; lia.
Qed.
(** [ends] rules something out: with fewer rounds than the conversion needs the loop is cut off. *)
Example C64_ends_nontrivial : ~ ends (adhoc_to_wav_loop Release 0 (new_codec mono 0) (wav_new mono) CLI_BUFFER).
Proof. intros [[a E]|[r E]]; discriminate E. Qed.
