(** * C94: the layout of .adhoc files *)
From Coq Require Import ZArith List Bool Lia.
From Verif Require Import Model.Base Model.F32 Model.Sample Model.BitStream Model.NibbleList Model.BitVec
  Model.CircularStack Model.Frame Model.Adhoc Model.Bincode Spec.Recording Spec.Files Spec.Damage Spec.Wave Spec.AdhocFile
  Proofs.BaseFacts Proofs.FileFacts Proofs.DamageFile Proofs.WavFile Proofs.FormatFacts.
Import ListNotations.
Open Scope Z_scope.

(** ** Lemmas *)
Lemma load_well_formed p t rest : well_formed t -> Forall byte (file_of t) -> exists h s,
  as_info s = Some (mkInfo (number (p_rate t)) (number (p_channels t))) /\
  fits (mkAdhoc h [] s (number (p_level t)) f1 f1 314) /\
  put_u32 (number (p_level t)) ++ put_headers (fhs_reset h) ++ put_info (as_info s) ++ put_bitstream (bs_seek_start (as_stream s)) = file_of (rewound t) /\
  ad_load p (file_of t ++ rest) = (sc <- sshl p 32 1 (number (p_level t)) ;;
    Ok (Some (ad_init (mkAdhoc h (repeat fc_new (Z.to_nat (number (p_channels t)))) s (number (p_level t)) (f32_of_Z sc) (fdiv f1 (f32_of_Z sc)) 314)))).
Proof.
  intros W B. destruct (codec_of t rest W B) as (lv & h & s & info & G & -> & Q1 & HF & I & -> & Q2 & Q3 & Q4 & Q5 & Q6 & Q7 & E).
  exists h, s. split; [exact I|]. split; [|split; [exact E|]].
  - constructor; cbn [ad_level ad_headers ad_stream]; auto. intros info' I'. rewrite I in I'. injection I' as <-. auto.
  - unfold ad_load. rewrite G. destruct (sshl p 32 1 (number (p_level t))); cbn [bind]; [|reflexivity..]. rewrite I. reflexivity.
Qed.
Lemma load_shape p file c : Forall byte file -> ad_load p file = Ok (Some c) -> exists t rest, well_formed t /\ file = file_of t ++ rest.
Proof.
  intros B E. unfold ad_load in E. destruct (get_codec file) as [[[[lv h] s] r]|] eqn:G; [|discriminate E]. inv_bind E.
  destruct (as_info s) as [info|] eqn:I; [|discriminate E]. destruct (codec_shape _ _ _ _ _ _ B G I) as (t & W & F). now exists t, r.
Qed.

(** ** Theorems *)
(** A release build loads a file exactly if it is laid out as Spec/AdhocFile.v says; what follows the last part does not matter. *)
Theorem C94_loads : forall file, Forall byte file ->
  ((exists c, ad_load Release file = Ok (Some c)) <-> exists t rest, well_formed t /\ file = file_of t ++ rest).
Proof.
  intros file B. split; [intros (c & E); eapply load_shape; eauto|]. intros (t & rest & W & ->). apply Forall_app in B.
  destruct (load_well_formed Release t rest W (proj1 B)) as (h & s & I & HF & _ & ->). unfold sshl. destruct (_ && _); cbn [bind]; eexists; reflexivity.
Qed.
Print Assumptions C94_loads.
(** Every other file is rejected without a panic. *)
Theorem C94_rejects : forall file, Forall byte file -> ~ (exists t rest, well_formed t /\ file = file_of t ++ rest) -> ad_load Release file = Ok None.
Proof.
  intros file B N. rewrite <- C94_loads in N by auto. unfold ad_load in *. destruct (get_codec file) as [[[[lv h] s] r]|]; [|reflexivity].
  unfold sshl in *. destruct (_ && _); cbn [bind] in *; (destruct (as_info s); [elim N; eexists; reflexivity|reflexivity]).
Qed.
Print Assumptions C94_rejects.
(** A debug build also panics if the level is 32 or more. *)
Theorem C94_debug : forall t rest, well_formed t -> Forall byte (file_of t) ->
  (number (p_level t) < 32 -> exists c, ad_load Debug (file_of t ++ rest) = Ok (Some c)) /\
  (32 <= number (p_level t) -> ad_load Debug (file_of t ++ rest) = Panic ArithmeticOverflow).
Proof.
  intros t rest W B. destruct (load_well_formed Debug t rest W B) as (h & s & I & HF & _ & ->). destruct (fits_level _ HF) as [L0 L1]. cbn [ad_level] in L0, L1.
  unfold sshl, in_u. destruct (Z.leb_spec 0 (number (p_level t))); [|lia]. destruct (Z.ltb_spec (number (p_level t)) (2 ^ 32)); [|lia].
  destruct (Z.ltb_spec (number (p_level t)) 32); cbn [andb bind]; split; intros ?; try lia; [eexists; reflexivity|reflexivity].
Qed.
Print Assumptions C94_debug.
(** What is loaded: rate, channels and level are the numbers in the file, and saving gives the file back byte by byte, with the two positions set to the start. *)
Theorem C94_loaded : forall p t rest c, well_formed t -> Forall byte (file_of t) -> ad_load p (file_of t ++ rest) = Ok (Some c) ->
  ad_info c = Ok (mkInfo (number (p_rate t)) (number (p_channels t))) /\ ad_level c = number (p_level t) /\ ad_save c = file_of (rewound t).
Proof.
  intros p t rest c W B E. destruct (load_well_formed p t rest W B) as (h & s & I & HF & S & L). rewrite L in E. inv_bind E. injection E as <-.
  unfold ad_init, ad_info, ad_save. cbn [ad_headers ad_channels ad_stream ad_level as_info as_stream]. rewrite I in *. auto.
Qed.
Print Assumptions C94_loaded.
(** So loading a file and saving it makes a copy that loads as the very same codec, also for files the library did not write. *)
Theorem C94_copy : forall p file c, Forall byte file -> ad_load p file = Ok (Some c) -> forall rest, ad_load p (ad_save c ++ rest) = Ok (Some c).
Proof.
  intros p file c B E rest. destruct (load_shape p file c B E) as (t & r & W & ->). apply Forall_app in B. destruct B as [B _].
  destruct (load_well_formed p t r W B) as (h & s & I & HF & S & L). rewrite L in E. inv_bind E. injection E as <-.
  set (c0 := mkAdhoc (fhs_reset h) [] (mkAS (as_info s) (bs_seek_start (as_stream s))) (number (p_level t)) f1 f1 314).
  assert (F0 : fits c0).
  { destruct HF as [F1 [] F3 F4 F5 F6 F7]. constructor; auto; [constructor; auto; unfold in_range_u; cbn; lia|unfold in_range_u; cbn; lia]. }
  pose proof (inverts_codec c0 F0) as [R _]. unfold ad_load.
  match goal with |- context [ad_save ?c] => change (ad_save c) with (ad_save c0) end.
  rewrite R. unfold c0. cbn [ad_level ad_headers ad_stream as_info]. rewrite Ha. cbn [bind]. rewrite I. unfold ad_init. cbn [ad_headers ad_channels ad_stream ad_level ad_scale ad_inv_scale ad_seq as_info as_stream].
  rewrite I. reflexivity.
Qed.
Print Assumptions C94_copy.
(** The library writes nothing else: what a codec with rate and channels saves is laid out like this, and ends with the last part. *)
Lemma table_vec {A} (put : A -> list Z) w l : (forall a, zlen (put a) = w) -> zlen l < 2 ^ 64 -> table w (put_vec put l).
Proof.
  intros H L. exists (put_u64 (zlen l)), (flat_map put l). split; [reflexivity|]. split; [apply zlen_le_bytes|].
  assert (N : number (put_u64 (zlen l)) = zlen l).
  { rewrite <- WavFile.number_of. apply (of_le_bytes_le 8). pose proof (zlen_nonneg l). change (8 * Z.of_nat 8) with 64. lia. }
  rewrite N. clear L N. induction l as [|a l IH]; cbn [flat_map]; [cbn; lia|]. rewrite zlen_app, zlen_cons, H, IH. lia.
Qed.
Theorem C94_saved : forall c info, fits c -> as_info (ad_stream c) = Some info -> exists t, well_formed t /\ ad_save c = file_of t /\
  number (p_level t) = ad_level c /\ number (p_rate t) = si_rate info /\ number (p_channels t) = si_channels info.
Proof.
  intros c info HF I. set (h := ad_headers c). set (s := as_stream (ad_stream c)). destruct HF as [F1 F2 F3 F4 F5 F6 F7]. destruct F2. destruct (F3 _ I) as [F8 F9].
  exists (mkParts (put_u32 (ad_level c)) (put_vec put_u8 (nl_data (fhs_exps h))) (put_u32 (nl_count (fhs_exps h)))
    (put_vec put_u64 (bv_binary (fhs_inits h))) (put_u128 (bv_cursor (fhs_inits h))) (put_vec put_u16 (fhs_sizes h)) (put_vec put_u64 (fhs_cursors h))
    (put_vec put_history (fhs_hists h)) (put_u32 (fhs_cursor h)) 1 (put_u32 (si_rate info)) (put_u32 (si_channels info))
    (put_vec put_u128 (bs_binary s)) (put_u128 (bs_cursor s)) (put_u128 (bs_capacity s))).
  split; [|split; [|split; [|split]]].
  - constructor; cbn [p_level p_nibbles p_nibble_count p_flags p_flag_count p_sizes p_offsets p_histories p_frame p_tag p_rate p_channels p_chunks p_bit p_capacity];
      try reflexivity; apply table_vec; auto; try (intros; apply zlen_le_bytes).
    intros [[x y] z]. unfold put_history, put_i16. now rewrite !zlen_app, !zlen_le_bytes.
  - unfold ad_save, file_of. rewrite I. unfold put_headers, put_nibble_list, put_bitvec, put_info, put_bitstream.
    cbn [p_level p_nibbles p_nibble_count p_flags p_flag_count p_sizes p_offsets p_histories p_frame p_tag p_rate p_channels p_chunks p_bit p_capacity].
    fold h s. rewrite <- !app_assoc. reflexivity.
  - rewrite <- WavFile.number_of. apply (of_le_bytes_le 4). exact F1.
  - rewrite <- WavFile.number_of. apply (of_le_bytes_le 4). exact F8.
  - rewrite <- WavFile.number_of. apply (of_le_bytes_le 4). exact F9.
Qed.
Print Assumptions C94_saved.

(** ** A file that no codec would write: two nibbles of padding, no frame, level 40, positions nowhere *)
Definition odd_parts : parts :=
  mkParts [40; 0; 0; 0] ([1; 0; 0; 0; 0; 0; 0; 0] ++ [7]) [0; 0; 0; 0] (repeat 0 8) (repeat 9 16) (repeat 0 8) (repeat 0 8) (repeat 0 8) [1; 2; 3; 4]
    1 [128; 187; 0; 0] [2; 0; 0; 0] ([1; 0; 0; 0; 0; 0; 0; 0] ++ repeat 255 16) (repeat 77 16) (repeat 5 16).
Example C94_applies : well_formed odd_parts /\ Forall byte (file_of odd_parts) /\
  (exists c, ad_load Release (file_of odd_parts ++ [1; 2; 3]) = Ok (Some c) /\ ad_info c = Ok (mkInfo 48000 2) /\ ad_level c = 40 /\ ad_save c = file_of (rewound odd_parts)) /\
  ad_load Debug (file_of odd_parts) = Panic ArithmeticOverflow /\ file_of (rewound odd_parts) <> file_of odd_parts /\
  ~ (exists t rest, well_formed t /\ removelast (file_of odd_parts) = file_of t ++ rest).
Proof.
  assert (W : well_formed odd_parts).
  { constructor; try reflexivity; [exists [1; 0; 0; 0; 0; 0; 0; 0], [7]|exists (repeat 0 8), []|exists (repeat 0 8), []|exists (repeat 0 8), []|exists (repeat 0 8), []
      |exists [1; 0; 0; 0; 0; 0; 0; 0], (repeat 255 16)]; repeat split; reflexivity. }
  assert (B : Forall byte (file_of odd_parts)).
  { apply Forall_forall. intros x H. assert (K : forallb (fun b => (0 <=? b) && (b <? 256)) (file_of odd_parts) = true) by (vm_compute; reflexivity).
    rewrite forallb_forall in K. specialize (K x H). unfold byte. lia. }
  assert (B3 : Forall byte (file_of odd_parts ++ [1; 2; 3])) by (apply Forall_app; split; [exact B|]; repeat constructor; unfold byte; lia).
  split; [exact W|]. split; [exact B|]. split; [|split; [|split]].
  - destruct (proj2 (C94_loads _ B3)) as (c & E); [exists odd_parts, [1; 2; 3]; auto|]. exists c. split; [exact E|].
    destruct (C94_loaded Release odd_parts [1; 2; 3] c W B E) as (I & L & Sv). repeat split; auto.
  - rewrite <- (app_nil_r (file_of odd_parts)). apply (C94_debug odd_parts [] W B). vm_compute. discriminate.
  - vm_compute. discriminate.
  - rewrite <- C94_loads; [intros (c & E); revert E; vm_compute; discriminate|].
    apply Forall_forall. intros x H. assert (K : forallb (fun b => (0 <=? b) && (b <? 256)) (removelast (file_of odd_parts)) = true) by (vm_compute; reflexivity).
    rewrite forallb_forall in K. specialize (K x H). unfold byte. lia.
Qed.
