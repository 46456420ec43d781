(** * Properties C75 and C76: the [unsafe] blocks

    [Model/Layout.v] lays out memory; [wav_call] (Properties/TapeProps.v) is any call on a
    WavCodec; [used] and [entries] (Properties/CollectionProps.v) are about linked lists. *)
From Coq Require Import ZArith List Bool Lia.
From Verif Require Import Model.Base Model.F32 Model.Sample Model.Bincode Model.Adhoc Model.Wav Model.LinkedList Model.Layout
  Spec.Recording Spec.Wave Spec.Tape Spec.Collections Proofs.BaseFacts Proofs.ListFacts Properties.TapeProps Properties.CollectionProps.
Import ListNotations.
Open Scope Z_scope.

(** ** C75: the WAV codec's views of memory *)

(** The bytes of a file are those in memory, none of them padding. *)
Definition all_written (m : outcome (list Z)) : outcome (list (option Z)) := f <- m ;; Ok (map Some f).

Lemma le_uwrap n x : le_bytes n (uwrap (8 * Z.of_nat n) x) = le_bytes n x.
Proof.
  unfold uwrap. revert x. induction n as [|n IH]; intros x; [reflexivity|]. cbn [le_bytes].
  rewrite Nat2Z.inj_succ. replace (8 * Z.succ (Z.of_nat n)) with (8 + 8 * Z.of_nat n) by lia. rewrite Z.pow_add_r by lia. change (2 ^ 8) with 256.
  assert (P : 0 < 2 ^ (8 * Z.of_nat n)) by (apply Z.pow_pos_nonneg; lia).
  rewrite Z.rem_mul_r by lia. f_equal.
  - rewrite Z.mul_comm, Z_mod_plus_full. now rewrite Z.mod_mod by lia.
  - rewrite Z.mul_comm, Z.div_add by lia. rewrite (Z.div_small (x mod 256)) by (apply Z.mod_pos_bound; lia). rewrite Z.add_0_l. apply IH.
Qed.

(** On a little-endian machine: the file [save_to] writes, computed from the layout of the
    struct in memory, is the file of the WAV properties; the struct has no padding, its fields
    are where the format wants them, and it is 44 bytes long; loading and playing, computed
    from the layout, are those of the WAV properties too. *)
Theorem C75_little_endian : forall p w,
  wav_save_on Little p w = all_written (wav_save p w) /\
  (forall h, raw_header_of p w = Ok h ->
     c_offsets 0 (raw_fields h) = [0; 4; 8; 12; 16; 20; 22; 24; 28; 32; 34; 36; 40] /\ c_size (raw_fields h) = 44) /\
  (forall file, wav_load_on Little p file = wav_load p file) /\
  (forall out, wav_decode_on Little w out = wav_decode w out).
Proof.
  intros p w. split; [|split; [|split]].
  - unfold wav_save_on, all_written, wav_save, wav_save_to, wav_header, raw_header_of.
    change (uwrap 32 (c_size (raw_fields raw_default)) - 8) with 36. change (44 - 8) with 36.
    assert (E36 : uchk p 32 36 = Ok 36) by reflexivity. rewrite E36. cbn [bind].
    set (len := uwrap 32 (zlen (wav_pcm w))). set (fr := swrap 32 (si_rate (wav_info w))). set (ch := swrap 16 (si_channels (wav_info w))).
    destruct (uchk p 32 (36 + len)) as [fs|r|]; cbn [bind]; [|reflexivity..].
    destruct (schk p 32 (fr * ch)) as [a|r|]; cbn [bind]; [|reflexivity..].
    destruct (schk p 32 (a * 16)) as [b|r|]; cbn [bind]; [|reflexivity..].
    destruct (schk p 16 (ch * 16)) as [c|r|]; cbn [bind]; [|reflexivity..].
    f_equal. rewrite map_app. f_equal.
    unfold put_u32, put_i32, put_i16. change (uwrap 32) with (uwrap (8 * Z.of_nat 4)). change (uwrap 16) with (uwrap (8 * Z.of_nat 2)).
    unfold c_image, raw_fields. cbn [rh_riff rh_file_size rh_wave rh_fmt rh_cksize rh_audio_format rh_num_channels rh_frequency rh_bytes_per_sec rh_block_align rh_bits_per_sample rh_data_header rh_file_size_data raw_default].
    unfold c_image_from, cimage, int_image. rewrite !le_uwrap. reflexivity.
  - intros h E. unfold raw_header_of in E. inv_bind E. inv_bind E. inv_bind E. inv_bind E. inv_bind E. injection E as <-. split; reflexivity.
  - intros file. reflexivity.
  - intros out. unfold wav_decode_on, wav_decode. destruct (udiv _ _) as [bl| |]; cbn [bind]; [|reflexivity..].
    set (n := Z.to_nat _). assert (G : forall n c s, wav_read_on Little (wav_pcm w) n c s = wav_read (wav_pcm w) n c s).
    { clear n. induction n as [|n IH]; intros c s; [reflexivity|]. cbn [wav_read_on wav_read]. destruct (c <? s); [|reflexivity].
      assert (EV : view_at Little (wav_pcm w) c = pcm_at (wav_pcm w) c).
      { unfold view_at, pcm_at. destruct (index (wav_pcm w) (2 * c)); cbn [bind]; [|reflexivity..]. destruct (index (wav_pcm w) (2 * c + 1)); cbn [bind]; [|reflexivity..].
        unfold int_at, of_le_bytes. do 2 f_equal. lia. }
      rewrite EV. destruct (pcm_at _ _); cbn [bind]; [|reflexivity..]. now rewrite IH. }
    now rewrite G.
Qed.
Print Assumptions C75_little_endian.

(** Where a WavCodec's vector can be: after any calls on a new codec, or after loading a file,
    the allocator choosing addresses as it [may]. *)
Inductive lives (may : Z -> Prop) (p : profile) : wav -> place -> Prop :=
| LivesNew info : lives may p (wav_new info) place_new
| LivesLoaded file w pl : wav_load p file = Ok (Some w) -> grows may place_new (zlen (wav_pcm w)) pl -> lives may p w pl
| LivesCall w pl a w' r pl' : lives may p w pl -> wav_call p w a = Ok (w', r) -> grows may pl (zlen (wav_pcm w')) pl' -> lives may p w' pl'.

(** If the allocator returns even addresses, as allocators do, then the view of a codec that
    holds any sample is one [from_raw_parts] allows: aligned, and inside the block. *)
Theorem C75_view_allowed : forall (may : Z -> Prop) p w pl, (forall a, may a -> a <> 0 /\ a mod 2 = 0) ->
  lives may p w pl -> wav_pcm w <> [] -> view_allowed pl (wav_num_samples w).
Proof.
  intros may p w pl Hm HL.
  assert (I : zlen (wav_pcm w) <= pl_cap pl /\ (may (pl_addr pl) \/ pl = place_new)).
  { induction HL as [info|file w pl _ [G1 G2]|w pl a w' r pl' _ IH _ [G1 G2]].
    - split; [cbn; lia|auto].
    - split; [exact G1|]. destruct G2 as [->|G]; auto.
    - split; [exact G1|]. destruct G2 as [->|G]; auto. apply IH. }
  intros HN. destruct I as [I1 I2]. assert (N : 0 < zlen (wav_pcm w)).
  { pose proof (zlen_nonneg (wav_pcm w)). destruct (wav_pcm w); [congruence|]. rewrite zlen_cons. pose proof (zlen_nonneg l). lia. }
  destruct I2 as [I2| ->]; [|cbn in I1; lia]. destruct (Hm _ I2) as [A1 A2]. unfold view_allowed, wav_num_samples. split; [exact A1|]. split; [exact A2|].
  pose proof (Z.mul_div_le (zlen (wav_pcm w)) 2). pose proof (Z.div_pos (zlen (wav_pcm w)) 2). lia.
Qed.
Print Assumptions C75_view_allowed.
Example C75_applies : lives (fun a => a = 4096) Release (mkWav (mkInfo 8000 1) [0; 64] 1) (mkPlace 4096 8) /\
  view_allowed (mkPlace 4096 8) (wav_num_samples (mkWav (mkInfo 8000 1) [0; 64] 1)).
Proof.
  assert (L : lives (fun a => a = 4096) Release (mkWav (mkInfo 8000 1) [0; 64] 1) (mkPlace 4096 8)).
  { eapply LivesCall with (a := Rec [Sample.normalize_sample 16384]) (w := wav_new (mkInfo 8000 1)) (pl := place_new); [constructor| |].
    - vm_compute. reflexivity.
    - split; [cbn; lia|now right]. }
  split; [exact L|]. apply (C75_view_allowed (fun a => a = 4096) Release); [intros a ->; split; [lia|reflexivity]|exact L|discriminate].
Qed.
(** What fails: a codec nothing was written to.  Its vector has no block and its address is 1,
    so [decode], which builds the view before it looks at the length (wav.rs:282), builds one
    that [from_raw_parts] forbids: undefined behaviour, and since Rust 1.78 an abort in builds
    with debug assertions. *)
Theorem C75_empty_refuted : forall may p info, exists pl, lives may p (wav_new info) pl /\
  ~ view_allowed pl (wav_num_samples (wav_new info)).
Proof. intros may p info. exists place_new. split; [constructor|]. intros (_ & A & _). discriminate A. Qed.
Print Assumptions C75_empty_refuted.

(** What fails on a big-endian machine: the header goes out in the machine's byte order, so no file
    of one kind of machine is accepted by the other kind; and samples are stored low byte
    first but read in the machine's order. *)
Theorem C75_files_dont_travel : forall p q w file,
  (all_written (wav_save p w) = Ok (map Some file) -> forall w', wav_load_on Big q file <> Ok (Some w')) /\
  (wav_save_on Big p w = Ok (map Some file) -> forall w', wav_load q file <> Ok (Some w')).
Proof.
  assert (SI : forall a b : list Z, map Some a = map Some b -> a = b).
  { induction a as [|x a IH]; intros [|y b] H; try discriminate H; [reflexivity|]. injection H as -> H. now rewrite (IH b H). }
  assert (K : forall en q file w', swrap 16 (field_on en (firstn 256 file) 34 2) = 4096 -> wav_load_on en q file <> Ok (Some w')).
  { intros en q file w' E H. unfold wav_load_on in H. destruct (zlen file <? 256); [discriminate H|].
    destruct (find_tag (firstn 256 file) 0) as [d|]; [|discriminate H]. rewrite E in H. inv_bind H. inv_bind H. inv_bind H. inv_bind H. inv_bind H. discriminate H. }
  intros p q w file. split; intros S w'.
  - apply K. unfold all_written, wav_save, wav_save_to, wav_header in S.
    set (len := uwrap 32 (zlen (wav_pcm w))) in S. set (fr := swrap 32 (si_rate (wav_info w))) in S. set (ch := swrap 16 (si_channels (wav_info w))) in S.
    destruct (uchk p 32 (44 - 8 + len)) as [fs| |]; cbn [bind] in S; [|discriminate S..].
    destruct (schk p 32 (fr * ch)) as [a| |]; cbn [bind] in S; [|discriminate S..].
    destruct (schk p 32 (a * 16)) as [b| |]; cbn [bind] in S; [|discriminate S..].
    destruct (schk p 16 (ch * 16)) as [c| |]; cbn [bind] in S; [|discriminate S..].
    match type of S with Ok ?x = Ok ?y => assert (E : x = y) by congruence end. clear S. apply SI in E. rewrite <- E. reflexivity.
  - enough (wav_load_on Little q file <> Ok (Some w')) by exact H. apply K. unfold wav_save_on, raw_header_of in S.
    change (uwrap 32 (c_size (raw_fields raw_default)) - 8) with 36 in S. assert (E36 : uchk p 32 36 = Ok 36) by reflexivity. rewrite E36 in S. cbn [bind] in S.
    set (len := uwrap 32 (zlen (wav_pcm w))) in S. set (fr := swrap 32 (si_rate (wav_info w))) in S. set (ch := swrap 16 (si_channels (wav_info w))) in S.
    destruct (uchk p 32 (36 + len)) as [fs| |]; cbn [bind] in S; [|discriminate S..].
    destruct (schk p 32 (fr * ch)) as [a| |]; cbn [bind] in S; [|discriminate S..].
    destruct (schk p 32 (a * 16)) as [b| |]; cbn [bind] in S; [|discriminate S..].
    destruct (schk p 16 (ch * 16)) as [c| |]; cbn [bind] in S; [|discriminate S..].
    match type of S with Ok ?x = Ok ?y => assert (E : x = y) by congruence end. clear S.
    match type of E with c_image Big (raw_fields ?h) ++ _ = _ =>
      assert (I : exists a b : list Z, c_image Big (raw_fields h) = map Some (a ++ [0; 16] ++ b) /\ length a = 34%nat) end.
    { eexists (TAG_RIFF ++ int_image Big 4 fs ++ TAG_WAVE ++ TAG_FMT ++ int_image Big 4 16 ++ int_image Big 2 1 ++ int_image Big 2 ch ++ int_image Big 4 fr
        ++ int_image Big 4 (Z.quot b 8) ++ int_image Big 2 (Z.quot c 8)), (TAG_DATA ++ int_image Big 4 len). split; reflexivity. }
    destruct I as (x & y & I & Lx). rewrite I, <- map_app in E. apply SI in E. rewrite <- E.
    unfold field_on. do 35 (destruct x as [|?b x]; [try discriminate Lx|]); [|discriminate Lx]. reflexivity.
Qed.
Print Assumptions C75_files_dont_travel.
Theorem C75_big_endian_refuted : exists info samples buf w w1 w2 got n,
  wav_calls Release (wav_new info) [Rec samples; Wind (SStart 0)] = Ok (w, [Recorded (Some 1); Wound]) /\
  wav_decode_on Little w buf = Ok (w1, samples, Some 1) /\
  wav_decode_on Big w buf = Ok (w2, got, Some n) /\ map quantise got <> map quantise samples.
Proof.
  exists (mkInfo 8000 1), [restore 1], [restore 0]. eexists _, _, _, _, _. repeat split; [vm_compute; reflexivity..|]. vm_compute. discriminate.
Qed.
Print Assumptions C75_big_endian_refuted.

(** ** C76: iter_mut *)
(** [handled p n l]: [l] is what [n] operations make of a new list, changes of all entries
    through [iter_mut] among them, every pointer passed in being the pointer of an entry at
    that time. *)
Inductive handled {T} (p : profile) : nat -> llist T -> Prop :=
| HandledNew : handled p 0 ll_new
| HandledOp n l v op l' a : handled p n l -> entries l = Ok v -> seq_allowed v op -> list_do p l op = Ok (l', a) -> handled p (S n) l'
| HandledMut n l f l' : handled p n l -> ll_iter_mut f l = Ok l' -> handled p (S n) l'.

Definition replaced {T} (f : T -> T) (e : Z * T) : Z * T := (fst e, f (snd e)).
Lemma iter_mut_rep {T} (f : T -> T) l es free : ll_rep l es free -> exists l',
  ll_iter_mut f l = Ok l' /\ ll_rep l' (map (replaced f) es) free /\ zlen (ll_memory l') = zlen (ll_memory l).
Proof.
  intros HR. set (g := replaced f).
  assert (G : forall b a l, ll_rep l (map g a ++ b) free -> exists l',
    foldM (fun l i => nd <- ll_at l i ;; x <- expect (nd_data nd) ;; ll_put l i (mkNode (Some (f x)) (nd_left nd) (nd_right nd))) (ptrs b) l = Ok l' /\
    ll_rep l' (map g (a ++ b)) free /\ zlen (ll_memory l') = zlen (ll_memory l)).
  { induction b as [|[i y] b IH]; intros a l0 R.
    - exists l0. rewrite app_nil_r in *. split; [reflexivity|auto].
    - destruct (rep_write l0 (map g a) i y b free (f y) R) as (nd & l1 & E1 & E2 & R1 & _ & Zm).
      destruct (rep_entry l0 _ _ i y R) as (nd' & E1' & ED); [apply in_or_app; right; now left|].
      assert (nd' = nd) by congruence. subst nd'. clear E1'.
      destruct (IH (a ++ [(i, y)]) l1) as (l2 & E3 & R2 & E4).
      { rewrite map_app. cbn [map]. rewrite <- app_assoc. exact R1. }
      exists l2. change (ptrs ((i, y) :: b)) with (i :: ptrs b). cbn [foldM]. rewrite E1. cbn [bind]. rewrite ED. cbn [expect bind]. rewrite E2. cbn [bind].
      split; [exact E3|]. rewrite <- app_assoc in R2. split; [exact R2|lia]. }
  destruct (G es [] l HR) as (l' & E & R' & Zm). exists l'. split; [|auto].
  unfold ll_iter_mut. rewrite (rep_walk _ _ _ HR). exact E.
Qed.
Lemma handled_rep {T} p n (l : llist T) : handled p n l -> Z.of_nat n < 2 ^ 32 -> exists es free, ll_rep l es free /\ zlen es <= Z.of_nat n.
Proof.
  induction 1 as [|n l v op l' a U IH HE HA HD|n l f l' U IH HM]; intros Hn.
  - exists [], []. split; [apply new_rep|change (zlen (@nil (Z * T))) with 0; lia].
  - destruct IH as (es & free & HR & HZ); [lia|]. rewrite (rep_entries _ _ _ HR) in HE. injection HE as <-.
    destruct (list_do_spec p l es free op HR ltac:(unfold NULL; lia) HA) as (l1 & a1 & es' & free' & E & _ & R' & Z1 & _).
    rewrite E in HD. injection HD as <- <-. exists es', free'. split; auto. lia.
  - destruct IH as (es & free & HR & HZ); [lia|]. destruct (iter_mut_rep f l es free HR) as (l1 & E & R' & _).
    rewrite E in HM. injection HM as <-. eexists _, _. split; [exact R'|]. unfold zlen in *. rewrite map_length. lia.
Qed.

(** However a list has been used, [iter_mut] stays inside the list's memory, gives out each
    entry exactly once and so never two references to the same one, and changing every entry
    through it changes the entries and nothing else: not their order, not their pointers. *)
Theorem C76_iter_mut : forall (T : Type) p n (l : llist T) (f : T -> T), handled p n l -> Z.of_nat n < 2 ^ 32 - 1 ->
  exists v l', entries l = Ok v /\ NoDup (map fst v) /\ Forall (fun i => 0 <= i < zlen (ll_memory l)) (map fst v) /\
    ll_iter_mut f l = Ok l' /\ entries l' = Ok (map (fun e => (fst e, f (snd e))) v) /\ zlen (ll_memory l') = zlen (ll_memory l).
Proof.
  intros T p n l f U Hn. destruct (handled_rep p n l U) as (es & free & HR & HZ); [lia|].
  destruct (iter_mut_rep f l es free HR) as (l' & E & R' & Zm). exists es, l'.
  split; [exact (rep_entries _ _ _ HR)|]. split; [exact (nodup_app_l _ _ (lr_nodup _ _ _ HR))|].
  split; [apply Forall_forall; intros i Hi; apply (lr_all _ _ _ HR), in_or_app; left; exact Hi|].
  split; [exact E|]. split; [exact (rep_entries _ _ _ R')|exact Zm].
Qed.
Print Assumptions C76_iter_mut.
(** And the list is as good as before: every operation, now or later, still does what it does to a
    plain sequence, and recycles removed nodes. *)
Theorem C76_still_a_sequence : forall (T : Type) p n (l : llist T), handled p n l -> Z.of_nat n < 2 ^ 32 - 1 ->
  exists v, entries l = Ok v /\ NoDup (map fst v) /\ ll_len l = zlen v /\ ll_iter l = Ok (map snd v) /\
    forall op, seq_allowed v op -> exists l' a v',
      list_do p l op = Ok (l', a) /\ entries l' = Ok v' /\ seq_step v op v' a /\
      zlen (ll_memory l') = Z.max (zlen (ll_memory l)) (zlen v').
Proof.
  intros T p n l U Hn. destruct (handled_rep p n l U) as (es & free & HR & HZ); [lia|].
  exists es. split; [exact (rep_entries _ _ _ HR)|]. split; [exact (nodup_app_l _ _ (lr_nodup _ _ _ HR))|].
  split; [exact (lr_len _ _ _ HR)|]. split; [exact (rep_iter _ _ _ HR)|]. intros op HA.
  destruct (list_do_spec p l es free op HR ltac:(unfold NULL; lia) HA) as (l' & a & es' & free' & E & S & R' & _ & Z').
  exists l', a, es'. split; [exact E|]. split; [exact (rep_entries _ _ _ R')|]. auto.
Qed.
Print Assumptions C76_still_a_sequence.
(** Three entries, the first one removed, all changed, one put at the front into the recycled node. *)
Example C76_applies : exists l : llist Z, handled Debug 6 l /\
  entries l = Ok [(0, 7); (1, 20); (2, 30)] /\ ll_iter l = Ok [7; 20; 30].
Proof.
  assert (H0 : handled Debug 0 (@ll_new Z)) by constructor.
  Ltac next H o H' := match type of H with handled _ ?n ?l =>
    let e := eval vm_compute in (entries l) in match e with Ok ?v =>
    let r := eval vm_compute in (list_do Debug l o) in match r with Ok (?l', ?a) =>
      assert (H' : handled Debug (S n) l') by (apply (HandledOp Debug n l v o l' a H); [vm_compute; reflexivity|exact I|vm_compute; reflexivity]) end end end.
  next H0 (AddRear 1) H1. next H1 (AddRear 2) H2. next H2 (AddRear 3) H3. next H3 (@TakeFront Z) H4.
  match type of H4 with handled _ ?n ?l => let r := eval vm_compute in (ll_iter_mut (Z.mul 10) l) in match r with Ok ?l' =>
    assert (H5 : handled Debug (S n) l') by (apply (HandledMut Debug n l (Z.mul 10) l' H4); vm_compute; reflexivity) end end.
  next H5 (AddFront 7) H6. eexists. split; [exact H6|]. split; vm_compute; reflexivity.
Qed.
