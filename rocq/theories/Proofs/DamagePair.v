(** * A damaged and an undamaged decoder side by side *)
From Coq Require Import ZArith List Bool Lia.
From Verif Require Import Model.Base Model.F32 Model.Sample Model.BitStream Model.NibbleList Model.BitVec
  Model.CircularStack Model.Frame Model.Adhoc Spec.Bits Spec.Codec Spec.Recording
  Proofs.BaseFacts Proofs.BitStreamFacts Proofs.BitLog Proofs.Rice Proofs.Containers Proofs.Headers Proofs.FrameFacts Proofs.EncodeFacts
  Proofs.DecodeFacts Proofs.DamageFacts.
Import ListNotations.
Open Scope Z_scope.

(** ** In step: the same channels, and the same bits for the next [k] blocks *)
Record in_step (p : profile) (k : Z) (d1 d2 : dstate) (m1 m2 : list Z) (done todoA todoB : list (list frame)) (ds : list dch) (L : Z) : Prop := {
  is_1 : dec_inv p d1 m1 done (todoA ++ todoB) ds L;
  is_2 : dec_inv p d2 m2 done (todoA ++ todoB) ds L;
  is_m1 : mem_at m1 (concat (done ++ todoA ++ todoB)) (concat done) (concat todoA);
  is_m2 : mem_at m2 (concat (done ++ todoA ++ todoB)) (concat done) (concat todoA) }.
Definition exact (p : profile) (k : Z) (d1 d2 : dstate) : Prop :=
  exists m1 m2 done todoA todoB ds L, in_step p k d1 d2 m1 m2 done todoA todoB ds L /\
    (todoB = [] \/ k <= L + reach_run 0 todoA).

Lemma dec_inv_row p d m done row todo ds :
  dec_inv p d m done (row :: todo) ds 0 ->
  mem_at m (concat (done ++ row :: todo)) (concat done) row ->
  exists d', foldM (decode_channel p) (range (zlen ds)) d = Ok d' /\
    dec_inv p d' m (done ++ [row]) todo (step_row ds row) (row_n row) /\ zlen (step_row ds row) = zlen ds.
Proof.
  intros [HA HE HO HN HSt] HM. destruct HO as (HF & (k & HS) & HO).
  assert (Ec : concat (done ++ row :: todo) = concat done ++ row ++ concat todo) by now rewrite concat_app.
  rewrite Ec in HA, HM.
  destruct (decode_row_at p d m (concat done) row (concat todo) ds HA HM HF) as (d1 & E1 & R1).
  exists d1. split; [exact E1|].
  assert (HK : concat (done ++ [row]) = concat done ++ row) by (rewrite concat_app; cbn [concat]; now rewrite app_nil_r).
  assert (Ek : row_n row = k).
  { destruct ds; [congruence|]. destruct row; [cbn in HF; inversion HF|]. now inversion HS. }
  split; [|unfold zlen; now rewrite (length_step p)]. constructor.
  - rewrite <- app_assoc. cbn [app]. rewrite Ec, HK. exact R1.
  - rewrite Ek. change k with (0 + k). eapply even_step; eauto.
  - now rewrite map_fst_step.
  - intros E. apply (f_equal (@length _)) in E. rewrite (length_step p) in E by auto. destruct ds; [congruence|discriminate].
  - right. eapply step_started; eauto.
Qed.
Lemma dec_inv_end p d m done ds L : dec_inv p d m done [] ds L -> zlen (concat done) + 1 < 2 ^ 32 ->
  foldM (decode_channel p) (range (zlen ds)) d = Ok d.
Proof.
  intros [HA HE HO HN HSt] HM. destruct d as [[chs s] hs]. destruct HA as (HC & HR & HH). rewrite app_nil_r in HH.
  apply (decode_end_spec p chs s hs (concat done)); auto. unfold zlen. rewrite (Forall2_len _ _ _ HC). lia.
Qed.
Lemma dec_inv_empty p chs s hs m done todo ds L : dec_inv p (chs, s, hs) m done todo ds L -> buffers_empty chs = (L =? 0).
Proof. intros [(HC & _) HE _ HN _]. eapply buffers_empty_spec; eauto. Qed.
Lemma dec_inv_nonneg p d m done todo ds L : dec_inv p d m done todo ds L -> 0 <= L.
Proof. intros [_ HE _ HN _]. destruct ds; [congruence|]. inversion HE; subst. apply zlen_nonneg. Qed.

Lemma mem_at_next m done row t B : mem_at m (concat (done ++ (row :: t) ++ B)) (concat done) (concat (row :: t)) ->
  mem_at m (concat (done ++ row :: (t ++ B))) (concat done) row /\
  mem_at m (concat ((done ++ [row]) ++ t ++ B)) (concat (done ++ [row])) (concat t).
Proof.
  cbn [concat app]. intros H. apply mem_at_split in H. rewrite <- !app_assoc. cbn [app]. rewrite (concat_app done [row]). cbn [concat]. rewrite app_nil_r.
  exact H.
Qed.

(** [run] empty rows have just been passed. *)
Lemma buffer_audio_step p k : forall fuel run d1 d2 m1 m2 done todoA todoB ds L,
  in_step p k d1 d2 m1 m2 done todoA todoB ds L -> (run + fuel = 10)%nat -> 0 < k ->
  (todoB = [] \/ k <= (if L =? 0 then reach_run run todoA else L + reach_run 0 todoA)) ->
  exists d1' d2' n done' todoA' ds' L',
    buffer_audio p (zlen ds) fuel d1 = Ok (d1', n) /\ buffer_audio p (zlen ds) fuel d2 = Ok (d2', n) /\
    in_step p k d1' d2' m1 m2 done' todoA' todoB ds' L' /\ zlen ds' = zlen ds /\
    (todoB = [] \/ k <= L' + reach_run 0 todoA') /\ ((n < fuel)%nat -> 0 < L').
Proof.
  induction fuel as [|fuel IH]; intros run d1 d2 m1 m2 done todoA todoB ds L HI Hrun Hk HG; cbn [buffer_audio].
  - exists d1, d2, 0%nat, done, todoA, ds, L. split; auto. split; auto. split; auto. split; auto. split; [|intros; lia].
    destruct HG as [HG|HG]; auto. right. destruct (Z.eqb_spec L 0) as [->|]; auto.
    rewrite reach_run_9 in HG by lia. lia.
  - destruct d1 as [[chs1 s1] hs1] eqn:ED1, d2 as [[chs2 s2] hs2] eqn:ED2. pose proof HI as [I1 I2 M1 M2].
    pose proof (dec_inv_nonneg _ _ _ _ _ _ _ I1) as HL.
    rewrite (dec_inv_empty _ _ _ _ _ _ _ _ _ I1), (dec_inv_empty _ _ _ _ _ _ _ _ _ I2).
    destruct (Z.eqb_spec L 0) as [->|HL0].
    2: { eexists _, _, 0%nat, done, todoA, ds, L. split; [reflexivity|]. split; [reflexivity|]. split; [exact HI|]. split; auto.
         split; auto. intros; lia. }
    rewrite <- ED1 in I1, HI |- *. rewrite <- ED2 in I2, HI |- *. clear ED1 ED2 chs1 s1 hs1 chs2 s2 hs2.
    destruct todoA as [|row todoA].
    + assert (todoB = []) by (destruct HG as [HG|HG]; auto; cbn [reach_run] in HG; lia). subst todoB. cbn [app] in *.
      pose proof M1 as (_ & _ & _ & HN). rewrite app_nil_r in HN.
      rewrite (dec_inv_end _ _ _ _ _ _ I1 HN), (dec_inv_end _ _ _ _ _ _ I2 HN). cbn [bind].
      destruct (IH (S run) d1 d2 m1 m2 done [] [] ds 0) as (e1 & e2 & n & done' & todoA' & ds' & L' & E1 & E2 & IS & Zd & G & LL); auto; try lia.
      rewrite E1, E2. cbn [bind]. exists e1, e2, (S n), done', todoA', ds', L'. split; auto. split; auto. split; auto. split; auto. split; auto.
      intros; apply LL; lia.
    + destruct (mem_at_next _ _ _ _ _ M1) as [M1a M1b]. destruct (mem_at_next _ _ _ _ _ M2) as [M2a M2b].
      cbn [app] in I1, I2.
      destruct (dec_inv_row p d1 m1 done row (todoA ++ todoB) ds I1 M1a) as (e1 & E1 & J1 & Z1).
      destruct (dec_inv_row p d2 m2 done row (todoA ++ todoB) ds I2 M2a) as (e2 & E2 & J2 & _).
      rewrite E1, E2. cbn [bind].
      destruct (IH (S run) e1 e2 m1 m2 (done ++ [row]) todoA todoB (step_row ds row) (row_n row))
        as (f1 & f2 & n & done' & todoA' & ds' & L' & F1 & F2 & IS & Zd & G & LL); auto; try lia.
      { constructor; auto. }
      { destruct HG as [HG|HG]; auto. right. cbn [reach_run] in HG. destruct (row_n row =? 0); auto.
        destruct (run <=? 8)%nat; [exact HG|lia]. }
      rewrite Z1 in F1, F2, Zd. rewrite F1, F2. cbn [bind]. exists f1, f2, (S n), done', todoA', ds', L'.
      split; auto. split; auto. split; auto. split; auto. split; auto. intros; apply LL; lia.
Qed.

Lemma dec_inv_pop p chs s hs m done todo ds L : dec_inv p (chs, s, hs) m done todo ds L -> 0 < L ->
  dec_inv p (map popc chs, s, hs) m done todo (map popd ds) (L - 1).
Proof.
  intros [A1 A2 A3 A4 A5] HL.
  assert (HNE : Forall (fun d => snd d <> []) ds).
  { eapply Forall_impl; [|apply A2]. cbn. intros dd Hdd Hnil. rewrite Hnil in Hdd. change (zlen (@nil f32)) with 0 in Hdd. lia. }
  destruct A1 as (HC & HR & HH). constructor.
  - split; [|split]; auto. now apply Forall2_pop.
  - unfold even in *. apply Forall_map. eapply Forall_impl; [|apply Forall_and; [apply A2|apply HNE]].
    cbn. intros dd [H1 H2]. destruct (snd dd); [congruence|]. rewrite zlen_cons in H1. cbn [tl]. lia.
  - rewrite map_map. cbn [popd fst]. exact A3.
  - destruct ds; [congruence|discriminate].
  - right. destruct A5 as [[_ ->]|A5]; [lia|]. apply Forall_map. exact A5.
Qed.

Lemma firstn_app_le {A} n (a b c : list A) : length a = length b -> (n <= length a)%nat -> firstn n a = firstn n b ->
  firstn n (a ++ c) = firstn n (b ++ c).
Proof. intros H1 H2 H3. rewrite !firstn_app, H3. do 2 f_equal. lia. Qed.

(** ** The output loop *)
(** [Q] may be [p = Release]; it is [False] when only the exact part is wanted. *)
Lemma decode_loop_pair p (Q : Prop) L1 L2 n : (Q -> p = Release) -> 0 < n -> forall fuel r k d1 d2,
  0 <= r -> r * n < Z.of_nat fuel ->
  zlen (channels_of d1) = n -> zlen (channels_of d2) = n ->
  (0 < k -> exact p k d1 d2) -> (Q -> alike L1 L2 d1 d2) -> (Q \/ r <= k) ->
  exists d1' d2' out1 out2 b,
    decode_loop p n fuel (r * n) d1 = Ok (d1', out1) /\ decode_loop p n fuel (r * n) d2 = Ok (d2', out2) /\
    0 <= b <= r /\ zlen out1 = b * n /\ zlen out2 = b * n /\
    firstn (Z.to_nat (k * n)) out1 = firstn (Z.to_nat (k * n)) out2 /\
    zlen (channels_of d1') = n /\ zlen (channels_of d2') = n /\
    (0 < k - b -> exact p (k - b) d1' d2') /\ (Q -> alike L1 L2 d1' d2') /\
    (Q -> supply d1' + b <= supply d1).
Proof.
  intros HQ Hn. induction fuel as [|fuel IH]; intros r k d1 d2 Hr Hf Z1 Z2 HX HA HP; [nia|].
  cbn [decode_loop]. destruct (Z.ltb_spec 0 (r * n)) as [Hrn|Hrn].
  2: { assert (r = 0) by nia. subst r. exists d1, d2, [], [], 0. rewrite !firstn_nil. split; auto. split; auto. split; [lia|].
       split; auto. split; auto. split; auto. split; auto. split; auto. split; [rewrite Z.sub_0_r; auto|]. split; auto. intros; lia. }
  assert (HB : exists e1 e2 t, buffer_audio p n MAX_DECODE_ATTEMPTS d1 = Ok (e1, t) /\ buffer_audio p n MAX_DECODE_ATTEMPTS d2 = Ok (e2, t) /\
    zlen (channels_of e1) = n /\ zlen (channels_of e2) = n /\
    (0 < k -> exact p k e1 e2 /\ map fc_buffer (channels_of e1) = map fc_buffer (channels_of e2) /\
       ((t < 10)%nat -> 0 < k - 1 -> exact p (k - 1) (map popc (channels_of e1), snd (fst e1), snd e1) (map popc (channels_of e2), snd (fst e2), snd e2))) /\
    (Q -> alike L1 L2 e1 e2 /\ supply e1 <= supply d1 /\ ((t < 10)%nat -> buffers_empty (channels_of e1) = false))).
  { assert (HB2 : Q -> exists e1 e2 t, buffer_audio p n MAX_DECODE_ATTEMPTS d1 = Ok (e1, t) /\ buffer_audio p n MAX_DECODE_ATTEMPTS d2 = Ok (e2, t) /\
      zlen (channels_of e1) = n /\ zlen (channels_of e2) = n /\
      alike L1 L2 e1 e2 /\ supply e1 <= supply d1 /\ ((t < 10)%nat -> buffers_empty (channels_of e1) = false)).
    { intros HQ'. rewrite (HQ HQ'). destruct (buffer_audio_alike L1 L2 n MAX_DECODE_ATTEMPTS d1 d2 (HA HQ') ltac:(lia)) as (e1 & e2 & t & E1 & E2 & AE & ZE & ME & BE).
      exists e1, e2, t. split; auto. split; auto. split; [lia|]. split; [|split; [exact AE|split; [exact ME|exact BE]]].
      pose proof (Forall2_len _ _ _ (al_shape _ _ _ _ AE)). unfold zlen in *. lia. }
    destruct (Z.ltb_spec 0 k) as [Hk|Hk].
    - destruct (HX Hk) as (m1 & m2 & done & todoA & todoB & ds & L & IS & HG).
      assert (Zd : zlen ds = n).
      { destruct d1 as [[chs1 s1] hs1]. pose proof (is_1 _ _ _ _ _ _ _ _ _ _ _ IS) as [(HC & _) _ _ _ _]. unfold channels_of in Z1. cbn [fst] in Z1.
        unfold zlen in *. rewrite <- (Forall2_len _ _ _ HC). exact Z1. }
      destruct (buffer_audio_step p k 10 0 d1 d2 m1 m2 done todoA todoB ds L IS eq_refl Hk) as (e1 & e2 & t & done' & todoA' & ds' & L' & E1 & E2 & IS' & Zd' & G' & LL).
      { destruct HG as [HG|HG]; auto. right. destruct (Z.eqb_spec L 0) as [->|]; auto. }
      rewrite Zd in E1, E2, Zd'.
      assert (HB3 : Q -> alike L1 L2 e1 e2 /\ supply e1 <= supply d1 /\ ((t < 10)%nat -> buffers_empty (channels_of e1) = false)).
      { intros HR. destruct (HB2 HR) as (f1 & f2 & t' & F1 & F2 & _ & _ & R). unfold MAX_DECODE_ATTEMPTS in F1, F2.
        rewrite E1 in F1. rewrite E2 in F2. injection F1 as <- <-. injection F2 as <-. exact R. }
      exists e1, e2, t. split; [exact E1|]. split; [exact E2|].
      pose proof IS' as [J1 J2 N1 N2]. destruct e1 as [[chs1 s1] hs1], e2 as [[chs2 s2] hs2]. cbn [channels_of fst snd].
      pose proof (di_at _ _ _ _ _ _ _ J1) as (C1 & _). pose proof (di_at _ _ _ _ _ _ _ J2) as (C2 & _).
      unfold channels_of in *. cbn [fst snd] in *.
      split; [unfold zlen in *; rewrite (Forall2_len _ _ _ C1); exact Zd'|].
      split; [unfold zlen in *; rewrite (Forall2_len _ _ _ C2); exact Zd'|].
      split; [|exact HB3]. intros _. split; [exists m1, m2, done', todoA', todoB, ds', L'; auto|]. split.
      + assert (BQ : forall chs es, Forall2 dch_rel chs es -> map fc_buffer chs = map snd es).
        { induction 1 as [|c dd l1 l2 [B _]]; cbn [map]; congruence. }
        rewrite (BQ _ _ C1), (BQ _ _ C2). reflexivity.
      + intros Ht Hk1. specialize (LL Ht). exists m1, m2, done', todoA', todoB, (map popd ds'), (L' - 1). split.
        * constructor; auto using dec_inv_pop.
        * destruct G' as [G'|G']; auto. right. lia.
    - assert (HR : Q) by (destruct HP; auto; nia).
      destruct (HB2 HR) as (e1 & e2 & t & E1 & E2 & ZE1 & ZE2 & R). exists e1, e2, t. split; auto. split; auto. split; auto. split; auto.
      split; [lia|]. auto. }
  destruct HB as (e1 & e2 & t & E1 & E2 & ZE1 & ZE2 & HX' & HA'). rewrite E1, E2. cbn [bind].
  change MAX_DECODE_ATTEMPTS with 10%nat. destruct (Nat.leb_spec 10 t) as [Ht|Ht].
  { exists e1, e2, [], [], 0. rewrite !firstn_nil. split; auto. split; auto. split; [lia|]. split; auto. split; auto. split; auto.
    split; auto. split; auto. split; [rewrite Z.sub_0_r; intros; now apply HX'|]. split; [intros; now apply HA'|].
    intros HR. destruct (HA' HR) as (_ & M & _). lia. }
  destruct e1 as [[chs1 s1] hs1], e2 as [[chs2 s2] hs2]. cbv beta iota. unfold channels_of in ZE1, ZE2. cbn [fst] in ZE1, ZE2.
  assert (Hr1 : 1 <= r) by nia.
  pose proof (pop_block_spec (Z.to_nat n) chs1 0 (r * n) ltac:(lia) ltac:(lia) ltac:(nia)) as P1. rewrite ZE1 in P1.
  pose proof (pop_block_spec (Z.to_nat n) chs2 0 (r * n) ltac:(lia) ltac:(lia) ltac:(nia)) as P2. rewrite ZE2 in P2.
  rewrite P1, P2. change (Z.to_nat 0) with 0%nat. cbn [skipn firstn app bind]. clear P1 P2.
  set (o1 := map (fun fc => hd f0 (fc_buffer fc)) chs1). set (o2 := map (fun fc => hd f0 (fc_buffer fc)) chs2).
  assert (Lo1 : zlen o1 = n) by (subst o1; now rewrite zlen_map). assert (Lo2 : zlen o2 = n) by (subst o2; now rewrite zlen_map).
  rewrite Lo1, Lo2. replace (r * n - n) with ((r - 1) * n) by lia.
  destruct (IH (r - 1) (k - 1) (map popc chs1, s1, hs1) (map popc chs2, s2, hs2)) as (g1 & g2 & out1 & out2 & b & G1 & G2 & Hb & Zo1 & Zo2 & FF & ZG1 & ZG2 & XG & AG & MG).
  { lia. } { nia. } { unfold channels_of. cbn [fst]. now rewrite zlen_map. } { unfold channels_of. cbn [fst]. now rewrite zlen_map. }
  { intros Hk. destruct (HX' ltac:(lia)) as (_ & _ & XQ). apply XQ; auto. }
  { intros HR. destruct (HA' HR) as (AQ & _). now apply pop_alike. }
  { destruct HP; auto. right; lia. }
  rewrite G1, G2. cbn [bind]. exists g1, g2, (o1 ++ out1), (o2 ++ out2), (b + 1). split; [reflexivity|]. split; [reflexivity|].
  split; [lia|]. split; [rewrite zlen_app; lia|]. split; [rewrite zlen_app; lia|]. split; [|split; [auto|split; [auto|split; [|split; auto]]]].
  - destruct (Z.ltb_spec 0 k) as [Hk|Hk].
    + destruct (HX' Hk) as (_ & BQ & _). unfold channels_of in BQ. cbn [fst] in BQ.
      assert (o1 = o2).
      { subst o1 o2. rewrite <- (map_map fc_buffer (hd f0) chs1), <- (map_map fc_buffer (hd f0) chs2). now rewrite BQ. }
      assert (L1' : length o1 = Z.to_nat n) by (unfold zlen in Lo1; lia). clearbody o1 o2. subst o2.
      replace (Z.to_nat (k * n)) with (length o1 + Z.to_nat ((k - 1) * n))%nat by (rewrite L1'; nia).
      rewrite !firstn_app_2. now rewrite FF.
    + replace (Z.to_nat (k * n)) with 0%nat by nia. reflexivity.
  - intros. replace (k - (b + 1)) with (k - 1 - b) by lia. apply XG. lia.
  - intros HR. specialize (MG HR). destruct (HA' HR) as (_ & M & Bf). specialize (Bf Ht). unfold channels_of in Bf. cbn [fst] in Bf.
    pose proof (pop_supply chs1 s1 hs1 Bf). lia.
Qed.

(** ** Whole calls *)
Record paired (p : profile) (Q : Prop) (k L1 L2 : Z) (info : stream_info) (c1 c2 : adhoc) : Prop := {
  pd_info1 : as_info (ad_stream c1) = Some info;
  pd_info2 : as_info (ad_stream c2) = Some info;
  pd_pos : 0 < si_channels info;
  pd_len1 : zlen (ad_channels c1) = si_channels info;
  pd_len2 : zlen (ad_channels c2) = si_channels info;
  pd_scale : ad_scale c1 = ad_scale c2;
  pd_exact : 0 < k -> exact p k (codec_state_of c1) (codec_state_of c2);
  pd_alike : Q -> alike L1 L2 (codec_state_of c1) (codec_state_of c2) }.

Lemma reported_out (out rest : list f32) x :
  reported (map (fun y => fmul y x) (out ++ rest), if 0 <? zlen out then Some (zlen out) else None) = map (fun y => fmul y x) out.
Proof.
  unfold reported. cbn [fst snd]. destruct (Z.ltb_spec 0 (zlen out)) as [H|H].
  - rewrite to_nat_zlen, map_app, firstn_app, map_length, Nat.sub_diag. cbn [firstn]. rewrite app_nil_r.
    apply firstn_all2. now rewrite map_length.
  - destruct out; auto. rewrite zlen_cons in H. pose proof (zlen_nonneg out). lia.
Qed.

Lemma ad_decode_pair p (Q : Prop) k L1 L2 info c1 c2 buf : (Q -> p = Release) -> paired p Q k L1 L2 info c1 c2 ->
  (Q \/ zlen buf / si_channels info <= k) ->
  exists c1' c2' b1 b2 r b, ad_decode p c1 buf = Ok (c1', b1, r) /\ ad_decode p c2 buf = Ok (c2', b2, r) /\
    0 <= b <= zlen buf / si_channels info /\
    zlen (reported (b1, r)) = b * si_channels info /\ zlen (reported (b2, r)) = b * si_channels info /\
    firstn (Z.to_nat (k * si_channels info)) (reported (b1, r)) = firstn (Z.to_nat (k * si_channels info)) (reported (b2, r)) /\
    (zlen buf / si_channels info <= k -> b1 = b2) /\ paired p Q (k - b) L1 L2 info c1' c2' /\
    (Q -> supply (codec_state_of c1') + b <= supply (codec_state_of c1)).
Proof.
  intros HQ [I1 I2 Hn N1 N2 HS HX HA] HP. set (n := si_channels info) in *. set (r := zlen buf / n) in *.
  pose proof (zlen_nonneg buf) as Hbuf. assert (Hr : 0 <= r) by (apply Z.div_pos; lia).
  assert (Hrn : r * n <= zlen buf) by (subst r; rewrite Z.mul_comm; apply Z.mul_div_le; lia).
  destruct (decode_loop_pair p Q L1 L2 n HQ Hn (S (length buf)) r k (codec_state_of c1) (codec_state_of c2))
    as (d1 & d2 & o1 & o2 & b & E1 & E2 & Hb & Z1 & Z2 & FF & C1 & C2 & XX & AA & SS); auto.
  { unfold zlen in Hrn. lia. }
  unfold ad_decode, ad_info, udiv. rewrite I1, I2. cbn [expect bind]. cbv zeta. fold n.
  destruct (Z.eqb_spec n 0); [lia|]. cbn [bind]. fold r. unfold codec_state_of in E1, E2. rewrite E1, E2. cbn [bind].
  destruct d1 as [[chs1 s1] hs1], d2 as [[chs2 s2] hs2]. rewrite <- HS.
  assert (Lo : zlen o1 = zlen o2) by lia.
  assert (RE : (if 0 <? zlen o1 then Some (zlen o1) else None) = (if 0 <? zlen o2 then Some (zlen o2) else None)) by now rewrite Lo.
  eexists _, _, _, _, (if 0 <? zlen o1 then Some (zlen o1) else None), b. split; [reflexivity|].
  split; [rewrite RE; reflexivity|]. split; [exact Hb|].
  rewrite reported_out. rewrite RE, reported_out. rewrite !zlen_map. split; [exact Z1|]. split; [exact Z2|]. split; [|split; [|split]].
  - now rewrite !firstn_map, FF.
  - intros Hk. assert (o1 = o2).
    { rewrite <- (firstn_all2 (n := Z.to_nat (k * n)) o1), <- (firstn_all2 (n := Z.to_nat (k * n)) o2); auto; unfold zlen in *; nia. }
    congruence.
  - constructor; auto.
  - exact SS.
Qed.

Theorem decode_all_pair p (Q : Prop) L1 L2 info : (Q -> p = Release) -> forall bufs k c1 c2, paired p Q k L1 L2 info c1 c2 ->
  (Q \/ room (si_channels info) bufs <= k * si_channels info) ->
  exists c1' c2' rs1 rs2, decode_all p c1 bufs = Ok (c1', rs1) /\ decode_all p c2 bufs = Ok (c2', rs2) /\
    map snd rs1 = map snd rs2 /\
    firstn (Z.to_nat (k * si_channels info)) (concat (map reported rs1)) = firstn (Z.to_nat (k * si_channels info)) (concat (map reported rs2)) /\
    (room (si_channels info) bufs <= k * si_channels info -> rs1 = rs2) /\
    (Q -> zlen (concat (map reported rs1)) <= si_channels info * supply (codec_state_of c1)).
Proof.
  intros HQ. set (n := si_channels info).
  assert (HS : forall L d, good L d -> 0 <= supply d).
  { intros L [[chs s] hs] (_ & T & _). unfold supply. cbn [channels_of headers_in fst snd]. pose proof (left_samples_nonneg hs T).
    assert (0 <= zsum (map (fun c => zlen (fc_buffer c)) chs)); [|lia].
    unfold zsum. clear. induction chs; cbn [map fold_right]; [lia|]. pose proof (zlen_nonneg (fc_buffer a)). lia. }
  induction bufs as [|buf bufs IH]; intros k c1 c2 HP HR.
  - cbn [decode_all]. exists c1, c2, [], []. split; auto. split; auto. split; auto. split; auto. split; auto.
    intros E. cbn [map concat]. change (zlen (@nil f32)) with 0. pose proof (HS _ _ (al_1 _ _ _ _ (pd_alike _ _ _ _ _ _ _ _ HP E))).
    pose proof (pd_pos _ _ _ _ _ _ _ _ HP). fold n in H0. nia.
  - pose proof (pd_pos _ _ _ _ _ _ _ _ HP) as Hn. fold n in Hn.
    assert (Hroom : room n (buf :: bufs) = n * (zlen buf / n) + room n bufs) by reflexivity.
    assert (R0 : forall l, 0 <= room n l).
    { unfold room. induction l as [|x l IHl]; cbn [map fold_right]; [lia|]. pose proof (zlen_nonneg x).
      assert (0 <= zlen x / n) by (apply Z.div_pos; lia). nia. }
    pose proof (R0 bufs). rewrite Hroom in HR |- *.
    destruct (ad_decode_pair p Q k L1 L2 info c1 c2 buf HQ HP) as (e1 & e2 & b1 & b2 & r & b & E1 & E2 & Hb & Z1 & Z2 & FF & BB & PP & SS).
    { fold n. destruct HR; auto. right. nia. }
    fold n in Hb, Z1, Z2, FF, BB. cbn [decode_all]. rewrite E1, E2. cbn [bind].
    destruct (IH (k - b) e1 e2 PP) as (g1 & g2 & rs1 & rs2 & G1 & G2 & M & F2 & EQ & S2).
    { destruct HR; auto. right. nia. }
    rewrite G1, G2. cbn [bind]. exists g1, g2, ((b1, r) :: rs1), ((b2, r) :: rs2). split; auto. split; auto.
    cbn [map snd concat]. split; [now rewrite M|]. split; [|split].
    + fold (reported (b1, r)). rewrite !firstn_app, FF. f_equal.
      replace (Z.to_nat (k * n) - length (reported (b1, r)))%nat with (Z.to_nat ((k - b) * n)) by (unfold zlen in Z1; nia).
      replace (Z.to_nat (k * n) - length (reported (b2, r)))%nat with (Z.to_nat ((k - b) * n)) by (unfold zlen in Z2; nia).
      exact F2.
    + intros Hk. rewrite EQ by nia. rewrite BB by nia. reflexivity.
    + intros E. rewrite zlen_app, Z1. specialize (S2 E). specialize (SS E). nia.
Qed.
