(** * Property C72: the sample rate is only a label

    [action], [playback] are in Spec/Frames.v, [target_block] in Spec/Seeking.v. *)
From Coq Require Import ZArith List Bool Lia.
From Verif Require Import Model.Base Model.F32 Model.Sample Model.Frame Model.Adhoc Model.Bincode Model.Wav Model.Cli
  Spec.Recording Spec.Frames Spec.Seeking Proofs.BaseFacts Proofs.AnyState Proofs.Terminates Properties.Demo.
Import ListNotations.
Open Scope Z_scope.

(** A call with its answer: the buffer (after decode) and the count reported (by encode and decode). *)
Definition answered (p : profile) (c : adhoc) (a : action) : outcome (adhoc * (list f32 * option Z)) :=
  match a with
  | Feed pcm => '(c, k) <- ad_encode p c pcm ;; Ok (c, ([], k))
  | Do (Listen buf) => '(c, out, k) <- ad_decode p c buf ;; Ok (c, (out, k))
  | Do op => c <- play p c op ;; Ok (c, ([], None))
  end.
Fixpoint answers (p : profile) (c : adhoc) (acts : list action) : outcome (adhoc * list (list f32 * option Z)) :=
  match acts with
  | [] => Ok (c, [])
  | a :: acts => '(c, r) <- answered p c a ;; '(c, rs) <- answers p c acts ;; Ok (c, r :: rs)
  end.
(** Seeks whose times mean the same block at both rates. *)
Definition same_place (i1 i2 : stream_info) (a : action) : Prop :=
  match a with Do (SeekTo (SStart ms)) => ms <> 0 -> target_block i1 ms = target_block i2 ms | _ => True end.

(** What a call returned, with [f] applied; panics stay. *)
Definition omap {A B : Type} (f : A -> B) (o : outcome A) : outcome B :=
  match o with Ok a => Ok (f a) | Panic r => Panic r | OutOfFuel => OutOfFuel end.

(** ** Lemmas *)
Definition relabel (r : Z) (c : adhoc) : adhoc :=
  mkAdhoc (ad_headers c) (ad_channels c)
    (mkAS (option_map (fun i => mkInfo r (si_channels i)) (as_info (ad_stream c))) (as_stream (ad_stream c)))
    (ad_level c) (ad_scale c) (ad_inv_scale c) (ad_seq c).
Lemma omap_bind {A B C : Type} (f : B -> C) (o : outcome A) (k : A -> outcome B) : omap f (bind o k) = bind o (fun a => omap f (k a)).
Proof. now destruct o. Qed.
Lemma bind_omap {A B C : Type} (f : A -> B) (o : outcome A) (k : B -> outcome C) : bind (omap f o) k = bind o (fun a => k (f a)).
Proof. now destruct o. Qed.
Lemma bind_ext {A B : Type} (o : outcome A) (f g : A -> outcome B) : (forall a, f a = g a) -> bind o f = bind o g.
Proof. intros H. destruct o; cbn [bind]; auto. Qed.
Lemma foldM_omap {A S T : Type} (h : S -> T) (f : S -> A -> outcome S) (g : T -> A -> outcome T) (l : list A) :
  (forall s a, g (h s) a = omap h (f s a)) -> forall s, foldM g l (h s) = omap h (foldM f l s).
Proof.
  intros H. induction l as [|a l IH]; intros s; cbn [foldM]; [reflexivity|]. rewrite H, bind_omap, omap_bind. apply bind_ext. exact IH.
Qed.
Lemma info_relabel r c : ad_info (relabel r c) = omap (fun i => mkInfo r (si_channels i)) (ad_info c).
Proof. unfold ad_info, relabel. cbn [ad_stream as_info]. destruct (as_info (ad_stream c)); reflexivity. Qed.
Lemma encode_relabel p r c pcm : ad_encode p (relabel r c) pcm = omap (fun '(c, k) => (relabel r c, k)) (ad_encode p c pcm).
Proof.
  unfold ad_encode. rewrite info_relabel, bind_omap, omap_bind. apply bind_ext. intros i. cbn [si_channels].
  rewrite omap_bind. apply bind_ext. intros n. rewrite (foldM_omap (relabel r) (encode_channel p pcm (si_channels i) n)).
  - rewrite bind_omap, omap_bind. reflexivity.
  - clear. intros c ch. unfold encode_channel. cbn [relabel ad_inv_scale ad_seq ad_channels ad_stream as_stream as_info ad_headers ad_level ad_scale].
    repeat (rewrite omap_bind; apply bind_ext; let x := fresh "x" in intros x; repeat match goal with a : _ * _ |- _ => destruct a | a : dstate |- _ => destruct a end). reflexivity.
Qed.
Lemma decode_relabel p r c buf : ad_decode p (relabel r c) buf = omap (fun '(c, o, k) => (relabel r c, o, k)) (ad_decode p c buf).
Proof.
  unfold ad_decode. rewrite info_relabel, bind_omap, omap_bind. apply bind_ext. intros i. cbn [si_channels].
  cbn [relabel ad_inv_scale ad_seq ad_channels ad_stream as_stream as_info ad_headers ad_level ad_scale].
  repeat (rewrite omap_bind; apply bind_ext; let x := fresh "x" in intros x; repeat match goal with a : _ * _ |- _ => destruct a | a : dstate |- _ => destruct a end). reflexivity.
Qed.
Lemma seek_relabel p r c i dt : as_info (ad_stream c) = Some i -> same_place i (mkInfo r (si_channels i)) (Do (SeekTo dt)) ->
  ad_seek p (relabel r c) dt = omap (relabel r) (ad_seek p c dt).
Proof.
  intros Hi HS. unfold ad_seek. rewrite info_relabel. unfold ad_info. rewrite Hi. cbn [expect omap bind].
  destruct dt as [ms|ms|ms]; try reflexivity. destruct (Z.eqb_spec ms 0); [reflexivity|]. specialize (HS n). cbn [si_channels].
  unfold target_block in HS. change f1000 with (f32_of_Z 1000). rewrite <- HS.
  cbn [relabel ad_init ad_inv_scale ad_seq ad_channels ad_stream as_stream as_info ad_headers ad_level ad_scale].
  repeat (rewrite omap_bind; apply bind_ext; let x := fresh "x" in intros x; repeat match goal with a : _ * _ |- _ => destruct a | a : dstate |- _ => destruct a end). reflexivity.
Qed.
Lemma answered_relabel p r c i a : as_info (ad_stream c) = Some i -> same_place i (mkInfo r (si_channels i)) a ->
  answered p (relabel r c) a = omap (fun '(c, x) => (relabel r c, x)) (answered p c a).
Proof.
  intros Hi HS. destruct a as [pcm|[buf| |dt]]; cbn [answered].
  - rewrite encode_relabel, bind_omap, omap_bind. apply bind_ext. intros [c2 k]. reflexivity.
  - rewrite decode_relabel, bind_omap, omap_bind. apply bind_ext. intros [[c2 o] k]. reflexivity.
  - reflexivity.
  - cbn [play]. rewrite (seek_relabel p r c i) by assumption. rewrite bind_omap, omap_bind. reflexivity.
Qed.
Lemma answered_good p info c a c' x : good info c -> answered p c a = Ok (c', x) -> good info c'.
Proof.
  intros G H. destruct a as [pcm|[buf| |dt]]; cbn [answered play] in H.
  - inv_bind H. destruct a as [c2 k]. injection H as <- <-. eapply encode_good; eauto.
  - inv_bind H. destruct a as [[c2 o] k]. injection H as <- <-. eapply decode_good; eauto.
  - cbn [bind] in H. injection H as <- <-. now apply init_good.
  - inv_bind H. injection H as <- <-. eapply seek_good; eauto.
Qed.
Lemma answers_good p info acts : forall c c' x, good info c -> answers p c acts = Ok (c', x) -> good info c'.
Proof.
  induction acts as [|a acts IH]; intros c c' x G H; cbn [answers] in H; [now injection H as <- <-|].
  inv_bind H. destruct a0 as [c1 r1]. inv_bind H. destruct a0 as [c2 r2]. injection H as <- <-. eapply IH; [|eassumption]. eapply answered_good; eassumption.
Qed.
Lemma answers_relabel p r info acts : Forall (same_place info (mkInfo r (si_channels info))) acts -> forall c, good info c ->
  answers p (relabel r c) acts = omap (fun '(c, x) => (relabel r c, x)) (answers p c acts).
Proof.
  induction 1 as [|a acts HA HF IH]; intros c G; cbn [answers]; [reflexivity|].
  rewrite (answered_relabel p r c info) by (apply G || exact HA). rewrite bind_omap, omap_bind.
  destruct (answered p c a) as [[c1 x]| |] eqn:E; [|reflexivity..]. cbn [bind]. rewrite IH by (eapply answered_good; eassumption).
  rewrite bind_omap, omap_bind. apply bind_ext. intros [c2 xs]. reflexivity.
Qed.
Lemma relabel_new r1 r2 ch level : new_codec (mkInfo r2 ch) level = relabel r2 (new_codec (mkInfo r1 ch) level).
Proof. reflexivity. Qed.
Lemma resize_same {A} (l : list A) n a : zlen l = n -> resize l n a = l.
Proof. intros <-. unfold resize. rewrite Z.leb_refl. unfold zlen. rewrite Nat2Z.id, Nat.sub_diag. apply app_nil_r. Qed.
Lemma set_relabel r i c : good i c -> ad_set_info c (mkInfo r (si_channels i)) = relabel r c.
Proof. intros (A & B & _). unfold ad_set_info, relabel. cbn [si_channels]. rewrite (resize_same _ _ _ B), A. reflexivity. Qed.

(** ** C72 *)
(** Whatever is encoded, decoded and sought, the answers, the panics and the decoded samples are the same at
    every rate, as long as the seeks mean the same blocks; the saved files differ in the four bytes of the rate. *)
Theorem C72_only_a_label : forall p ch level r1 r2 acts, 0 <= ch -> Forall (same_place (mkInfo r1 ch) (mkInfo r2 ch)) acts ->
  match answers p (new_codec (mkInfo r1 ch) level) acts, answers p (new_codec (mkInfo r2 ch) level) acts with
  | Ok (c1, rs1), Ok (c2, rs2) => rs1 = rs2 /\
      exists front back, ad_save c1 = front ++ le_bytes 4 r1 ++ back /\ ad_save c2 = front ++ le_bytes 4 r2 ++ back
  | Panic x, Panic y => x = y
  | OutOfFuel, OutOfFuel => True
  | _, _ => False
  end.
Proof.
  intros p ch level r1 r2 acts Hch HA. rewrite (relabel_new r1 r2).
  assert (G : good (mkInfo r1 ch) (new_codec (mkInfo r1 ch) level)) by now apply new_good.
  rewrite (answers_relabel p r2 (mkInfo r1 ch)) by assumption.
  destruct (answers p (new_codec (mkInfo r1 ch) level) acts) as [[c xs]|x|] eqn:E; cbn [omap]; [|reflexivity|].
  - split; [reflexivity|]. apply (answers_good _ _ _ _ _ _ G) in E. destruct E as (E & _).
    exists (put_u32 (ad_level c) ++ put_headers (ad_headers c) ++ put_u8 1), (put_u32 ch ++ put_bitstream (as_stream (ad_stream c))).
    unfold ad_save, relabel. cbn [ad_inv_scale ad_seq ad_channels ad_stream as_stream as_info ad_headers ad_level ad_scale]. rewrite E. cbn [option_map put_info si_rate si_channels].
    rewrite <- !app_assoc. split; reflexivity.
  - exact I.
Qed.
Print Assumptions C72_only_a_label.
(** Giving a codec another rate with set_info, at any moment of any session, is the same as having created it
    with that rate, and goes on as it would have without. *)
Theorem C72_set_any_time : forall p ch level r1 r2 before after c1 rs1, 0 <= ch ->
  Forall (same_place (mkInfo r1 ch) (mkInfo r2 ch)) before ->
  answers p (new_codec (mkInfo r1 ch) level) before = Ok (c1, rs1) ->
  answers p (new_codec (mkInfo r2 ch) level) before = Ok (ad_set_info c1 (mkInfo r2 ch), rs1) /\
  (Forall (same_place (mkInfo r1 ch) (mkInfo r2 ch)) after ->
   omap snd (answers p (ad_set_info c1 (mkInfo r2 ch)) after) = omap snd (answers p c1 after)).
Proof.
  intros p ch level r1 r2 before after c1 rs1 Hch HB H.
  assert (G : good (mkInfo r1 ch) (new_codec (mkInfo r1 ch) level)) by now apply new_good.
  pose proof (answers_good _ _ _ _ _ _ G H) as G1.
  change (mkInfo r2 ch) with (mkInfo r2 (si_channels (mkInfo r1 ch))). rewrite (set_relabel r2 _ _ G1). cbn [si_channels]. split.
  - rewrite (relabel_new r1 r2), (answers_relabel p r2 (mkInfo r1 ch)), H by assumption. reflexivity.
  - intros HA. rewrite (answers_relabel p r2 (mkInfo r1 ch)) by assumption. destruct (answers p c1 after) as [[c2 x]| |]; reflexivity.
Qed.
Print Assumptions C72_set_any_time.
(** The command line tool: two WAV files with the same samples and channels and different rates become files that
    differ in the four bytes of the rate. *)
Lemma loop_relabel p r fuel : forall w i c buf, si_channels i = si_channels (wav_info w) ->
  wav_to_adhoc_loop p fuel (mkWav i (wav_pcm w) (wav_cursor w)) (relabel r c) buf = omap (relabel r) (wav_to_adhoc_loop p fuel w c buf).
Proof.
  induction fuel as [|fuel IH]; intros w i c buf Hi; cbn [wav_to_adhoc_loop]; [reflexivity|].
  unfold wav_decode, wav_num_samples. cbn [wav_info wav_pcm wav_cursor]. rewrite Hi.
  destruct (udiv (zlen buf) (si_channels (wav_info w))) as [b| |]; [|reflexivity..]. cbn [bind].
  destruct (wav_read _ _ _ _) as [[cur got]| |]; [|reflexivity..]. cbn [bind]. destruct (0 <? zlen got); [|reflexivity].
  rewrite encode_relabel, bind_omap, omap_bind. apply bind_ext. intros [c2 k].
  apply (IH (mkWav (wav_info w) (wav_pcm w) cur)). exact Hi.
Qed.
Lemma loop_info p fuel : forall info w c buf c', good info c -> wav_to_adhoc_loop p fuel w c buf = Ok c' -> good info c'.
Proof.
  induction fuel as [|fuel IH]; intros info w c buf c' G H; cbn [wav_to_adhoc_loop] in H; [discriminate H|].
  inv_bind H. destruct a as [[w1 b1] [n|]]; [|now injection H as <-]. inv_bind H. destruct a as [c1 k]. eapply IH; [|eassumption]. eapply encode_good; eassumption.
Qed.
Theorem C72_tool : forall p file1 file2 level ch pcm r1 r2, 0 <= ch ->
  wav_load p file1 = Ok (Some (mkWav (mkInfo r1 ch) pcm 0)) -> wav_load p file2 = Ok (Some (mkWav (mkInfo r2 ch) pcm 0)) ->
  match wav_to_adhoc p file1 level, wav_to_adhoc p file2 level with
  | Ok (Some out1), Ok (Some out2) =>
      exists front back, out1 = front ++ le_bytes 4 r1 ++ back /\ out2 = front ++ le_bytes 4 r2 ++ back
  | Panic x, Panic y => x = y
  | _, _ => False
  end.
Proof.
  intros p file1 file2 level ch pcm r1 r2 Hch L1 L2. pose proof (nofuel_wav_to_adhoc p file1 level) as NF. revert NF.
  unfold wav_to_adhoc. rewrite L1, L2. cbn [bind wav_info wav_pcm].
  change (ad_set_info (ad_with_level ad_new level) (mkInfo r2 ch)) with (relabel r2 (ad_set_info (ad_with_level ad_new level) (mkInfo r1 ch))).
  pose proof (loop_relabel p r2 (S (S (length pcm))) (mkWav (mkInfo r1 ch) pcm 0) (mkInfo r2 ch) (ad_set_info (ad_with_level ad_new level) (mkInfo r1 ch)) CLI_BUFFER eq_refl) as X.
  cbn [wav_pcm wav_cursor] in X. rewrite X. clear X.
  assert (G : good (mkInfo r1 ch) (ad_set_info (ad_with_level ad_new level) (mkInfo r1 ch))) by exact (new_good (mkInfo r1 ch) level Hch).
  destruct (wav_to_adhoc_loop _ _ _ _ _) as [c|x|] eqn:E; cbn [omap bind]; intros NF; [|reflexivity|now destruct NF].
  apply (loop_info _ _ _ _ _ _ _ G) in E. destruct E as (E & _).
  exists (put_u32 (ad_level c) ++ put_headers (ad_headers c) ++ put_u8 1), (put_u32 ch ++ put_bitstream (as_stream (ad_stream c))).
  unfold ad_save, relabel. cbn [ad_inv_scale ad_seq ad_channels ad_stream as_stream as_info ad_headers ad_level ad_scale]. rewrite E. cbn [option_map put_info si_rate si_channels].
  rewrite <- !app_assoc. split; reflexivity.
Qed.
Print Assumptions C72_tool.

(** Where the rates put a seek in different blocks the answers do differ: the condition on the seeks is needed. *)
Theorem C72_seeks_refuted : let acts := map Feed demo ++ [Do (SeekTo (SStart 1)); Do (Listen (repeat f0 2))] in
  match answers Release (new_codec (mkInfo 4000 2) 0) acts, answers Release (new_codec (mkInfo 2000 2) 0) acts with
  | Ok (_, rs1), Ok (_, rs2) => map (fun r => map quantise (fst r)) rs1 <> map (fun r => map quantise (fst r)) rs2
  | _, _ => False
  end.
Proof. vm_compute. discriminate. Qed.
Print Assumptions C72_seeks_refuted.

(** 4000 Hz and 4900 Hz mean the same block at 1 ms, and the session runs. *)
Example C72_applies : let acts := map Feed demo ++ [Do Rewind; Do (SeekTo (SStart 1)); Do (Listen (repeat f0 2)); Do (SeekTo (SStart 0))] in
  Forall (same_place (mkInfo 4000 2) (mkInfo 4900 2)) acts /\
  match answers Release (new_codec (mkInfo 4000 2) 0) acts with Ok (c, rs) => length rs = (length demo + 4)%nat | _ => False end.
Proof.
  cbv zeta. split.
  - apply Forall_app. split; [apply Forall_map, Forall_forall; intros; exact I|]. repeat constructor; cbn [same_place]; intros; (lia || (vm_compute; reflexivity)).
  - vm_compute. reflexivity.
Qed.
