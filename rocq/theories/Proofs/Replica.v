(** * Two codecs that differ only in forgotten sample history and noise state play the same *)
From Coq Require Import ZArith List Bool Lia.
From Verif Require Import Model.Base Model.F32 Model.Sample Model.BitStream Model.NibbleList Model.BitVec
  Model.CircularStack Model.Frame Model.Adhoc Spec.Codec Spec.Recording Spec.Frames Proofs.BaseFacts Proofs.FrameFacts Proofs.EncodeFacts.
Import ListNotations.
Open Scope Z_scope.

Definition osim {A B} (R : A -> B -> Prop) (x : outcome A) (y : outcome B) : Prop :=
  match x, y with
  | Ok a, Ok b => R a b
  | Panic r, Panic r' => r = r'
  | OutOfFuel, OutOfFuel => True
  | _, _ => False
  end.
Lemma osim_bind {A B A' B'} (R : A -> B -> Prop) (R' : A' -> B' -> Prop) x y f g :
  osim R x y -> (forall a b, R a b -> osim R' (f a) (g b)) -> osim R' (bind x f) (bind y g).
Proof. destruct x, y; cbn; intros; auto; contradiction. Qed.
Lemma osim_same {A} (x : outcome A) : osim eq x x.
Proof. destruct x; cbn; auto. Qed.
Lemma osim_mono {A B} (R R' : A -> B -> Prop) x y : (forall a b, R a b -> R' a b) -> osim R x y -> osim R' x y.
Proof. destruct x, y; cbn; auto. Qed.

Record chan_sim (a b : frame_codec) : Prop := {
  cs_state : fc_state a = fc_state b;
  cs_buffer : fc_buffer a = fc_buffer b;
  cs_any1 : hist_any (fc_history a);
  cs_any2 : hist_any (fc_history b);
  cs_hist : fc_state a = CInit \/ exists t, hist_is (fc_history a) t /\ hist_is (fc_history b) t }.
Definition hist_sim (h h' : cstack Z) : Prop := exists t, hist_is h t /\ hist_is h' t.
Lemma hist_sim_push h h' q : hist_sim h h' -> hist_sim (cs_push h q) (cs_push h' q).
Proof. intros (t & A & B). exists (shift t q). split; now apply hist_is_push. Qed.
Lemma hist_sim_prev h h' : hist_sim h h' -> cs_prev 0 h 3 = cs_prev 0 h' 3 /\ cs_prev 0 h 2 = cs_prev 0 h' 2 /\ cs_prev 0 h 1 = cs_prev 0 h' 1.
Proof.
  intros (t & A & B). apply hist_last3 in A. apply hist_last3 in B. rewrite <- A in B. unfold last3 in B. injection B. auto.
Qed.
Lemma decode_samples_sim p s h h' b e n : hist_sim h h' ->
  osim (fun x y => fst (fst x) = fst (fst y) /\ hist_sim (snd (fst x)) (snd (fst y)) /\ snd x = snd y)
    (decode_samples p s h b e n) (decode_samples p s h' b e n).
Proof.
  revert s h h' b; induction n as [|n IH]; intros s h h' b H; cbn [decode_samples]; [cbn; auto|].
  eapply osim_bind; [apply osim_same|]. intros [s1 v] ? <-. destruct (hist_sim_prev _ _ H) as (E3 & E2 & E1).
  unfold predict_next. rewrite E3, E2, E1. apply IH. now apply hist_sim_push.
Qed.
Lemma decode_raw_sim p s h h' : hist_any h -> hist_any h' ->
  osim (fun x y => fst x = fst y /\ hist_sim (snd x) (snd y)) (decode_raw p s h 3) (decode_raw p s h' 3).
Proof.
  intros A B. cbn [decode_raw].
  eapply osim_bind; [apply osim_same|]. intros [s1 v1] ? <-.
  eapply osim_bind; [apply osim_same|]. intros [s2 v2] ? <-.
  eapply osim_bind; [apply osim_same|]. intros [s3 v3] ? <-. cbn. split; auto.
  eexists. split; apply hist_is_push3; auto.
Qed.
Lemma hist_sim_chan st b h h' : hist_sim h h' -> chan_sim (mkFC st h b) (mkFC st h' b).
Proof. intros (t & A & B). constructor; cbn; auto; eauto using hist_is_any. Qed.
Lemma decode_frame_sim p a b s hs : chan_sim a b ->
  osim (fun x y => chan_sim (fst (fst x)) (fst (fst y)) /\ snd (fst x) = snd (fst y) /\ snd x = snd y)
    (decode_frame p a s hs) (decode_frame p b s hs).
Proof.
  intros [S B A1 A2 H]. unfold decode_frame. eapply osim_bind; [apply osim_same|]. intros [hs1 oh] ? <-.
  destruct oh as [hd|]; [|cbn; repeat split; auto]. rewrite <- S, <- B. destruct (fc_state a) eqn:E.
  - eapply osim_bind; [apply decode_raw_sim; auto|]. intros [s1 h1] [s1' h1'] [E1 H1]. cbn [fst snd] in E1, H1. subst s1'.
    destruct (hist_sim_prev _ _ H1) as (P3 & P2 & P1). rewrite P3, P2, P1.
    eapply osim_bind; [apply decode_samples_sim; exact H1|]. intros [[s2 h2] b2] [[s2' h2'] b2'] (E2 & H2 & E3). cbn [fst snd] in E2, H2, E3.
    subst. cbn. split; auto. now apply hist_sim_chan.
  - reflexivity.
  - destruct H as [H|H]; [discriminate|].
    eapply osim_bind; [apply decode_samples_sim; exact H|]. intros [[s2 h2] b2] [[s2' h2'] b2'] (E2 & H2 & E3). cbn [fst snd] in E2, H2, E3.
    subst. cbn. split; auto. now apply hist_sim_chan.
Qed.
Definition d_sim (d d' : dstate) : Prop :=
  Forall2 chan_sim (fst (fst d)) (fst (fst d')) /\ snd (fst d) = snd (fst d') /\ snd d = snd d'.
Lemma index_sim {A B} (R : A -> B -> Prop) l l' i : Forall2 R l l' -> osim R (index l i) (index l' i).
Proof.
  intros H. unfold index. pose proof (Forall2_len _ _ _ H) as L. unfold zlen. rewrite <- L.
  destruct (_ && _); [|reflexivity]. set (n := Z.to_nat i). clearbody n. clear L.
  revert n; induction H; intros [|n]; cbn; auto.
Qed.
Lemma replace_sim {A B} (R : A -> B -> Prop) l l' n a b : Forall2 R l l' -> R a b -> Forall2 R (replace_nth n l a) (replace_nth n l' b).
Proof. intros H Hab. revert n; induction H; intros [|n]; cbn; constructor; auto. Qed.
Lemma store_sim {A B} (R : A -> B -> Prop) l l' i a b : Forall2 R l l' -> R a b -> osim (Forall2 R) (store l i a) (store l' i b).
Proof.
  intros H Hab. unfold store. pose proof (Forall2_len _ _ _ H) as L. unfold zlen. rewrite <- L.
  destruct (_ && _); [|reflexivity]. cbn. now apply replace_sim.
Qed.
Lemma foldM_sim {S S' X} (R : S -> S' -> Prop) (f : S -> X -> outcome S) (g : S' -> X -> outcome S') l s s' :
  (forall s s' x, R s s' -> osim R (f s x) (g s' x)) -> R s s' -> osim R (foldM f l s) (foldM g l s').
Proof.
  intros H. revert s s'; induction l as [|x l IH]; intros s s' HR; cbn [foldM]; [exact HR|].
  eapply osim_bind; [apply H; exact HR|]. auto.
Qed.
Lemma decode_channel_sim p d d' j : d_sim d d' -> osim d_sim (decode_channel p d j) (decode_channel p d' j).
Proof.
  destruct d as [[chs s] hs], d' as [[chs' s'] hs']. intros (F & E1 & E2). cbn [fst snd] in *. subst. unfold decode_channel.
  eapply osim_bind; [apply index_sim; exact F|]. intros a b Hab.
  eapply osim_bind; [apply decode_frame_sim; exact Hab|]. intros [[c1 s1] hs1] [[c2 s2] hs2] (H1 & H2 & H3). cbn [fst snd] in *. subst.
  eapply osim_bind; [apply store_sim; [exact F|exact H1]|]. intros l l' HL. repeat split; auto.
Qed.
Lemma empty_sim l l' : Forall2 chan_sim l l' -> buffers_empty l = buffers_empty l'.
Proof. unfold buffers_empty. induction 1 as [|a b l l' [_ B _ _ _] H IH]; cbn [forallb]; auto. now rewrite B, IH. Qed.
Lemma buffer_audio_sim p n fuel d d' : d_sim d d' ->
  osim (fun x y => d_sim (fst x) (fst y) /\ snd x = snd y) (buffer_audio p n fuel d) (buffer_audio p n fuel d').
Proof.
  revert d d'; induction fuel as [|fuel IH]; intros d d' H; cbn [buffer_audio]; [cbn; auto|].
  destruct d as [[chs s] hs], d' as [[chs' s'] hs']. pose proof H as (F & E1 & E2). cbn [fst snd] in F, E1, E2.
  rewrite (empty_sim _ _ F). destruct (buffers_empty chs'); [|cbn; auto].
  eapply osim_bind; [apply (foldM_sim d_sim); [intros; now apply decode_channel_sim|exact H]|]. intros a b Hab.
  eapply osim_bind; [apply IH; exact Hab|]. intros [d1 k1] [d2 k2] [H1 H2]. cbn [fst snd] in *. subst. cbn. auto.
Qed.
Lemma pop_block_sim chs chs' n c fuel room : Forall2 chan_sim chs chs' ->
  osim (fun x y => Forall2 chan_sim (fst x) (fst y) /\ snd x = snd y) (pop_block chs n c fuel room) (pop_block chs' n c fuel room).
Proof.
  revert chs chs' c room; induction fuel as [|fuel IH]; intros chs chs' c room F; cbn [pop_block]; [cbn; auto|].
  destruct (_ && _); [|cbn; auto]. eapply osim_bind; [apply index_sim; exact F|]. intros a b [S B A1 A2 H]. rewrite <- B, <- S.
  destruct (match fc_buffer a with [] => _ | _ => _ end) as [v rest].
  eapply osim_bind; [apply store_sim; [exact F|]; constructor; cbn; auto|]. intros l l' HL.
  eapply osim_bind; [apply IH; exact HL|]. intros [l1 o1] [l2 o2] [H1 H2]. cbn [fst snd] in *. subst. cbn. auto.
Qed.
Lemma decode_loop_sim p n fuel room d d' : d_sim d d' ->
  osim (fun x y => d_sim (fst x) (fst y) /\ snd x = snd y) (decode_loop p n fuel room d) (decode_loop p n fuel room d').
Proof.
  revert room d d'; induction fuel as [|fuel IH]; intros room d d' H; cbn [decode_loop]; [cbn; auto|].
  destruct (0 <? room); [|cbn; auto]. eapply osim_bind; [apply buffer_audio_sim; exact H|].
  intros [d1 k1] [d2 k2] [H1 H2]. cbn [fst snd] in *. subst. destruct (_ <=? _)%nat; [cbn; auto|].
  destruct d1 as [[chs s] hs], d2 as [[chs' s'] hs']. destruct H1 as (F & E1 & E2). cbn [fst snd] in *. subst.
  eapply osim_bind; [apply pop_block_sim; exact F|]. intros [l1 o1] [l2 o2] [G1 G2]. cbn [fst snd] in *. subst.
  eapply osim_bind; [apply IH; repeat split; auto|]. intros [d1 p1] [d2 p2] [G3 G4]. cbn [fst snd] in *. subst. cbn. auto.
Qed.
Record replica (a b : adhoc) : Prop := {
  rp_d : d_sim (ad_channels a, as_stream (ad_stream a), ad_headers a) (ad_channels b, as_stream (ad_stream b), ad_headers b);
  rp_info : as_info (ad_stream a) = as_info (ad_stream b);
  rp_scale : ad_scale a = ad_scale b }.
Lemma decode_replica p a b buf : replica a b ->
  osim (fun x y => replica (fst (fst x)) (fst (fst y)) /\ snd (fst x) = snd (fst y) /\ snd x = snd y) (ad_decode p a buf) (ad_decode p b buf).
Proof.
  intros [D I S]. unfold ad_decode, ad_info. rewrite I, S. eapply osim_bind; [apply osim_same|]. intros info ? <-.
  eapply osim_bind; [apply osim_same|]. intros k ? <-.
  eapply osim_bind; [apply decode_loop_sim; exact D|]. intros [d1 o1] [d2 o2] [H1 H2]. cbn [fst snd] in *. subst.
  destruct d1 as [[chs s] hs], d2 as [[chs' s'] hs']. cbn. split; auto. constructor; auto.
Qed.
Lemma init_replica a b : replica a b -> replica (ad_init a) (ad_init b).
Proof.
  intros [(F & E1 & E2) I S]. cbn [fst snd] in *. constructor; auto. split; [|split].
  - cbn. clear -F. induction F as [|x y l l' [] F IH]; cbn; constructor; auto. constructor; cbn; auto.
  - cbn. now rewrite E1.
  - cbn. now rewrite E2.
Qed.
Lemma seek_channel_sim p start d d' j : d_sim d d' -> osim d_sim (seek_channel p start d j) (seek_channel p start d' j).
Proof.
  destruct d as [[chs s] hs], d' as [[chs' s'] hs']. intros (F & E1 & E2). cbn [fst snd] in *. subst. unfold seek_channel.
  eapply osim_bind; [apply osim_same|]. intros oh ? <-. eapply osim_bind; [apply osim_same|]. intros hd ? <-.
  eapply osim_bind; [apply index_sim; exact F|]. intros a b [_ _ A1 A2 _]. destruct (fh_history hd) as [[h3 h2] h1].
  eapply osim_bind; [apply decode_frame_sim; apply hist_sim_chan; eexists; split; apply hist_is_push3; auto|].
  intros [[c1 s1] hs1] [[c2 s2] hs2] (H1 & H2 & H3). cbn [fst snd] in *. subst.
  eapply osim_bind; [apply store_sim; [exact F|exact H1]|]. intros l l' HL. repeat split; auto.
Qed.
Lemma Forall2_firstn_skipn {A B} (R : A -> B -> Prop) n l l' : Forall2 R l l' -> Forall2 R (firstn n l) (firstn n l') /\ Forall2 R (skipn n l) (skipn n l').
Proof. intros H. revert n; induction H; intros [|n]; cbn; split; auto; try constructor; auto; apply IHForall2. Qed.
Lemma prune_sim fuel n sk t l l' : Forall2 chan_sim l l' -> osim (Forall2 chan_sim) (prune fuel n sk t l) (prune fuel n sk t l').
Proof.
  revert sk l l'; induction fuel as [|fuel IH]; intros sk l l' F; cbn [prune]; destruct (sk <? t); auto; try exact F; [reflexivity|].
  apply IH. destruct (Forall2_firstn_skipn _ (Z.to_nat n) _ _ F) as [F1 F2]. apply Forall2_app; auto.
  clear -F1. induction F1 as [|x y u u' [] F1' IH']; cbn; constructor; auto. constructor; cbn; auto. now rewrite cs_buffer0.
Qed.
Lemma seek_replica p a b dt : replica a b -> osim replica (ad_seek p a dt) (ad_seek p b dt).
Proof.
  intros R. pose proof (init_replica _ _ R) as R0. unfold ad_seek. unfold ad_info. rewrite (rp_info _ _ R).
  eapply osim_bind; [apply osim_same|]. intros info ? <-. destruct dt as [dt|dt|dt]; try reflexivity.
  destruct (dt =? 0); [exact R0|]. destruct R0 as [(F & E1 & E2) I S]. cbn [fst snd] in *. rewrite E2, E1.
  eapply osim_bind; [apply osim_same|]. intros ob ? <-. eapply osim_bind; [apply osim_same|]. intros bl ? <-.
  eapply osim_bind; [apply osim_same|]. intros [sk idx] ? <-. eapply osim_bind; [apply osim_same|]. intros oh ? <-.
  eapply osim_bind; [apply osim_same|]. intros hd ? <-.
  eapply osim_bind; [apply (foldM_sim d_sim); [intros; now apply seek_channel_sim|repeat split; exact F]|].
  intros [[c1 s1] hs1] [[c2 s2] hs2] (H1 & H2 & H3). cbn [fst snd] in *. subst.
  eapply osim_bind; [apply prune_sim; exact H1|]. intros l l' HL. constructor; auto. repeat split; auto.
Qed.
Lemma hear_replica p ops a b : replica a b -> hear_all p ops a = hear_all p ops b.
Proof.
  intros R. cut (osim eq (hear_all p ops a) (hear_all p ops b)).
  { destruct (hear_all p ops a), (hear_all p ops b); cbn; intros; try contradiction; congruence. }
  revert a b R; induction ops as [|op ops IH]; intros a b R; cbn [hear_all]; [reflexivity|].
  eapply (osim_bind (fun x y => replica (fst x) (fst y) /\ snd x = snd y)).
  - destruct op as [buf| |dt]; cbn [hear play].
    + eapply osim_bind; [apply decode_replica; exact R|]. intros [[c1 o1] k1] [[c2 o2] k2] (H1 & H2 & H3). cbn [fst snd] in *. subst. cbn. auto.
    + cbn. split; auto. now apply init_replica.
    + eapply osim_bind; [apply seek_replica; exact R|]. intros c1 c2 HR. cbn. auto.
  - intros [c1 r1] [c2 r2] [H1 H2]. cbn [fst snd] in *. subst. eapply osim_bind; [apply IH; exact H1|]. intros x ? <-. cbn. reflexivity.
Qed.
