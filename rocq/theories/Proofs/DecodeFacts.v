(** * AdhocCodec::decode against the specification *)
From Coq Require Import ZArith List Bool Lia.
From Verif Require Import Model.Base Model.F32 Model.Noise Model.Sample Model.BitStream
  Model.CircularStack Model.Frame Model.Adhoc Spec.Bits Spec.Codec Spec.Recording
  Proofs.BaseFacts Proofs.BitStreamFacts Proofs.BitLog Proofs.Rice Proofs.Headers
  Proofs.StreamOpsFacts Proofs.FrameFacts Proofs.EncodeFacts.
Import ListNotations.
Open Scope Z_scope.

(** ** Abstract decoder state *)
(** One channel: its history and the samples waiting to be output. *)
Notation dch := (option hist * list f32)%type (only parsing).
Definition dch_rel (c : frame_codec) (d : dch) : Prop := dc_rel c (fst d) (snd d).
Definition step_ch (d : dch) (f : frame) : dch :=
  (Some (decode_hist (fst d) f), snd d ++ decode_floats (fst d) f).
Definition step_row (ds : list dch) (row : list frame) : list dch := zipw step_ch ds row.

(** Everything a channel will still output. *)
Fixpoint remaining (ds : list dch) (todo : list (list frame)) : list (list f32) :=
  match todo with
  | [] => map snd ds
  | row :: todo => remaining (step_row ds row) todo
  end.

Lemma len_fst (R : option hist -> frame -> Prop) (ds : list dch) row :
  Forall2 R (map fst ds) row -> length ds = length row.
Proof. intros H. apply Forall2_len in H. now rewrite map_length in H. Qed.

Definition bits_of (fs : list frame) : list bool := flat_map fr_bits fs.

(** The decoder stands after the frames [a] of [fs]. *)
Definition dec_at (d : dstate) (m : list Z) (a fs : list frame) (ds : list dch) : Prop :=
  let '(chs, s, hs) := d in
  Forall2 dch_rel chs ds /\ reader s m (zlen (bits_of a)) /\ dec_headers hs fs (zlen a).

(** The memory holds the frames. *)
Definition mem_ok (m : list Z) (fs : list frame) : Prop :=
  bits_at m 0 (bits_of fs) /\ zlen (bits_of fs) <= 128 * zlen m /\
  zlen (bits_of fs) + 512 < 2 ^ 64 /\ zlen fs + 1 < 2 ^ 32.

Lemma bits_of_app a b : bits_of (a ++ b) = bits_of a ++ bits_of b.
Proof. apply flat_map_app. Qed.

(** The memory holds the bits of the frames [row], which follow the frames [a] of [fs]. *)
Definition mem_at (m : list Z) (fs a row : list frame) : Prop :=
  bits_at m (zlen (bits_of a)) (bits_of row) /\ zlen (bits_of (a ++ row)) <= 128 * zlen m /\
  zlen (bits_of (a ++ row)) + 512 < 2 ^ 64 /\ zlen fs + 1 < 2 ^ 32.
Lemma mem_ok_at m a row b : mem_ok m (a ++ row ++ b) -> mem_at m (a ++ row ++ b) a row.
Proof.
  intros (HB & HL & HX & HN). rewrite !bits_of_app in *. rewrite !zlen_app in *. pose proof (zlen_nonneg (bits_of b)).
  apply bits_at_app in HB. destruct HB as [_ HB]. rewrite Z.add_0_l in HB. apply bits_at_app in HB. destruct HB as [HB _].
  unfold mem_at. rewrite bits_of_app, !zlen_app. repeat split; auto; lia.
Qed.
Lemma mem_at_split m fs a r1 r2 : mem_at m fs a (r1 ++ r2) -> mem_at m fs a r1 /\ mem_at m fs (a ++ r1) r2.
Proof.
  intros (HB & HL & HX & HN). rewrite app_assoc in HL, HX. rewrite bits_of_app in HB. apply bits_at_app in HB. destruct HB as [B1 B2].
  assert (E : zlen (bits_of ((a ++ r1) ++ r2)) = zlen (bits_of (a ++ r1)) + zlen (bits_of r2)) by now rewrite (bits_of_app (a ++ r1)), zlen_app.
  pose proof (zlen_nonneg (bits_of r2)). split; (split; [|split; [|split]]); auto; try lia.
  rewrite bits_of_app, zlen_app. exact B2.
Qed.

(** ** One round over the channels *)
Lemma decode_channel_at p chs s hs m a f b ds j :
  let fs := a ++ f :: b in
  dec_at (chs, s, hs) m a fs ds -> mem_at m fs a [f] -> 0 <= j < zlen ds ->
  frame_ok p (fst (nth (Z.to_nat j) ds (None, []))) f ->
  exists d', decode_channel p (chs, s, hs) j = Ok d' /\
    dec_at d' m (a ++ [f]) fs (replace_nth (Z.to_nat j) ds (step_ch (nth (Z.to_nat j) ds (None, [])) f)).
Proof.
  intros fs (HC & HR & HH) (HB & HL & HX & HN) Hj Hf. unfold decode_channel.
  assert (Hlen : length chs = length ds) by (eapply Forall2_len; eauto).
  assert (Hl : zlen chs = zlen ds) by (unfold zlen; lia).
  rewrite (index_ok _ j fc_new) by lia. cbn [bind].
  pose proof (Forall2_nth _ _ _ (Z.to_nat j) fc_new (None, []) HC ltac:(unfold zlen in *; lia)) as Hd.
  set (d := nth (Z.to_nat j) ds (None, [])) in *. unfold dch_rel in Hd.
  rewrite bits_of_app, zlen_app in HL, HX. cbn [bits_of flat_map] in HB, HL, HX. rewrite app_nil_r in HB, HL, HX.
  fold (bits_of a) in *.
  destruct (decode_frame_spec p _ (fst d) (snd d) s m hs a f b Hd HR HB HH Hf) as (c' & s' & hs' & E & R1 & R2 & R3);
    auto; fold (bits_of a); try lia.
  rewrite E. cbn [bind]. rewrite store_ok by lia. cbn [bind].
  eexists. split; [reflexivity|]. split; [|split].
  - apply Forall2_replace; auto.
  - rewrite bits_of_app, zlen_app. cbn [bits_of flat_map]. rewrite app_nil_r. exact R2.
  - rewrite zlen_app. exact R3.
Qed.

Lemma decode_row_at p d m a row b ds :
  let fs := a ++ row ++ b in
  dec_at d m a fs ds -> mem_at m fs a row -> Forall2 (frame_ok p) (map fst ds) row ->
  exists d', foldM (decode_channel p) (range (zlen ds)) d = Ok d' /\
    dec_at d' m (a ++ row) fs (step_row ds row).
Proof.
  intros fs HD HM HF.
  assert (Lr : length ds = length row) by (eapply len_fst; eauto).
  assert (Ls : length (step_row ds row) = length ds) by (apply length_zipw; auto).
  set (df := make_frame None []).
  assert (K : forall k, (k <= length ds)%nat ->
    exists d', foldM (decode_channel p) (range (Z.of_nat k)) d = Ok d' /\
      dec_at d' m (a ++ firstn k row) fs (firstn k (step_row ds row) ++ skipn k ds)).
  { induction k as [|k IH]; intros Hk.
    - exists d. change (range (Z.of_nat 0)) with (@nil Z). cbn [foldM firstn skipn app].
      rewrite app_nil_r. auto.
    - destruct IH as (d1 & E1 & R1); [lia|].
      replace (Z.of_nat (S k)) with (Z.of_nat k + 1) by lia.
      rewrite range_succ, foldM_app, E1 by lia. cbn [bind foldM].
      destruct d1 as [[chs1 s1] hs1].
      set (ds1 := firstn k (step_row ds row) ++ skipn k ds) in *.
      assert (Hst : nth k ds1 (None, []) = nth k ds (None, [])) by (apply nth_mid; lia).
      assert (Ef : fs = (a ++ firstn k row) ++ nth k row df :: (skipn (S k) row ++ b)).
      { subst fs. rewrite <- app_assoc. f_equal. rewrite <- (firstn_skipn k row) at 1.
        rewrite (skipn_nth_cons row k df) by lia. now rewrite <- app_assoc. }
      assert (HMk : mem_at m fs (a ++ firstn k row) [nth k row df]).
      { assert (Er : row = firstn k row ++ [nth k row df] ++ skipn (S k) row).
        { rewrite <- (firstn_skipn k row) at 1. now rewrite (skipn_nth_cons row k df) by lia. }
        rewrite Er in HM. apply mem_at_split in HM. destruct HM as [_ HM]. apply mem_at_split in HM. apply HM. }
      rewrite Ef in R1, HMk.
      destruct (decode_channel_at p chs1 s1 hs1 m _ _ _ ds1 (Z.of_nat k) R1 HMk) as (d2 & E2 & R2).
      { unfold zlen. subst ds1. rewrite length_mid by lia. lia. }
      { rewrite Nat2Z.id, Hst.
        pose proof (Forall2_nth _ _ _ k None df HF ltac:(rewrite map_length; lia)) as X.
        rewrite <- (map_nth fst ds) . exact X. }
      rewrite E2. cbn [bind]. eexists. split; [reflexivity|].
      rewrite <- Ef, Nat2Z.id, Hst in R2.
      rewrite (firstn_S_nth row k df), app_assoc by lia.
      rewrite <- (replace_mid (step_row ds row) ds k (None, [])) by lia.
      unfold step_row at 2. rewrite (nth_zipw _ _ _ _ (None, []) df) by lia. exact R2. }
  destruct (K (length ds) (le_n _)) as (d' & E & R). exists d'. split; [exact E|].
  rewrite !firstn_all2, skipn_all2, app_nil_r in R by lia. exact R.
Qed.
Lemma decode_row_spec p d m a row b ds :
  let fs := a ++ row ++ b in
  dec_at d m a fs ds -> mem_ok m fs -> Forall2 (frame_ok p) (map fst ds) row ->
  exists d', foldM (decode_channel p) (range (zlen ds)) d = Ok d' /\
    dec_at d' m (a ++ row) fs (step_row ds row).
Proof. intros fs HD HM HF. apply decode_row_at; auto. now apply mem_ok_at. Qed.

Lemma replace_nth_id {A} (l : list A) j d : replace_nth j l (nth j l d) = l.
Proof. revert j; induction l; destruct j; cbn; auto. now rewrite IHl. Qed.

(** After the last frame nothing changes. *)
Lemma decode_end_spec p chs s hs fs n :
  dec_headers hs fs (zlen fs) -> zlen fs + 1 < 2 ^ 32 -> n <= zlen chs ->
  foldM (decode_channel p) (range n) (chs, s, hs) = Ok (chs, s, hs).
Proof.
  intros HH HN Hn. destruct (Z.le_gt_cases n 0) as [Hneg|Hpos].
  { rewrite range_neg by lia. reflexivity. }
  assert (K : forall l, (forall j, In j l -> 0 <= j < zlen chs) ->
            foldM (decode_channel p) l (chs, s, hs) = Ok (chs, s, hs)).
  { induction l as [|j l IH]; intros Hl; [reflexivity|]. cbn [foldM].
    specialize (Hl j (or_introl eq_refl)) as Hj.
    unfold decode_channel at 1. rewrite (index_ok _ j fc_new) by lia. cbn [bind].
    rewrite (decode_frame_end p _ s hs fs HH HN). cbn [bind].
    rewrite store_ok by lia. cbn [bind]. rewrite replace_nth_id. apply IH.
    intros; apply Hl; right; auto. }
  apply K. intros j Hj. apply in_range in Hj. lia.
Qed.

(** ** Shape of the rows *)
Definition row_size (n : Z) (row : list frame) : Prop := Forall (fun f => fr_size f = n) row.
Definition row_empty (row : list frame) : Prop := row_size 0 row.
Definition next_dsts (sts : list (option hist)) (row : list frame) : list (option hist) :=
  zipw (fun st f => Some (decode_hist st f)) sts row.
Fixpoint rows_ok (p : profile) (sts : list (option hist)) (rows : list (list frame)) : Prop :=
  match rows with
  | [] => True
  | row :: rows =>
      Forall2 (frame_ok p) sts row /\ (exists n, row_size n row) /\ rows_ok p (next_dsts sts row) rows
  end.
(** Nine empty rows in a row are followed by empty rows only. *)
Definition gap_ok (rows : list (list frame)) : Prop :=
  forall a b c, rows = a ++ b ++ c -> Forall row_empty b -> (9 <= length b)%nat -> Forall row_empty c.

Lemma gap_ok_app a b : gap_ok (a ++ b) -> gap_ok b.
Proof. intros H x y z ->. apply (H (a ++ x) y z). now rewrite <- app_assoc. Qed.

Definition even (ds : list dch) (L : Z) : Prop := Forall (fun d => zlen (snd d) = L) ds.

Lemma map_fst_step ds row : map fst (step_row ds row) = next_dsts (map fst ds) row.
Proof.
  unfold step_row, next_dsts. revert row; induction ds; destruct row; cbn; auto. now rewrite IHds.
Qed.
Lemma frame_ok_floats p st f : frame_ok p st f -> zlen (decode_floats st f) = fr_size f.
Proof.
  intros (_ & _ & _ & _ & H). rewrite length_decode_floats. destruct st; auto.
  unfold fr_size. rewrite H. reflexivity.
Qed.
Lemma even_step p ds row L n :
  even ds L -> Forall2 (frame_ok p) (map fst ds) row -> row_size n row -> even (step_row ds row) (L + n).
Proof.
  unfold even, step_row, row_size. revert row; induction ds as [|d ds IH]; intros [|f row] HE HF HS; cbn [zipw];
    constructor; cbn [map] in HF; inversion HE; inversion HF; inversion HS; subst.
  - cbn [step_ch snd]. rewrite zlen_app, (frame_ok_floats p) by auto. congruence.
  - apply IH; auto.
Qed.
Lemma length_step p ds row : Forall2 (frame_ok p) (map fst ds) row -> length (step_row ds row) = length ds.
Proof.
  intros H. apply length_zipw. eapply len_fst; eauto.
Qed.

Lemma remaining_len p ds todo L :
  even ds L -> rows_ok p (map fst ds) todo ->
  exists T, L <= T /\ Forall (fun l => zlen l = T) (remaining ds todo) /\
            (Forall row_empty todo -> ds <> [] -> T = L).
Proof.
  revert ds L; induction todo as [|row todo IH]; intros ds L HE HR; cbn [remaining].
  - exists L. split; [lia|]. split; auto. apply Forall_map. exact HE.
  - destruct HR as (HF & (n & HS) & HR). rewrite <- map_fst_step in HR.
    destruct (IH _ _ (even_step p _ _ _ _ HE HF HS) HR) as (T & HT & HT' & HT2).
    destruct ds as [|d ds].
    + exists L. split; [lia|]. split; [|congruence].
      assert (Z0 : forall t, remaining [] t = []) by (induction t; cbn; auto).
      change (step_row [] row) with (@nil dch). rewrite Z0. constructor.
    + destruct row as [|f row]; [cbn in HF; inversion HF|].
      assert (0 <= n).
      { unfold row_size in HS. inversion HS; subst. unfold fr_size.
        pose proof (zlen_nonneg (fr_raw f)). pose proof (zlen_nonneg (fr_res f)). lia. }
      exists T. split; [lia|]. split; auto. intros HX _. inversion HX as [|? ? HX1 HX2]; subst.
      assert (n = 0). { unfold row_empty, row_size in *. inversion HS; inversion HX1; subst. congruence. }
      subst n. rewrite Z.add_0_r in HT2. apply HT2; auto. cbn. discriminate.
Qed.

(** Samples per channel of a row. *)
Definition row_n (row : list frame) : Z := match row with [] => 0 | f :: _ => fr_size f end.
Definition sum_n (rows : list (list frame)) : Z := fold_right Z.add 0 (map row_n rows).
Lemma fr_size_nonneg f : 0 <= fr_size f.
Proof. unfold fr_size. pose proof (zlen_nonneg (fr_raw f)). pose proof (zlen_nonneg (fr_res f)). lia. Qed.
Lemma row_n_nonneg row : 0 <= row_n row.
Proof. destruct row; cbn; [lia|apply fr_size_nonneg]. Qed.
Lemma sum_n_nonneg rows : 0 <= sum_n rows.
Proof.
  unfold sum_n. induction rows as [|row rows IH]; cbn [map fold_right]; [lia|].
  pose proof (row_n_nonneg row). lia.
Qed.
Lemma row_empty_n row : row_empty row -> row_n row = 0.
Proof. intros H. destruct row; cbn; auto. now inversion H. Qed.
Lemma row_n_empty row n : row_size n row -> row_n row = 0 -> row_empty row.
Proof.
  intros H E. destruct row as [|f row]; [constructor|]. cbn in E. unfold row_empty.
  inversion H; subst. now replace 0 with (fr_size f).
Qed.
Lemma remaining_sum p ds todo L :
  even ds L -> rows_ok p (map fst ds) todo -> ds <> [] ->
  Forall (fun l => zlen l = L + sum_n todo) (remaining ds todo).
Proof.
  unfold sum_n. revert ds L; induction todo as [|row todo IH]; intros ds L HE HR HN; cbn [remaining map fold_right].
  - rewrite Z.add_0_r. apply Forall_map. exact HE.
  - destruct HR as (HF & (n & HS) & HR). rewrite <- map_fst_step in HR.
    assert (E : row_n row = n).
    { destruct ds; [congruence|]. destruct row; [cbn in HF; inversion HF|]. now inversion HS. }
    rewrite E, Z.add_assoc. apply IH; auto.
    + eapply even_step; eauto.
    + intros E0. apply (f_equal (@length _)) in E0. rewrite (length_step p) in E0 by auto.
      destruct ds; [congruence|discriminate].
Qed.

(** Blocks that can be delivered before decode finds nothing: rows up to the first nine
    consecutive empty ones.  [run]: empty rows just passed. *)
Fixpoint reach_run (run : nat) (todo : list (list frame)) : Z :=
  match todo with
  | [] => 0
  | row :: todo =>
      if row_n row =? 0 then reach_run (S run) todo
      else if (run <=? 8)%nat then row_n row + reach_run 0 todo else 0
  end.
Lemma reach_run_le run todo : 0 <= reach_run run todo <= sum_n todo.
Proof.
  unfold sum_n. revert run; induction todo as [|row todo IH]; intros run; cbn [reach_run map fold_right]; [lia|].
  pose proof (row_n_nonneg row). pose proof (sum_n_nonneg todo). unfold sum_n in *.
  destruct (Z.eqb_spec (row_n row) 0) as [->|]; [apply (IH (S run))|].
  specialize (IH 0%nat). destruct (run <=? 8)%nat; lia.
Qed.
Lemma reach_run_9 run todo : (9 <= run)%nat -> reach_run run todo = 0.
Proof.
  revert run; induction todo as [|row todo IH]; intros run H; cbn [reach_run]; auto.
  destruct (row_n row =? 0); [apply IH; lia|]. destruct (Nat.leb_spec run 8); [lia|auto].
Qed.
Lemma reach_run_empty run e todo : Forall row_empty e -> reach_run run (e ++ todo) = reach_run (run + length e) todo.
Proof.
  revert run; induction e as [|row e IH]; intros run H; cbn [app reach_run length].
  - now rewrite Nat.add_0_r.
  - inversion H; subst. rewrite (row_empty_n row) by auto. cbn [Z.eqb]. rewrite IH by auto. f_equal. lia.
Qed.
Lemma sum_n_app a b : sum_n (a ++ b) = sum_n a + sum_n b.
Proof. unfold sum_n. induction a; cbn [app map fold_right]; lia. Qed.
Lemma sum_n_empty e : Forall row_empty e -> sum_n e = 0.
Proof. unfold sum_n. induction 1 as [|row e H]; cbn [map fold_right]; auto. rewrite row_empty_n by auto. lia. Qed.
Lemma rows_ok_sizes p sts rows : rows_ok p sts rows -> Forall (fun row => exists n, row_size n row) rows.
Proof. revert sts; induction rows; intros sts H; constructor; destruct H as (_ & H1 & H2); eauto. Qed.
Lemma reach_gap_ok_gen e todo :
  gap_ok (e ++ todo) -> Forall row_empty e -> Forall (fun row => exists n, row_size n row) todo ->
  reach_run (length e) todo = sum_n todo.
Proof.
  revert e; induction todo as [|row todo IH]; intros e HG HE HS; [reflexivity|].
  unfold sum_n. cbn [reach_run map fold_right]. fold (sum_n todo).
  inversion HS as [|? ? [n H1] H2]; subst.
  destruct (Z.eqb_spec (row_n row) 0) as [E|E].
  - rewrite E. change (S (length e)) with (1 + length e)%nat.
    replace (1 + length e)%nat with (length (e ++ [row])) by (rewrite app_length; cbn; lia).
    rewrite (IH (e ++ [row])); auto.
    + now rewrite <- app_assoc.
    + apply Forall_app; split; auto. constructor; auto. eapply row_n_empty; eauto.
  - destruct (Nat.leb_spec (length e) 8).
    + change 0%nat with (length (@nil (list frame))). rewrite (IH []); auto. cbn [app]. apply (gap_ok_app (e ++ [row])). now rewrite <- app_assoc.
    + exfalso. apply E. apply row_empty_n.
      specialize (HG [] e (row :: todo) eq_refl HE ltac:(lia)). now inversion HG.
Qed.
Lemma reach_gap_ok todo : gap_ok todo -> Forall (fun row => exists n, row_size n row) todo ->
  reach_run 0 todo = sum_n todo.
Proof. intros HG HS. apply (reach_gap_ok_gen []); auto. Qed.

Definition popd (d : dch) : dch := (fst d, tl (snd d)).
Lemma step_pop ds row : Forall (fun d => snd d <> []) ds ->
  step_row (map popd ds) row = map popd (step_row ds row) /\ Forall (fun d => snd d <> []) (step_row ds row).
Proof.
  unfold step_row. revert row; induction ds as [|d ds IH]; intros [|f row] H; cbn [map zipw]; auto.
  inversion H as [|? ? H1 H2]; subst. destruct (IH row H2) as [E1 E2]. split.
  - rewrite E1. f_equal. unfold step_ch, popd. cbn [fst snd]. destruct (snd d); [congruence|reflexivity].
  - constructor; auto. cbn [step_ch snd]. destruct (snd d); [congruence|discriminate].
Qed.
Lemma length_remaining p ds todo : rows_ok p (map fst ds) todo -> length (remaining ds todo) = length ds.
Proof.
  revert ds; induction todo as [|row todo IH]; intros ds H; cbn [remaining].
  - apply map_length.
  - destruct H as (HF & _ & HR). rewrite <- map_fst_step in HR. rewrite IH; auto. eapply length_step; eauto.
Qed.
Lemma remaining_pop p ds todo : rows_ok p (map fst ds) todo -> Forall (fun d => snd d <> []) ds ->
  remaining (map popd ds) todo = map (@tl f32) (remaining ds todo) /\
  map (hd f0) (remaining ds todo) = map (fun d => hd f0 (snd d)) ds.
Proof.
  revert ds; induction todo as [|row todo IH]; intros ds HO H; cbn [remaining].
  - rewrite !map_map. auto.
  - destruct (step_pop ds row H) as [E1 E2]. destruct HO as (HF & _ & HO). rewrite <- map_fst_step in HO.
    rewrite E1. destruct (IH _ HO E2) as [E3 E4].
    split; auto. rewrite E4. clear -H HF. revert row HF; unfold step_row.
    induction ds as [|d ds IH]; intros [|f row] HF; cbn [map] in *; inversion HF; subst; auto.
    inversion H; subst. cbn [zipw map]. f_equal; auto.
    cbn [step_ch snd]. destruct (snd d); [congruence|reflexivity].
Qed.

(** ** The invariant between calls *)
Record dec_inv (p : profile) (d : dstate) (m : list Z) (done todo : list (list frame)) (ds : list dch)
  (L : Z) : Prop := mkDecInv {
  di_at : dec_at d m (concat done) (concat (done ++ todo)) ds;
  di_even : even ds L;
  di_ok : rows_ok p (map fst ds) todo;
  di_ne : ds <> [];
  di_started : (done = [] /\ L = 0) \/ Forall (fun d => fst d <> None) ds }.

Lemma step_started p ds row : Forall2 (frame_ok p) (map fst ds) row ->
  Forall (fun d => fst d <> None) (step_row ds row).
Proof.
  unfold step_row. revert row; induction ds as [|d ds IH]; intros [|f row] H; cbn [zipw]; constructor;
    cbn [map] in H; inversion H; subst; auto. cbn. discriminate.
Qed.

Lemma buffers_empty_spec chs ds L :
  Forall2 dch_rel chs ds -> even ds L -> ds <> [] -> buffers_empty chs = (L =? 0).
Proof.
  intros HC. unfold even, buffers_empty. revert L.
  induction HC as [|c d chs ds Hc HC IH]; intros L HE Hne; [congruence|].
  inversion HE as [|? ? H1 H2]; subst. cbn [forallb].
  destruct Hc as [Hb _]. rewrite Hb.
  destruct ds as [|d2 ds].
  - inversion HC; subst. cbn [forallb]. rewrite andb_true_r. destruct (snd d); [reflexivity|].
    rewrite zlen_cons. pose proof (zlen_nonneg l). symmetry. apply Z.eqb_neq. lia.
  - rewrite (IH _ H2) by discriminate. destruct (snd d) as [|x l].
    + reflexivity.
    + cbn [andb]. rewrite zlen_cons. pose proof (zlen_nonneg l). symmetry. apply Z.eqb_neq. lia.
Qed.

Lemma buffer_audio_spec p fuel d m done todo ds L :
  dec_inv p d m done todo ds L -> mem_ok m (concat (done ++ todo)) ->
  exists d' n done' todo' ds' L',
    buffer_audio p (zlen ds) fuel d = Ok (d', n) /\ dec_inv p d' m done' todo' ds' L' /\
    done' ++ todo' = done ++ todo /\ todo' = skipn n todo /\ length ds' = length ds /\
    remaining ds' todo' = remaining ds todo /\ (n <= fuel)%nat /\
    ((n < fuel)%nat -> 0 < L') /\
    ((0 < n)%nat -> L = 0 /\ Forall row_empty (firstn (n - 1) todo)) /\
    (n = 0%nat -> L' = L).
Proof.
  revert d done todo ds L; induction fuel as [|fuel IH]; intros d done todo ds L HI HM; cbn [buffer_audio].
  - exists d, 0%nat, done, todo, ds, L. split; auto. split; auto. repeat (split; [auto; intros; lia|]). auto.
  - destruct d as [[chs s] hs]. destruct HI as [HA HE HO HN HSt]. pose proof HA as (HC & HR & HH).
    rewrite (buffers_empty_spec chs ds L HC HE HN).
    assert (HL0 : 0 <= L) by (destruct ds; [congruence|]; inversion HE; subst; apply zlen_nonneg).
    destruct (Z.eqb_spec L 0) as [->|HL].
    2: { exists (chs, s, hs), 0%nat, done, todo, ds, L. split; auto. split; [constructor; auto|].
         repeat (split; [auto; intros; lia|]). auto. }
    destruct todo as [|row todo].
    + rewrite app_nil_r in *.
      rewrite (decode_end_spec p chs s hs (concat done)); auto.
      2: { apply HM. }
      2: { unfold zlen. rewrite (Forall2_len _ _ _ HC). lia. }
      cbn [bind].
      destruct (IH (chs, s, hs) done [] ds 0) as (d' & n & done' & todo' & ds' & L' & E & HI' & P1 & P2 & P3 & P4 & P5 & P6 & P7 & P8).
      { constructor; auto. now rewrite app_nil_r. } { now rewrite app_nil_r. }
      rewrite E. cbn [bind]. exists d', (S n), done', todo', ds', L'. rewrite app_nil_r in P1.
      split; [reflexivity|]. split; [exact HI'|]. split; [exact P1|].
      split; [rewrite skipn_nil in *; exact P2|]. split; [exact P3|]. split; [exact P4|].
      split; [lia|]. split; [intros; apply P6; lia|]. split; [|intros; lia]. intros _. split; auto. rewrite firstn_nil. constructor.
    + destruct HO as (HF & (k & HS) & HO).
      assert (Ec : concat (done ++ row :: todo) = concat done ++ row ++ concat todo) by now rewrite concat_app.
      rewrite Ec in HA, HM.
      destruct (decode_row_spec p (chs, s, hs) m (concat done) row (concat todo) ds HA HM HF) as (d1 & E1 & R1).
      rewrite E1. cbn [bind].
      assert (HK : concat (done ++ [row]) = concat done ++ row) by (rewrite concat_app; cbn [concat]; now rewrite app_nil_r).
      destruct (IH d1 (done ++ [row]) todo (step_row ds row) (0 + k))
        as (d' & n & done' & todo' & ds' & L' & E & HI' & P1 & P2 & P3 & P4 & P5 & P6 & P7 & P8).
      { constructor.
        - rewrite <- app_assoc. cbn [app]. rewrite Ec, HK. exact R1.
        - eapply even_step; eauto.
        - now rewrite map_fst_step.
        - intros E. apply (f_equal (@length _)) in E. rewrite (length_step p) in E by auto.
          destruct ds; [congruence|discriminate].
        - right. eapply step_started; eauto. }
      { rewrite <- app_assoc. cbn [app]. now rewrite Ec. }
      assert (Hz : zlen (step_row ds row) = zlen ds) by (unfold zlen; now rewrite (length_step p)).
      rewrite Hz in E. rewrite E. cbn [bind]. exists d', (S n), done', todo', ds', L'.
      rewrite (length_step p) in P3 by auto. rewrite <- app_assoc in P1.
      split; [reflexivity|]. split; [exact HI'|]. split; [exact P1|]. split; [exact P2|].
      split; [exact P3|]. split; [exact P4|]. split; [lia|]. split; [intros; apply P6; lia|].
      split; [|intros; lia]. intros _. split; auto. replace (S n - 1)%nat with n by lia.
      destruct n as [|n]; [constructor|]. cbn [firstn].
      destruct (P7 ltac:(lia)) as [Ek P9]. replace (S n - 1)%nat with n in P9 by lia.
      constructor; auto. unfold row_empty. now replace 0 with k by lia.
Qed.

(** ** Popping one block *)
Definition popc (fc : frame_codec) : frame_codec := mkFC (fc_state fc) (fc_history fc) (tl (fc_buffer fc)).
Lemma pop_block_spec fuel chs c room :
  0 <= c -> c + Z.of_nat fuel = zlen chs -> Z.of_nat fuel <= room ->
  pop_block chs (zlen chs) c fuel room =
    Ok (firstn (Z.to_nat c) chs ++ map popc (skipn (Z.to_nat c) chs),
        map (fun fc => hd f0 (fc_buffer fc)) (skipn (Z.to_nat c) chs)).
Proof.
  revert chs c room; induction fuel as [|fuel IH]; intros chs c room Hc Hf Hr; cbn [pop_block].
  - rewrite skipn_all2, firstn_all2 by (unfold zlen in Hf; lia). cbn [map]. now rewrite app_nil_r.
  - destruct (Z.ltb_spec 0 room); [|lia]. destruct (Z.ltb_spec c (zlen chs)); [|lia]. cbn [andb].
    rewrite (index_ok _ c fc_new) by lia. cbn [bind].
    assert (Hk : (Z.to_nat c < length chs)%nat) by (unfold zlen in *; lia).
    set (fc := nth (Z.to_nat c) chs fc_new).
    assert (ES : skipn (Z.to_nat c) chs = fc :: skipn (S (Z.to_nat c)) chs) by (apply skipn_nth_cons; auto).
    destruct (match fc_buffer fc with [] => (f0, []) | v :: r => (v, r) end) as [v rest] eqn:EV.
    assert (Hv : v = hd f0 (fc_buffer fc) /\ rest = tl (fc_buffer fc))
      by (destruct (fc_buffer fc); injection EV as <- <-; auto).
    destruct Hv as [-> ->]. rewrite store_ok by lia. cbn [bind].
    set (chs1 := replace_nth (Z.to_nat c) chs _).
    assert (L1 : zlen chs1 = zlen chs) by apply zlen_replace_nth.
    rewrite <- L1. rewrite IH by (rewrite ?L1; lia). cbn [bind].
    replace (Z.to_nat (c + 1)) with (S (Z.to_nat c)) by lia.
    assert (E1 : chs1 = firstn (Z.to_nat c) chs ++ popc fc :: skipn (S (Z.to_nat c)) chs).
    { subst chs1. rewrite <- (firstn_skipn (Z.to_nat c) chs) at 1.
      rewrite replace_nth_app_r by (rewrite firstn_length; lia).
      replace (Z.to_nat c - length (firstn (Z.to_nat c) chs))%nat with 0%nat by (rewrite firstn_length; lia).
      rewrite ES. reflexivity. }
    assert (E2 : skipn (S (Z.to_nat c)) chs1 = skipn (S (Z.to_nat c)) chs).
    { rewrite E1. rewrite skipn_app.
      replace (S (Z.to_nat c) - length (firstn (Z.to_nat c) chs))%nat with 1%nat by (rewrite firstn_length; lia).
      rewrite skipn_all2 by (rewrite firstn_length; lia). reflexivity. }
    assert (E3 : firstn (S (Z.to_nat c)) chs1 = firstn (Z.to_nat c) chs ++ [popc fc]).
    { rewrite E1. rewrite firstn_app.
      replace (S (Z.to_nat c) - length (firstn (Z.to_nat c) chs))%nat with 1%nat by (rewrite firstn_length; lia).
      rewrite firstn_all2 by (rewrite firstn_length; lia). reflexivity. }
    rewrite E2, E3, ES. cbn [map]. rewrite <- app_assoc. reflexivity.
Qed.

Lemma Forall2_pop chs ds : Forall2 dch_rel chs ds -> Forall2 dch_rel (map popc chs) (map popd ds).
Proof.
  induction 1 as [|c d chs ds [H1 H2]]; cbn [map]; constructor; auto.
  split; cbn [popc popd fc_buffer fst snd]; [now rewrite H1|exact H2].
Qed.
Lemma map_hd_rel chs ds : Forall2 dch_rel chs ds ->
  map (fun fc => hd f0 (fc_buffer fc)) chs = map (fun d => hd f0 (snd d)) ds.
Proof. induction 1 as [|c d chs ds [H1 H2]]; cbn [map]; auto. now rewrite H1, IHForall2. Qed.

(** ** The output loop *)
Lemma buffer_reach p d m done todo ds L d' n done' todo' ds' L' :
  dec_inv p d m done todo ds L -> dec_inv p d' m done' todo' ds' L' ->
  todo' = skipn n todo -> remaining ds' todo' = remaining ds todo ->
  (n <= MAX_DECODE_ATTEMPTS)%nat -> ((n < MAX_DECODE_ATTEMPTS)%nat -> 0 < L') ->
  ((0 < n)%nat -> L = 0 /\ Forall row_empty (firstn (n - 1) todo)) -> (n = 0%nat -> L' = L) ->
  if (MAX_DECODE_ATTEMPTS <=? n)%nat then L + reach_run 0 todo = 0
  else L' + reach_run 0 todo' = L + reach_run 0 todo.
Proof.
  unfold MAX_DECODE_ATTEMPTS. intros HI HI' P2 P4 P5 P6 P7 P8.
  destruct (Nat.leb_spec 10 n) as [Hge|Hlt].
  - assert (n = 10%nat) by lia. subst n. destruct (P7 ltac:(lia)) as [-> HE]. cbn [Nat.sub] in HE.
    rewrite <- (firstn_skipn 9 todo), reach_run_empty by auto. rewrite firstn_length.
    destruct (Nat.le_gt_cases 9 (length todo)).
    + rewrite reach_run_9 by lia. lia.
    + rewrite skipn_all2 by lia. reflexivity.
  - destruct n as [|n].
    + subst todo'. rewrite (P8 eq_refl). reflexivity.
    + destruct (P7 ltac:(lia)) as [-> HE]. specialize (P6 ltac:(lia)). replace (S n - 1)%nat with n in HE by lia.
      assert (S1 : L' + sum_n todo' = 0 + sum_n todo).
      { pose proof (remaining_sum p ds todo 0 (di_even _ _ _ _ _ _ _ HI) (di_ok _ _ _ _ _ _ _ HI) (di_ne _ _ _ _ _ _ _ HI)) as Q1.
        pose proof (remaining_sum p ds' todo' L' (di_even _ _ _ _ _ _ _ HI') (di_ok _ _ _ _ _ _ _ HI') (di_ne _ _ _ _ _ _ _ HI')) as Q2.
        rewrite P4 in Q2. pose proof (length_remaining p ds todo (di_ok _ _ _ _ _ _ _ HI)) as LR.
        pose proof (di_ne _ _ _ _ _ _ _ HI) as HN.
        destruct (remaining ds todo) as [|r rs]; [destruct ds; [congruence|discriminate]|].
        inversion Q1; inversion Q2; subst. lia. }
      rewrite <- (firstn_skipn n todo) in S1 |- *. rewrite sum_n_app, (sum_n_empty (firstn n todo)) in S1 by auto.
      rewrite reach_run_empty by auto.
      assert (ES : todo' = tl (skipn n todo)).
      { subst todo'. clear. revert n; induction todo as [|a t IH]; intros [|n]; cbn [skipn tl]; auto.
        apply (IH n). }
      destruct (skipn n todo) as [|row rest] eqn:ER.
      { cbn [tl] in ES. subst todo'. rewrite ES in S1. unfold sum_n in S1. cbn in S1. lia. }
      cbn [tl] in ES. rewrite ES in *. unfold sum_n in S1. cbn [map fold_right] in S1. fold (sum_n rest) in S1.
      cbn [reach_run]. destruct (Z.eqb_spec (row_n row) 0); [lia|].
      destruct (Nat.leb_spec (0 + length (firstn n todo)) 8) as [_|HX]; [lia|].
      rewrite firstn_length in HX. lia.
Qed.

Lemma decode_loop_spec p fuel k d m done todo ds L R :
  dec_inv p d m done todo ds L -> mem_ok m (concat (done ++ todo)) ->
  L + reach_run 0 todo = Z.of_nat R ->
  Z.of_nat k * zlen ds < Z.of_nat fuel ->
  exists d' done' todo' ds' L',
    decode_loop p (zlen ds) fuel (Z.of_nat k * zlen ds) d
      = Ok (d', interleave f0 (Nat.min k R) (remaining ds todo)) /\
    dec_inv p d' m done' todo' ds' L' /\ done' ++ todo' = done ++ todo /\
    length ds' = length ds /\
    remaining ds' todo' = map (skipn (Nat.min k R)) (remaining ds todo) /\
    ((k <= R)%nat -> L' + reach_run 0 todo' = Z.of_nat (R - k)).
Proof.
  revert k d done todo ds L R; induction fuel as [|fuel IH]; intros k d done todo ds L R HI HM HT Hf.
  { pose proof (zlen_nonneg ds). nia. }
  cbn [decode_loop].
  assert (Hpos : 0 < zlen ds).
  { pose proof (di_ne _ _ _ _ _ _ _ HI). destruct ds; [congruence|]. rewrite zlen_cons. pose proof (zlen_nonneg ds). lia. }
  assert (Hskip0 : forall l : list (list f32), map (skipn 0) l = l).
  { intros l. rewrite <- (map_id l) at 2. apply map_ext. reflexivity. }
  destruct k as [|k].
  { change (Z.of_nat 0 * zlen ds) with 0. change (0 <? 0) with false. cbn [Nat.min interleave].
    exists d, done, todo, ds, L. split; [reflexivity|]. split; [auto|]. split; [auto|].
    split; [auto|]. rewrite Hskip0. split; [auto|]. intros _. now rewrite Nat.sub_0_r. }
  destruct (Z.ltb_spec 0 (Z.of_nat (S k) * zlen ds)) as [_|]; [|nia].
  destruct (buffer_audio_spec p MAX_DECODE_ATTEMPTS d m done todo ds L HI HM)
    as (d1 & n & done1 & todo1 & ds1 & L1 & E1 & HI1 & P1 & P2 & P3 & P4 & P5 & P6 & P7 & P8).
  rewrite E1. cbn [bind].
  pose proof (buffer_reach p _ _ _ _ _ _ _ _ _ _ _ _ HI HI1 P2 P4 P5 P6 P7 P8) as HB.
  destruct (Nat.leb_spec MAX_DECODE_ATTEMPTS n) as [Hge|Hlt].
  - (* nothing found *)
    assert (R = 0%nat) by lia. subst R. rewrite Nat.min_0_r. cbn [interleave].
    exists d1, done1, todo1, ds1, L1. split; [reflexivity|]. split; [auto|]. split; [auto|].
    split; [auto|]. rewrite Hskip0. split; [auto|]. intros; lia.
  - specialize (P6 Hlt). destruct d1 as [[chs1 s1] hs1].
    pose proof (di_at _ _ _ _ _ _ _ HI1) as (HC & HR & HH).
    assert (Hz1 : zlen ds1 = zlen ds) by (unfold zlen; now rewrite P3).
    assert (Hz : zlen chs1 = zlen ds) by (rewrite <- Hz1; unfold zlen; now rewrite (Forall2_len _ _ _ HC)).
    cbv beta iota.
    pose proof (pop_block_spec (Z.to_nat (zlen ds)) chs1 0 (Z.of_nat (S k) * zlen ds) ltac:(lia) ltac:(lia) ltac:(nia)) as EP.
    rewrite Hz in EP. rewrite EP.
    change (Z.to_nat 0) with 0%nat. cbn [skipn firstn app bind].
    rewrite (map_hd_rel _ _ HC).
    assert (HNE : Forall (fun d => snd d <> []) ds1).
    { eapply Forall_impl; [|apply (di_even _ _ _ _ _ _ _ HI1)]. cbn. intros dd Hdd Hnil.
      rewrite Hnil in Hdd. change (zlen (@nil f32)) with 0 in Hdd. lia. }
    destruct (remaining_pop p ds1 todo1 (di_ok _ _ _ _ _ _ _ HI1) HNE) as [RP1 RP2].
    pose proof (reach_run_le 0 todo1) as HRL.
    destruct R as [|R]; [lia|].
    rewrite zlen_map, Hz1.
    replace (Z.of_nat (S k) * zlen ds - zlen ds) with (Z.of_nat k * zlen ds) by nia.
    assert (Hzp : zlen (map popd ds1) = zlen ds) by (now rewrite zlen_map).
    destruct (IH k (map popc chs1, s1, hs1) done1 todo1 (map popd ds1) (L1 - 1) R)
      as (d2 & done2 & todo2 & ds2 & L2 & E2 & HI2 & Q1 & Q3 & Q4 & Q5).
    + destruct HI1 as [A1 A2 A3 A4 A5]. constructor.
      * split; [|split]; auto. now apply Forall2_pop.
      * unfold even in *. apply Forall_map. eapply Forall_impl; [|apply Forall_and; [apply A2|apply HNE]].
        cbn. intros dd [H1 H2]. destruct (snd dd); [congruence|]. rewrite zlen_cons in H1. cbn [tl]. lia.
      * rewrite map_map. cbn [popd fst]. exact A3.
      * destruct ds1; [congruence|discriminate].
      * right. destruct A5 as [[_ ->]|A5]; [lia|]. apply Forall_map. exact A5.
    + now rewrite P1.
    + lia.
    + rewrite Hzp. nia.
    + rewrite Hzp in E2. rewrite E2. cbn [bind].
      exists d2, done2, todo2, ds2, L2. cbn [Nat.min interleave]. rewrite RP1, P4 in E2, Q4.
      split.
      { do 2 f_equal. rewrite <- RP2, RP1, P4. reflexivity. }
      split; [exact HI2|]. split; [congruence|].
      split; [rewrite Q3, map_length; auto|].
      split; [|intros; rewrite Q5 by lia; lia].
      rewrite Q4, map_map. apply map_ext. intros l. destruct l; [now rewrite !skipn_nil|reflexivity].
Qed.

(** ** decode *)
Definition codec_state_of (c : adhoc) : dstate := (ad_channels c, as_stream (ad_stream c), ad_headers c).

(** The codec is decoding the recording [rows] held in memory [m]; [rem] is what is left and
    [R] the number of blocks it will deliver before it finds nothing. *)
Definition decoding (p : profile) (c : adhoc) (info : stream_info) (m : list Z) (rows : list (list frame))
  (rem : list (list f32)) (R : nat) : Prop :=
  as_info (ad_stream c) = Some info /\ mem_ok m (concat rows) /\
  exists done todo ds L,
    rows = done ++ todo /\ dec_inv p (codec_state_of c) m done todo ds L /\
    L + reach_run 0 todo = Z.of_nat R /\
    zlen ds = si_channels info /\ remaining ds todo = rem.

Lemma interleave_len {A} (d : A) n l : length (interleave d n l) = (n * length l)%nat.
Proof. revert l; induction n; intros; cbn [interleave]; auto. rewrite app_length, IHn, !map_length. lia. Qed.
Lemma interleave_add {A} (d : A) a b l :
  interleave d (a + b) l = interleave d a l ++ interleave d b (map (skipn a) l).
Proof.
  revert l; induction a; intros l; cbn [Nat.add interleave].
  - cbn [app]. f_equal. rewrite <- (map_id l) at 1. apply map_ext. reflexivity.
  - rewrite <- app_assoc. f_equal. rewrite IHa. do 2 f_equal. rewrite map_map. apply map_ext.
    intros x. destruct x; [now rewrite skipn_nil|reflexivity].
Qed.

Theorem decode_spec p c info m rows rem R buf :
  decoding p c info m rows rem R ->
  let ch := Z.to_nat (si_channels info) in
  let k := Nat.min (length buf / ch) R in
  exists c' R',
    ad_decode p c buf = Ok (c', map (fun x => fmul x (ad_scale c)) (interleave f0 k rem ++ skipn (k * ch) buf),
                            if (0 <? k)%nat then Some (Z.of_nat (k * ch)) else None) /\
    decoding p c' info m rows (map (skipn k) rem) R' /\ same_setup c c' /\
    ((length buf / ch <= R)%nat -> R' = (R - length buf / ch)%nat).
Proof.
  intros (Hi & HM & done & todo & ds & L & -> & HI & HRe & Hch & HR) ch k.
  assert (Hpos : 0 < zlen ds).
  { pose proof (di_ne _ _ _ _ _ _ _ HI). destruct ds; [congruence|]. rewrite zlen_cons. pose proof (zlen_nonneg ds). lia. }
  unfold ad_decode, ad_info. rewrite Hi. cbn [expect bind]. rewrite <- Hch.
  rewrite udiv_ok by lia. cbn [bind].
  assert (Eb : zlen buf / zlen ds = Z.of_nat (length buf / ch)).
  { subst ch. rewrite <- Hch, to_nat_zlen. unfold zlen. symmetry. apply Nat2Z.inj_div. }
  rewrite Eb.
  assert (Hfuel : Z.of_nat (length buf / ch) * zlen ds < Z.of_nat (S (length buf))).
  { rewrite <- Eb. pose proof (Z.mul_div_le (zlen buf) (zlen ds) ltac:(lia)). unfold zlen in *. lia. }
  destruct (decode_loop_spec p (S (length buf)) (length buf / ch) (codec_state_of c) m done todo ds L R HI HM HRe Hfuel)
    as (d' & done' & todo' & ds' & L' & E & HI' & Q1 & Q3 & Q4 & Q5).
  unfold codec_state_of in E. rewrite E. cbn [bind]. destruct d' as [[chs s] hs]. fold k in Q4 |- *. rewrite HR in *.
  assert (Hl : length (interleave f0 k rem) = (k * ch)%nat).
  { rewrite interleave_len, <- HR, (length_remaining p) by apply HI.
    subst ch. rewrite <- Hch, to_nat_zlen. reflexivity. }
  eexists. exists (Z.to_nat (L' + reach_run 0 todo')). split; [|split; [|split]].
  - rewrite Hl. f_equal. f_equal. unfold zlen. rewrite Hl.
    assert (0 < ch)%nat by (subst ch; rewrite <- Hch, to_nat_zlen; unfold zlen in Hpos; lia).
    destruct (Nat.ltb_spec 0 k), (Z.ltb_spec 0 (Z.of_nat (k * ch))); auto; nia.
  - split; [reflexivity|]. split; [exact HM|]. exists done', todo', ds', L'.
    split; [auto|]. split; [exact HI'|].
    split; [|split; [unfold zlen in *; congruence|auto]].
    pose proof (reach_run_le 0 todo'). pose proof (di_even _ _ _ _ _ _ _ HI') as HE'. pose proof (di_ne _ _ _ _ _ _ _ HI') as HN'.
    assert (0 <= L') by (destruct ds'; [congruence|]; inversion HE'; subst; apply zlen_nonneg). lia.
  - repeat split; now rewrite ?Hi.
  - intros HX. rewrite (Q5 HX). lia.
Qed.

(** ** Starting to decode *)
(** What decoding the whole recording yields, per channel. *)
Definition full_output (ch : Z) (rows : list (list frame)) : list (list f32) :=
  remaining (repeat (None, []) (Z.to_nat ch)) rows.

Definition recorded (p : profile) (info : stream_info) (m : list Z) (rows : list (list frame)) : Prop :=
  mem_ok m (concat rows) /\ rows_ok p (repeat None (Z.to_nat (si_channels info))) rows /\ 0 < si_channels info.

Lemma init_decoding p c info m rows :
  as_info (ad_stream c) = Some info ->
  zlen (ad_channels c) = si_channels info ->
  Forall (fun fc => hist_any (fc_history fc)) (ad_channels c) ->
  chunks_ok (bs_binary (as_stream (ad_stream c))) -> ext m (bs_binary (as_stream (ad_stream c))) ->
  fhs_rep (ad_headers c) (headers_of 0 (concat rows)) ->
  recorded p info m rows ->
  decoding p (ad_init c) info m rows (full_output (si_channels info) rows) (Z.to_nat (reach_run 0 rows)).
Proof.
  intros Hi Hn HA HW HX HH (HM & HO & Hpos).
  split; [exact Hi|]. split; [exact HM|].
  exists [], rows, (repeat (None, []) (Z.to_nat (si_channels info))), 0.
  split; [reflexivity|]. split; [|split; [pose proof (reach_run_le 0 rows); lia|split; [rewrite zlen_repeat; lia|reflexivity]]].
  constructor.
  - cbn [codec_state_of ad_init ad_channels ad_stream as_stream ad_headers dec_at concat app].
    split; [|split].
    + rewrite <- Hn, to_nat_zlen. clear -HA. induction HA; cbn [map length repeat]; constructor; auto.
      repeat split; auto.
    + split; [|split].
      * split; auto. cbn [bs_seek_start set_bit_cursor bs_cursor bs_binary].
        pose proof (zlen_nonneg (bs_binary (as_stream (ad_stream c)))). lia.
      * exact HX.
      * reflexivity.
    + split; [exact HH|reflexivity].
  - unfold even. apply Forall_forall. intros x Hx. apply repeat_spec in Hx. subst. reflexivity.
  - replace (map fst (repeat (@None hist, @nil f32) (Z.to_nat (si_channels info))))
      with (repeat (@None hist) (Z.to_nat (si_channels info))); auto.
    clear. induction (Z.to_nat (si_channels info)); cbn; congruence.
  - destruct (Z.to_nat (si_channels info)) eqn:E; [lia|discriminate].
  - left; auto.
Qed.

(** Rewinding while decoding. *)
Lemma rewind_decoding p c info m rows rem R :
  decoding p c info m rows rem R -> recorded p info m rows ->
  decoding p (ad_init c) info m rows (full_output (si_channels info) rows) (Z.to_nat (reach_run 0 rows)).
Proof.
  intros (Hi & HM & done & todo & ds & L & -> & HI & HG & Hch & HR) HRec.
  destruct HI as [(HC & (HW & HX & _) & HH & _) _ _ _ _].
  apply init_decoding; auto; [| |apply HW].
  - rewrite <- Hch. unfold zlen. f_equal. eapply Forall2_len; eauto.
  - clear -HC. induction HC as [|fc d chs ds0 [_ H1]]; constructor; auto.
    destruct (fst d); destruct H1; eauto using hist_is_any.
Qed.

(** Rewinding after encoding. *)
Lemma encoded_decoding p c info inv rows sts base :
  enc_rel c info inv (concat rows) sts base ->
  recorded p info (bs_binary (as_stream (ad_stream c))) rows ->
  decoding p (ad_init c) info (bs_binary (as_stream (ad_stream c))) rows (full_output (si_channels info) rows) (Z.to_nat (reach_run 0 rows)).
Proof.
  intros HE HRec. destruct HE as [Hi _ HC Hn HB [HH _] _].
  apply init_decoding; auto.
  - rewrite <- Hn. unfold zlen. f_equal. eapply Forall2_len; eauto.
  - clear -HC. induction HC as [|fc d chs ds0 [_ H1]]; constructor; auto.
    destruct d; destruct H1; eauto using hist_is_any.
  - apply HB.
  - apply ext_refl.
Qed.

(** ** The encoder's rows are decodable *)
Definition same_shape (a b : list (option hist)) : Prop :=
  Forall2 (fun x y => x = None <-> y = None) a b.
Lemma frame_ok_shape p a b f : (a = None <-> b = None) -> frame_ok p a f -> frame_ok p b f.
Proof.
  intros HS (H1 & H2 & H3 & H4 & H5). do 4 (split; auto).
  destruct a, b; auto; exfalso; intuition discriminate.
Qed.

Lemma make_rows_ok p inv base ch pcms sts sts' :
  0 < ch -> zlen sts = ch -> first_ok sts ch pcms -> Forall (fun pcm => zlen pcm / ch <= 65535) pcms ->
  same_shape sts sts' ->
  Forall (frame_exp_ok p) (concat (make_rows sts (quant_calls inv base ch pcms))) ->
  rows_ok p sts' (make_rows sts (quant_calls inv base ch pcms)).
Proof.
  intros Hch. revert sts sts' base; induction pcms as [|pcm pcms IH]; intros sts sts' base Hs H3 Hn HS He;
    cbn [quant_calls make_rows rows_ok concat] in *; auto.
  set (call := quant_call inv base ch pcm) in *. set (n := zlen pcm / ch) in *.
  pose proof (Forall_inv Hn) as Hn1. pose proof (Forall_inv_tail Hn) as Hn2. cbv beta in Hn1. fold n in Hn1.
  apply Forall_app in He. destruct He as [He1 He2].
  assert (L : length sts = length call) by (subst call; rewrite length_quant_call; unfold zlen in Hs; lia).
  assert (HQ : Forall (fun qs => Forall i16 qs /\ zlen qs = n) call).
  { apply Forall_forall. intros qs Hq. apply in_map_iff in Hq. destruct Hq as (c & <- & _).
    split; [apply quant_channel_i16|now apply zlen_quant_channel]. }
  split; [|split].
  - clear -HS L HQ H3 Hn1 He1. cbn [first_ok] in H3. fold n in H3. unfold make_row in *. clearbody call n.
    revert call L HQ He1. induction HS as [|a b sts sts' Hab HS IH]; intros [|qs call] L HQ He1; try discriminate;
      cbn [zipw] in *; constructor; inversion HQ as [|? ? [Q1 Q2] HQ']; inversion He1; subst.
    + apply (frame_ok_shape p a b); auto. apply make_frame_ok; auto. intros ->. apply H3. left; auto.
    + apply IH; auto. intros; apply H3; right; auto.
  - exists n. unfold row_size, make_row. cbn [first_ok] in H3. fold n in H3. clear -H3 HQ. clearbody call n. revert call HQ.
    induction sts as [|st sts IH]; intros [|qs call] HQ; cbn [zipw]; constructor; inversion HQ as [|? ? [Q1 Q2] HQ']; subst.
    + apply make_frame_size. intros ->. apply H3. left; auto.
    + apply IH; auto. intros; apply H3; right; auto.
  - apply IH; auto.
    + unfold zlen. now rewrite length_next_sts.
    + destruct pcms; cbn; auto. intros X; now apply next_sts_some in X.
    + unfold same_shape, next_sts, next_dsts, make_row. clear -HS L. clearbody call. revert call L.
      induction HS; intros [|qs call] L; try discriminate; cbn [zipw]; constructor; auto.
      split; discriminate.
Qed.

Lemma make_rows_empty inv base ch pcms sts :
  0 < ch -> zlen sts = ch -> first_ok sts ch pcms ->
  Forall2 (fun row pcm => row_empty row <-> zlen pcm < ch) (make_rows sts (quant_calls inv base ch pcms)) pcms.
Proof.
  intros Hch. revert sts base; induction pcms as [|pcm pcms IH]; intros sts base Hs H3;
    cbn [quant_calls make_rows]; constructor.
  - assert (L : length sts = length (quant_call inv base ch pcm)) by (rewrite length_quant_call; unfold zlen in *; lia).
    set (call := quant_call inv base ch pcm) in *.
    assert (RS : row_size (zlen pcm / ch) (make_row sts call)).
    { unfold row_size, make_row. cbn [first_ok] in H3.
      assert (HQ : Forall (fun qs => zlen qs = zlen pcm / ch) call).
      { apply Forall_forall. intros qs Hq. apply in_map_iff in Hq. destruct Hq as (c & <- & _).
        now apply zlen_quant_channel. }
      clear -H3 HQ. clearbody call. revert call HQ.
      induction sts as [|st sts IH]; intros [|qs call] HQ; cbn [zipw]; constructor; inversion HQ; subst.
      + rewrite make_frame_size; auto. intros ->. replace (zlen qs) with (zlen pcm / ch). apply H3. left; auto.
      + apply IH; auto. intros; apply H3; right; auto. }
    assert (NE : make_row sts call <> []).
    { intros E. apply (f_equal (@length _)) in E. rewrite length_make_row in E by auto. cbn in E.
      unfold zlen in Hs. lia. }
    destruct (make_row sts call) as [|f row]; [congruence|]. unfold row_empty, row_size in *.
    pose proof (Forall_inv RS) as R1. pose proof (Forall_inv_tail RS) as R2. cbv beta in R1.
    pose proof (zlen_nonneg pcm). split; intros HX.
    + pose proof (Forall_inv HX) as X1. cbv beta in X1. destruct (Z.lt_ge_cases (zlen pcm) ch); auto.
      assert (1 <= zlen pcm / ch) by (apply Z.div_le_lower_bound; lia). lia.
    + rewrite Z.div_small in * by lia. constructor; auto.
  - apply IH.
    + unfold zlen. rewrite length_next_sts; [exact Hs|]. rewrite length_quant_call. unfold zlen in Hs. lia.
    + destruct pcms; cbn; auto. intros X; now apply next_sts_some in X.
Qed.

Lemma Forall2_app_split {A B} (R : A -> B -> Prop) a b l : Forall2 R (a ++ b) l ->
  exists x y, l = x ++ y /\ Forall2 R a x /\ Forall2 R b y.
Proof. intros H. apply Forall2_app_inv_l in H. destruct H as (x & y & H1 & H2 & ->). eauto. Qed.

Lemma make_rows_gap inv base ch pcms sts :
  0 < ch -> zlen sts = ch -> first_ok sts ch pcms -> no_long_gap ch pcms ->
  gap_ok (make_rows sts (quant_calls inv base ch pcms)).
Proof.
  intros Hch Hs H3 HG a b c E HB HL.
  pose proof (make_rows_empty inv base ch pcms sts Hch Hs H3) as HF. rewrite E in HF.
  apply Forall2_app_split in HF. destruct HF as (x & yz & -> & _ & HF).
  apply Forall2_app_split in HF. destruct HF as (y & z & -> & HFb & HFc).
  specialize (HG x y z eq_refl).
  assert (HY : Forall (fun pcm => zlen pcm < ch) y).
  { clear -HFb HB. induction HFb; constructor; inversion HB; subst; [tauto|auto]. }
  rewrite (Forall2_len _ _ _ HFb) in HL. specialize (HG HY HL).
  clear -HFc HG. induction HFc; constructor; inversion HG; subst; [tauto|auto].
Qed.

(** ** Column view of the output *)
Fixpoint chan_floats (st : option hist) (fs : list frame) : list f32 :=
  match fs with
  | [] => []
  | f :: fs => decode_floats st f ++ chan_floats (Some (decode_hist st f)) fs
  end.
Fixpoint chan_frames (st : option hist) (qss : list (list Z)) : list frame :=
  match qss with
  | [] => []
  | qs :: qss => make_frame st qs :: chan_frames (Some (next_hist st qs)) qss
  end.

Lemma remaining_column p ds todo j :
  rows_ok p (map fst ds) todo -> (j < length ds)%nat ->
  nth j (remaining ds todo) [] =
    snd (nth j ds (None, [])) ++
    chan_floats (fst (nth j ds (None, []))) (map (fun row => nth j row (make_frame None [])) todo).
Proof.
  revert ds; induction todo as [|row todo IH]; intros ds HO Hj; cbn [remaining map chan_floats].
  - rewrite app_nil_r. change (@nil f32) with (snd (@None hist, @nil f32)) at 1. apply map_nth.
  - destruct HO as (HF & _ & HO). rewrite <- map_fst_step in HO.
    assert (L : length ds = length row) by (eapply len_fst; eauto).
    rewrite IH by (auto; rewrite (length_step p); auto).
    unfold step_row. rewrite (nth_zipw _ _ _ _ (None, []) (make_frame None [])) by auto.
    cbn [step_ch fst snd]. now rewrite <- app_assoc.
Qed.

Lemma make_rows_column sts calls j :
  Forall (fun call => length call = length sts) calls -> (j < length sts)%nat ->
  map (fun row => nth j row (make_frame None [])) (make_rows sts calls) =
    chan_frames (nth j sts None) (map (fun call => nth j call []) calls).
Proof.
  revert sts; induction calls as [|call calls IH]; intros sts HL Hj; cbn [make_rows map chan_frames]; auto.
  inversion HL as [|? ? L1 L2]; subst.
  f_equal.
  - unfold make_row. now rewrite (nth_zipw _ _ _ _ None []) by auto.
  - rewrite IH.
    + f_equal. unfold next_sts. now rewrite (nth_zipw _ _ _ _ None []) by auto.
    + rewrite length_next_sts by auto. exact L2.
    + now rewrite length_next_sts by auto.
Qed.

(** What a channel decodes to. *)
Lemma residuals_app t a b : residuals t (a ++ b) = residuals t a ++ residuals (fold_left shift a t) b.
Proof. unfold residuals. now rewrite diffs_app, map_app. Qed.
Lemma chan_floats_some t t' qss :
  chan_floats (Some t') (chan_frames (Some t) qss) = map out_res (reconstruct t' (residuals t (concat qss))).
Proof.
  revert t t'; induction qss as [|qs qss IH]; intros t t'; cbn [concat chan_frames chan_floats]; auto.
  rewrite residuals_app, reconstruct_app, map_app, IH. reflexivity.
Qed.
Lemma chan_floats_none qs qss :
  3 <= zlen qs ->
  let all := concat (qs :: qss) in
  let t := (nth 0 all 0, nth 1 all 0, nth 2 all 0) in
  chan_floats None (chan_frames None (qs :: qss)) =
    map normalize_sample (firstn 3 all) ++ map out_res (reconstruct t (residuals t (skipn 3 all))).
Proof.
  intros H3 all t.
  assert (ES : skipn 3 all = skipn 3 qs ++ concat qss).
  { subst all. cbn [concat]. rewrite skipn_app. replace (3 - length qs)%nat with 0%nat by (unfold zlen in H3; lia). reflexivity. }
  assert (EF : firstn 3 all = firstn 3 qs).
  { subst all. cbn [concat]. rewrite firstn_app. replace (3 - length qs)%nat with 0%nat by (unfold zlen in H3; lia).
    apply app_nil_r. }
  assert (EN : forall i, (i < 3)%nat -> nth i all 0 = nth i qs 0).
  { intros i Hi. subst all. cbn [concat]. apply app_nth1. unfold zlen in H3. lia. }
  subst t. rewrite !EN, ES, EF by lia. clear all ES EF EN. set (t := (nth 0 qs 0, nth 1 qs 0, nth 2 qs 0)).
  rewrite residuals_app, reconstruct_app, map_app, app_assoc.
  cbn [chan_frames chan_floats next_hist]. rewrite (first3_hist qs (0, 0, 0) H3). fold t.
  rewrite chan_floats_some.
  assert (N : forall i, (i < 3)%nat -> nth i (firstn 3 qs) 0 = nth i qs 0).
  { intros i Hi. rewrite <- (firstn_skipn 3 qs) at 2. rewrite app_nth1; auto.
    rewrite firstn_length. unfold zlen in H3. lia. }
  cbn [make_frame]. fold t. unfold decode_hist, decode_values, decode_floats. cbn [fr_raw fr_res].
  rewrite !N by lia. fold t. do 3 f_equal.
  cbn [next_hist]. rewrite fold_left_app. f_equal.
  rewrite (first3_hist (firstn 3 qs)) by (rewrite zlen_firstn; lia).
  rewrite !N by lia. rewrite skipn_firstn_comm. reflexivity.
Qed.

(** Samples are counted even when errors are limited. *)
Lemma chan_floats_len st qss :
  (st = None -> match qss with [] => True | qs :: _ => 3 <= zlen qs end) ->
  zlen (chan_floats st (chan_frames st qss)) = zlen (concat qss).
Proof.
  assert (S1 : forall qss t t', zlen (chan_floats (Some t') (chan_frames (Some t) qss)) = zlen (concat qss)).
  { clear. induction qss as [|qs qss IH]; intros t t'; cbn [chan_frames chan_floats concat]; auto.
    rewrite !zlen_app, IH, length_decode_floats. cbn [make_frame fr_res]. unfold zlen.
    now rewrite length_residuals. }
  intros H. destruct st as [t|]; [apply S1|]. specialize (H eq_refl).
  destruct qss as [|qs qss]; auto. cbn [chan_frames chan_floats concat].
  rewrite !zlen_app, S1, length_decode_floats, make_frame_size; auto.
Qed.
