(** * AdhocCodec::seek against the specification *)
From Coq Require Import ZArith List Bool Lia.
From Verif Require Import Model.Base Model.F32 Model.Noise Model.Sample Model.BitStream
  Model.CircularStack Model.Frame Model.Adhoc Spec.Bits Spec.Codec Spec.Recording Spec.Frames Spec.Seeking
  Proofs.BaseFacts Proofs.BitStreamFacts Proofs.BitLog Proofs.Rice Proofs.Containers Proofs.Headers
  Proofs.StreamOpsFacts Proofs.FrameFacts Proofs.EncodeFacts Proofs.DecodeFacts Proofs.Predict Proofs.RoundTrip.
Import ListNotations.
Open Scope Z_scope.

(** ** Rows of equal length in the flat frame list *)
Lemma concat_len (rows : list (list frame)) n : Forall (fun row => length row = n) rows ->
  length (concat rows) = (length rows * n)%nat.
Proof. induction 1; cbn [concat length]; auto. rewrite app_length. lia. Qed.
Lemma concat_nth (done : list (list frame)) row todo n j f :
  Forall (fun row => length row = n) done -> nth_error row j = Some f ->
  nth_error (concat (done ++ row :: todo)) (length done * n + j) = Some f.
Proof.
  intros H Hj. rewrite concat_app. cbn [concat]. rewrite nth_error_app2 by (rewrite (concat_len _ n) by auto; lia).
  rewrite (concat_len _ n) by auto. replace (length done * n + j - length done * n)%nat with j by lia.
  rewrite nth_error_app1; auto. apply nth_error_Some. congruence.
Qed.

(** The header of frame [j] of the row after [done]. *)
Lemma row_header hs done row todo n j f :
  fhs_rep hs (headers_of 0 (concat (done ++ row :: todo))) ->
  zlen (concat (done ++ row :: todo)) < 2 ^ 32 ->
  Forall (fun row => length row = n) done -> nth_error row j = Some f ->
  fhs_get hs (Z.of_nat (length done * n + j)) =
    Ok (Some (header_of (zlen (bits_of (concat done ++ firstn j row))) f)).
Proof.
  intros HH HN HL Hj. rewrite (fhs_get_rep hs _ _ HH) by (rewrite ?zlen_headers_of; lia). rewrite Nat2Z.id.
  rewrite (headers_of_nth _ _ 0 f) by (apply concat_nth; auto). do 3 f_equal.
  rewrite Z.add_0_l. f_equal. unfold bits_of. f_equal.
  rewrite concat_app, firstn_app, firstn_all2 by (rewrite (concat_len _ n) by auto; lia). f_equal.
  rewrite (concat_len _ n) by auto. replace (length done * n + j - length done * n)%nat with j by lia.
  cbn [concat]. rewrite firstn_app.
  assert (j < length row)%nat by (apply nth_error_Some; congruence).
  replace (j - length row)%nat with 0%nat by lia. cbn [firstn]. apply app_nil_r.
Qed.

Lemma firstn_replace_nth {A} k (l : list A) x : firstn k (replace_nth k l x) = firstn k l.
Proof. revert k; induction l; intros [|k]; cbn; auto. now rewrite IHl. Qed.

(** ** The walk over the headers *)
(** The row a seek to block [t] starts at and the blocks before it. *)
Fixpoint walk (t skipped : Z) (rows : list (list frame)) : nat * Z :=
  match rows with
  | [] => (0%nat, skipped)
  | row :: rows =>
      if skipped <? t then
        if t <=? skipped + row_n row then (0%nat, skipped)
        else let r := walk t (skipped + row_n row) rows in (S (fst r), snd r)
      else (0%nat, skipped)
  end.
Lemma walk_law t sk rows : sk <= t ->
  let i := fst (walk t sk rows) in let s := snd (walk t sk rows) in
  (i <= length rows)%nat /\ s = sk + sum_n (firstn i rows) /\ s <= t /\
  (t <= sk + sum_n rows -> rows <> [] -> (i < length rows)%nat /\ t <= s + row_n (nth i rows [])) /\
  (sk + sum_n rows < t -> i = length rows).
Proof.
  revert sk; induction rows as [|row rows IH]; intros sk Hle; cbn [walk].
  - cbn [fst snd firstn length]. unfold sum_n. cbn. repeat split; try lia; congruence.
  - unfold sum_n in *. cbn [map fold_right]. pose proof (row_n_nonneg row). pose proof (sum_n_nonneg rows) as P. unfold sum_n in P.
    destruct (Z.ltb_spec sk t) as [L|L].
    + destruct (Z.leb_spec t (sk + row_n row)) as [M|M]; cbn [fst snd firstn map fold_right length nth].
      * split; [lia|]. split; [lia|]. split; [lia|]. split; [intros; split; lia|intros; lia].
      * destruct (IH (sk + row_n row) ltac:(lia)) as (I1 & I2 & I3 & I4 & I5).
        split; [lia|]. split; [lia|]. split; [exact I3|]. split.
        -- intros HT _. destruct rows as [|r rows]; [cbn in *; lia|]. destruct I4 as [J1 J2]; [lia|discriminate|]. split; [lia|exact J2].
        -- intros HT. f_equal. apply I5. lia.
    + cbn [fst snd firstn map fold_right length nth]. split; [lia|]. split; [lia|]. split; [lia|]. split; [intros; split; lia|intros; lia].
Qed.

Lemma seek_walk_spec p hs rows n t :
  fhs_rep hs (headers_of 0 (concat rows)) -> zlen (concat rows) < 2 ^ 32 ->
  Forall (fun row => length row = n) rows -> (0 < n)%nat ->
  Forall (fun row => row_n row <= 65535) rows -> sum_n rows * Z.of_nat n < 2 ^ 64 ->
  forall fuel todo done sk, rows = done ++ todo -> (length todo < fuel)%nat -> sk = sum_n done ->
  seek_walk p hs (Z.of_nat n) (t * Z.of_nat n) fuel (sk * Z.of_nat n) (zlen done) (zlen rows) =
    Ok (snd (walk t sk todo) * Z.of_nat n, zlen done + Z.of_nat (fst (walk t sk todo))).
Proof.
  intros HH HN HL Hn HS HB. induction fuel as [|fuel IH]; intros todo done sk E Hf Hsk; [lia|].
  cbn [seek_walk]. destruct todo as [|row todo]; cbn [walk].
  - rewrite app_nil_r in E. subst done. rewrite Z.ltb_irrefl. cbn [andb fst snd]. do 2 f_equal. lia.
  - destruct (Z.ltb_spec (zlen done) (zlen rows)) as [_|X].
    2: { rewrite E, zlen_app, zlen_cons in X. pose proof (zlen_nonneg todo). lia. }
    cbn [andb].
    replace (sk * Z.of_nat n <? t * Z.of_nat n) with (sk <? t)
      by (destruct (Z.ltb_spec sk t), (Z.ltb_spec (sk * Z.of_nat n) (t * Z.of_nat n)); auto; nia).
    destruct (Z.ltb_spec sk t) as [L|L]; [|cbn [fst snd]; do 2 f_equal; lia].
    assert (HLd : Forall (fun row => length row = n) done) by (rewrite E in HL; apply Forall_app in HL; tauto).
    assert (HLr : length row = n) by (rewrite E in HL; apply Forall_app in HL; destruct HL as [_ HL]; now inversion HL).
    assert (Hcl : zlen done * Z.of_nat n <= zlen (concat rows)).
    { unfold zlen. rewrite (concat_len rows n) by auto. rewrite E, app_length. cbn [length]. nia. }
    rewrite pow2_32, pow2_64 in *.
    rewrite uchk_ok by (rewrite ?pow2_64; pose proof (zlen_nonneg done); nia). cbn [bind].
    destruct row as [|f row]; [cbn in HLr; lia|].
    replace (zlen done * Z.of_nat n) with (Z.of_nat (length done * n + 0)) by (unfold zlen; lia).
    rewrite (row_header hs done (f :: row) todo n 0 f); rewrite ?pow2_32; rewrite <- ?E; auto. cbn [bind expect header_of fh_size].
    assert (Hs : 0 <= fr_size f <= 65535).
    { split; [apply fr_size_nonneg|]. rewrite E in HS. apply Forall_app in HS. destruct HS as [_ HS].
      inversion HS; subst. assumption. }
    rewrite (uwrap_small 16) by lia.
    assert (Hsum : sk + fr_size f + sum_n todo = sum_n rows).
    { rewrite E, sum_n_app. subst sk. unfold sum_n. cbn [map fold_right row_n]. lia. }
    pose proof (sum_n_nonneg todo). pose proof (sum_n_nonneg done).
    rewrite uchk_ok by (rewrite ?pow2_64; nia). cbn [bind].
    rewrite uchk_ok by (rewrite ?pow2_64; nia). cbn [bind row_n].
    replace (sk * Z.of_nat n + fr_size f * Z.of_nat n) with ((sk + fr_size f) * Z.of_nat n) by lia.
    replace (t * Z.of_nat n <=? (sk + fr_size f) * Z.of_nat n) with (t <=? sk + fr_size f)
      by (destruct (Z.leb_spec t (sk + fr_size f)), (Z.leb_spec (t * Z.of_nat n) ((sk + fr_size f) * Z.of_nat n)); auto; nia).
    destruct (Z.leb_spec t (sk + fr_size f)) as [M|M]; [cbn [fst snd]; do 2 f_equal; lia|].
    replace (zlen done + 1) with (zlen (done ++ [f :: row])) by (rewrite zlen_app; reflexivity).
    rewrite (IH todo (done ++ [f :: row])).
    + cbn [fst snd]. do 2 f_equal. rewrite zlen_app. change (zlen [f :: row]) with 1. lia.
    + now rewrite <- app_assoc.
    + cbn [length] in Hf. lia.
    + rewrite sum_n_app. unfold sum_n. cbn. fold (sum_n done). lia.
Qed.

(** ** Restoring the channels *)
Definition restored (f : frame) : dch := (if fr_init f then None else Some (fr_hist f), []).

Lemma seek_channel_step p hs chs s m a row b k start f :
  let fs := a ++ row ++ b in
  nth_error row k = Some f -> start = zlen a ->
  fhs_get hs (start + Z.of_nat k) = Ok (Some (header_of (zlen (bits_of (a ++ firstn k row))) f)) ->
  (k < length chs)%nat -> Forall (fun fc => hist_any (fc_history fc)) chs ->
  reader s m (zlen (bits_of (a ++ firstn k row))) -> dec_headers hs fs (zlen (a ++ firstn k row)) ->
  mem_at m fs (a ++ firstn k row) [f] -> frame_ok p (fst (restored f)) f ->
  exists c' s' hs',
    seek_channel p start (chs, s, hs) (Z.of_nat k) = Ok (replace_nth k chs c', s', hs') /\
    dch_rel c' (step_ch (restored f) f) /\
    reader s' m (zlen (bits_of (a ++ firstn (S k) row))) /\
    dec_headers hs' fs (zlen (a ++ firstn (S k) row)) /\
    (fhs_rep hs (headers_of 0 fs) -> fhs_rep hs' (headers_of 0 fs)).
Proof.
  intros fs Hk -> HG Hlen HA HR HD (HB & HL & HX & HN) HF. unfold seek_channel.
  rewrite HG. cbn [bind expect]. rewrite (index_ok _ _ fc_new) by (unfold zlen; lia). cbn [bind header_of fh_history fh_is_init].
  destruct (fr_hist f) as [[h3 h2] h1] eqn:EH. rewrite Nat2Z.id.
  assert (Hkr : (k < length row)%nat) by (apply nth_error_Some; congruence).
  assert (EN : nth k row (make_frame None []) = f) by (now apply nth_error_nth).
  assert (Ef : fs = (a ++ firstn k row) ++ f :: (skipn (S k) row ++ b)).
  { subst fs. rewrite <- app_assoc. f_equal. rewrite <- (firstn_skipn k row) at 1.
    rewrite (skipn_nth_cons row k (make_frame None [])), EN by lia. now rewrite <- app_assoc. }
  assert (ES : a ++ firstn (S k) row = (a ++ firstn k row) ++ [f]).
  { rewrite (firstn_S_nth row k (make_frame None [])), EN by lia. now rewrite app_assoc. }
  set (a' := a ++ firstn k row) in *. set (b' := skipn (S k) row ++ b) in *.
  assert (HC : dc_rel (mkFC (if fr_init f then CInit else CDecoding)
      (cs_push (cs_push (cs_push (fc_history (nth k chs fc_new)) h3) h2) h1) []) (fst (restored f)) []).
  { assert (hist_any (fc_history (nth k chs fc_new))) by (rewrite Forall_forall in HA; apply HA, nth_In; lia).
    unfold restored. cbn [fst]. destruct (fr_init f); split; cbn [fc_buffer fc_state fc_history]; auto.
    - split; auto. eapply hist_is_any. now apply hist_is_push3.
    - split; auto. rewrite EH. now apply hist_is_push3. }
  rewrite Ef in HN, HD. rewrite bits_of_app, zlen_app in HL, HX. cbn [bits_of flat_map] in HB, HL, HX. rewrite app_nil_r in HB, HL, HX.
  fold (bits_of a') in *.
  destruct (decode_frame_spec p _ (fst (restored f)) [] s m hs a' f b' HC HR HB HD HF) as (c' & s' & hs' & E & R1 & R2 & R3);
    auto; fold (bits_of a'); try lia.
  rewrite E. cbn [bind]. rewrite store_ok by (unfold zlen; lia). cbn [bind]. rewrite Nat2Z.id.
  exists c', s', hs'. split; [reflexivity|]. rewrite ES. split; [exact R1|]. split; [|split].
  - rewrite bits_of_app, zlen_app. cbn [bits_of flat_map]. rewrite app_nil_r. exact R2.
  - rewrite zlen_app, Ef. exact R3.
  - rewrite Ef. intros _. apply R3.
Qed.

Lemma seek_row_spec p chs s hs m done row todo n :
  let a := concat done in
  let fs := concat (done ++ row :: todo) in
  Forall (fun row => length row = n) (done ++ row :: todo) -> length chs = n ->
  Forall (fun fc => hist_any (fc_history fc)) chs ->
  reader s m (zlen (bits_of a)) -> dec_headers hs fs (zlen a) -> mem_at m fs a row ->
  Forall2 (frame_ok p) (map fst (map restored row)) row ->
  exists d', foldM (seek_channel p (zlen a)) (range (Z.of_nat n)) (chs, s, hs) = Ok d' /\
    dec_at d' m (concat (done ++ [row])) fs (step_row (map restored row) row).
Proof.
  intros a fs HL Hn HA HR HD HM HF.
  assert (HLd : Forall (fun row => length row = n) done) by (apply Forall_app in HL; tauto).
  assert (HLr : length row = n) by (apply Forall_app in HL; destruct HL as [_ HL]; now inversion HL).
  assert (Efs : fs = a ++ row ++ concat todo) by (subst fs a; now rewrite concat_app).
  assert (Ls : length (step_row (map restored row) row) = n) by (unfold step_row; rewrite length_zipw; rewrite map_length; auto).
  assert (K : forall k, (k <= n)%nat -> exists chs1 s1 hs1,
    foldM (seek_channel p (zlen a)) (range (Z.of_nat k)) (chs, s, hs) = Ok (chs1, s1, hs1) /\
    length chs1 = n /\ Forall (fun fc => hist_any (fc_history fc)) chs1 /\
    Forall2 dch_rel (firstn k chs1) (firstn k (step_row (map restored row) row)) /\
    reader s1 m (zlen (bits_of (a ++ firstn k row))) /\ dec_headers hs1 fs (zlen (a ++ firstn k row))).
  { induction k as [|k IH]; intros Hk.
    - exists chs, s, hs. change (range (Z.of_nat 0)) with (@nil Z). cbn [foldM firstn]. rewrite app_nil_r.
      repeat (split; auto).
    - destruct IH as (chs1 & s1 & hs1 & E1 & L1 & A1 & F1 & R1 & D1); [lia|].
      replace (Z.of_nat (S k)) with (Z.of_nat k + 1) by lia. rewrite range_succ, foldM_app, E1 by lia. cbn [bind foldM].
      assert (Hf : nth_error row k = Some (nth k row (make_frame None []))) by (apply nth_error_nth'; lia).
      set (f := nth k row (make_frame None [])) in *.
      assert (HFk : frame_ok p (fst (restored f)) f).
      { pose proof (Forall2_nth _ _ _ k None (make_frame None []) HF ltac:(rewrite !map_length; lia)) as X.
        rewrite map_map in X. rewrite (nth_indep _ None (fst (restored (make_frame None [])))) in X by (rewrite map_length; lia).
        rewrite (map_nth (fun x => fst (restored x))) in X. exact X. }
      pose proof HM as (_ & _ & _ & HN).
      assert (HMk : mem_at m fs (a ++ firstn k row) [f]).
      { assert (Er : row = firstn k row ++ [f] ++ skipn (S k) row).
        { rewrite <- (firstn_skipn k row) at 1. now rewrite (skipn_nth_cons row k (make_frame None [])) by lia. }
        rewrite Er in HM. apply mem_at_split in HM. destruct HM as [_ HM]. apply mem_at_split in HM. apply HM. }
      rewrite Efs in D1, HMk.
      destruct (seek_channel_step p hs1 chs1 s1 m a row (concat todo) k (zlen a) f) as (c' & s' & hs' & E2 & C2 & R2 & D2 & _);
        auto; try lia.
      { destruct D1 as [D1 _]. rewrite <- Efs in D1.
        replace (zlen a + Z.of_nat k) with (Z.of_nat (length done * n + k))
          by (unfold zlen; subst a; rewrite (concat_len done n) by auto; lia).
        apply (row_header hs1 done row todo n k f); auto. subst fs. lia. }
      rewrite E2. cbn [bind]. exists (replace_nth k chs1 c'), s', hs'. split; [reflexivity|].
      split; [now rewrite length_replace_nth|]. split; [|split; [|split; [exact R2|rewrite Efs; exact D2]]].
      + apply Containers.Forall_replace; auto. destruct C2 as [_ C2]. cbn [step_ch fst] in C2. destruct C2 as [_ C2]. eapply hist_is_any; eauto.
      + rewrite (firstn_S_nth _ k fc_new) by (rewrite length_replace_nth; lia).
        rewrite (firstn_S_nth _ k (None, []) ) by lia.
        apply Forall2_app.
        * rewrite firstn_replace_nth. exact F1.
        * rewrite nth_replace_same by lia. constructor; [|constructor].
          unfold step_row. rewrite (nth_zipw _ _ _ _ (None, []) (make_frame None [])) by (rewrite map_length; lia).
          fold f. rewrite (nth_indep _ (None, []) (restored (make_frame None []))) by (rewrite map_length; lia).
          rewrite (map_nth restored). exact C2. }
  destruct (K n (le_n _)) as (chs1 & s1 & hs1 & E1 & L1 & A1 & F1 & R1 & D1).
  exists (chs1, s1, hs1). split; [exact E1|]. rewrite !firstn_all2 in F1 by lia. rewrite firstn_all2 in R1, D1 by lia.
  rewrite concat_app. cbn [concat]. rewrite app_nil_r. split; [exact F1|]. split; [exact R1|exact D1].
Qed.

(** ** Dropping the blocks before the target *)
Definition popn (n : nat) (d : dch) : dch := (fst d, skipn n (snd d)).
Lemma prune_spec n chs k fuel sk t :
  length chs = n -> (0 < n)%nat -> t - sk = Z.of_nat k -> (k <= fuel)%nat -> forall ds, Forall2 dch_rel chs ds ->
  exists chs', prune fuel (Z.of_nat n) (sk * Z.of_nat n) (t * Z.of_nat n) chs = Ok chs' /\
    Forall2 dch_rel chs' (map (popn k) ds).
Proof.
  intros Hl Hn. revert chs Hl fuel sk; induction k as [|k IH]; intros chs Hl fuel sk Ht Hf ds HD.
  - exists chs. split.
    + assert (E : sk * Z.of_nat n <? t * Z.of_nat n = false) by (apply Z.ltb_ge; nia).
      destruct fuel; cbn [prune]; now rewrite E.
    + replace (map (popn 0) ds) with ds; auto. rewrite <- (map_id ds) at 1. apply map_ext. intros [a b]; reflexivity.
  - destruct fuel as [|fuel]; [lia|]. cbn [prune].
    destruct (Z.ltb_spec (sk * Z.of_nat n) (t * Z.of_nat n)) as [_|]; [|nia].
    rewrite Nat2Z.id, firstn_all2, skipn_all2, app_nil_r by lia.
    replace (sk * Z.of_nat n + Z.of_nat n) with ((sk + 1) * Z.of_nat n) by lia.
    destruct (IH (map drop_front chs)) with (fuel := fuel) (sk := sk + 1) (ds := map popd ds) as (chs' & E & R).
    + now rewrite map_length.
    + lia.
    + lia.
    + exact (Forall2_pop _ _ HD).
    + exists chs'. split; [exact E|]. rewrite map_map in R. erewrite map_ext; [exact R|].
      intros [u v]. unfold popn, popd. cbn [fst snd]. f_equal. destruct v; cbn [tl]; [now rewrite !skipn_nil|reflexivity].
Qed.

Lemma remaining_popn p k ds todo L :
  even ds L -> rows_ok p (map fst ds) todo -> Z.of_nat k <= L ->
  remaining (map (popn k) ds) todo = map (skipn k) (remaining ds todo).
Proof.
  revert ds L; induction k as [|k IH]; intros ds L HE HO Hk.
  - rewrite map_skipn_0. f_equal. rewrite <- (map_id ds) at 2. apply map_ext. intros [a b]; reflexivity.
  - assert (HNE : Forall (fun d => snd d <> []) ds).
    { eapply Forall_impl; [|apply HE]. cbn. intros d Hd Hn. rewrite Hn in Hd. change (zlen (@nil f32)) with 0 in Hd. lia. }
    destruct (remaining_pop p ds todo HO HNE) as [RP _].
    replace (map (popn (S k)) ds) with (map (popn k) (map popd ds)).
    2: { rewrite map_map. apply map_ext. intros [u v]. unfold popn, popd. cbn [fst snd]. f_equal.
         destruct v; cbn [tl]; [now rewrite !skipn_nil|reflexivity]. }
    rewrite (IH _ (L - 1)).
    + rewrite RP, map_map. apply map_ext. intros l. destruct l; [now rewrite !skipn_nil|reflexivity].
    + unfold even in *. apply Forall_map. eapply Forall_impl; [|apply Forall_and; [apply HE|apply HNE]].
      cbn. intros d [H1 H2]. destruct (snd d); [congruence|]. rewrite zlen_cons in H1. cbn [tl]. lia.
    + rewrite map_map. cbn [popd fst]. exact HO.
    + lia.
Qed.

(** ** seek *)
Lemma rows_ok_shape p rows : forall sts sts', same_shape sts sts' -> rows_ok p sts rows -> rows_ok p sts' rows.
Proof.
  induction rows as [|row rows IH]; intros sts sts' HS; cbn [rows_ok]; auto.
  intros (HF & HN & HR). split; [|split; auto].
  - clear -HF HS. revert row HF. induction HS as [|a b l l' H HS IH]; intros row HF; inversion HF; subst; constructor; auto.
    apply (frame_ok_shape p a b); auto.
  - apply (IH _ _) with (2 := HR). unfold next_dsts. clear -HS HF. revert row HF.
    unfold same_shape. induction HS as [|a b l l' H HS IH]; intros row HF; inversion HF; subst; cbn [zipw]; constructor; auto.
    split; discriminate.
Qed.
Lemma rows_ok_skip p done : forall sts todo, rows_ok p sts (done ++ todo) ->
  exists sts', rows_ok p sts' todo /\ length sts' = length sts /\
    (done = [] -> sts' = sts) /\ (done <> [] -> Forall (fun st => st <> None) sts') .
Proof.
  induction done as [|row done IH]; intros sts todo H; cbn [app rows_ok] in H.
  - exists sts. split; auto. split; auto. split; auto. congruence.
  - destruct H as (HF & _ & HR). destruct (IH _ _ HR) as (sts' & R1 & R2 & R3 & R4).
    assert (LN : length (next_dsts sts row) = length sts).
    { unfold next_dsts. rewrite length_zipw; auto. eapply Forall2_len; eauto. }
    exists sts'. split; auto. split; [congruence|]. split; [discriminate|]. intros _.
    destruct done as [|r d]; [|apply R4; discriminate].
    rewrite (R3 eq_refl). unfold next_dsts. clear. revert row; induction sts; intros [|f row]; cbn [zipw]; constructor; auto.
    discriminate.
Qed.
Lemma rows_ok_lens p rows : forall sts, rows_ok p sts rows -> Forall (fun row => length row = length sts) rows.
Proof.
  induction rows as [|row rows IH]; intros sts H; constructor; destruct H as (HF & _ & HR).
  - symmetry. eapply Forall2_len; eauto.
  - specialize (IH _ HR). unfold next_dsts in IH. rewrite length_zipw in IH; auto. eapply Forall2_len; eauto.
Qed.
Lemma rows_ok_sizes p rows : forall sts, rows_ok p sts rows -> Forall (fun row => row_n row <= 65535) rows.
Proof.
  induction rows as [|row rows IH]; intros sts H; constructor; destruct H as (HF & _ & HR); eauto.
  destruct HF as [|st f sts row (_ & _ & _ & X & _)]; cbn [row_n]; lia.
Qed.

(** The first row, and no other, is marked as the first. *)
Definition marked (rows : list (list frame)) : Prop :=
  forall done row todo, rows = done ++ row :: todo ->
    Forall (fun f => fr_init f = match done with [] => true | _ => false end) row.

Lemma restored_shape p n done row todo :
  rows_ok p (repeat None n) (done ++ row :: todo) -> marked (done ++ row :: todo) ->
  rows_ok p (map fst (map restored row)) (row :: todo).
Proof.
  intros HO HM. specialize (HM done row todo eq_refl).
  destruct (rows_ok_skip p done _ _ HO) as (sts & R1 & R2 & R3 & R4).
  apply (rows_ok_shape p _ sts); auto.
  assert (L : length sts = length row).
  { destruct R1 as (HF & _). eapply Forall2_len; eauto. }
  assert (HS : Forall (fun st => st = None <-> done = []) sts).
  { destruct done as [|r d].
    - rewrite (R3 eq_refl). apply Forall_forall. intros x Hx. apply repeat_spec in Hx. subst. tauto.
    - eapply Forall_impl; [|apply R4; discriminate]. cbv beta. intros a Ha. split; [congruence|discriminate]. }
  clear -L HS HM. unfold same_shape. revert row L HM; induction HS as [|st sts H HS IH]; intros [|f row] L HM; try discriminate; cbn [map]; constructor.
  - inversion HM as [|? ? H1 H2]; subst. unfold restored. cbn [fst]. rewrite H1. destruct done; [tauto|].
    split; [intros X; apply H in X; discriminate|discriminate].
  - inversion HM; subst. apply IH; auto.
Qed.

Definition block_of_row (rows : list (list frame)) (i : nat) : Z := sum_n (firstn i rows).

Theorem seek_at p c info m rows ms :
  let ch := si_channels info in
  let t := target_block info ms in
  let i := fst (walk t 0 rows) in
  let row := nth i rows [] in
  let k := Z.to_nat (t - block_of_row rows i) in
  as_info (ad_stream c) = Some info ->
  zlen (ad_channels c) = ch ->
  Forall (fun fc => hist_any (fc_history fc)) (ad_channels c) ->
  chunks_ok (bs_binary (as_stream (ad_stream c))) -> ext m (bs_binary (as_stream (ad_stream c))) ->
  fhs_rep (ad_headers c) (headers_of 0 (concat rows)) ->
  mem_at m (concat rows) (concat (firstn i rows)) row ->
  rows_ok p (repeat None (Z.to_nat ch)) rows -> 0 < ch -> marked rows -> sum_n rows * ch < 2 ^ 64 ->
  ms <> 0 -> 0 <= t -> t <= sum_n rows -> rows <> [] ->
  exists c', ad_seek p c (SStart ms) = Ok c' /\ same_setup c c' /\
    (i < length rows)%nat /\ block_of_row rows i <= t <= block_of_row rows i + row_n row /\
    as_info (ad_stream c') = Some info /\
    zlen (map (popn k) (step_row (map restored row) row)) = ch /\
    dec_inv p (codec_state_of c') m (firstn i rows ++ [row]) (skipn (S i) rows)
      (map (popn k) (step_row (map restored row) row)) (row_n row - Z.of_nat k) /\
    remaining (map (popn k) (step_row (map restored row) row)) (skipn (S i) rows) =
      map (skipn k) (remaining (map restored row) (skipn i rows)).
Proof.
  intros ch t i row k Hi Hn HA HW HX HH HM HO Hpos HMk Hsum Hms Ht0 Ht Hne.
  unfold ad_seek, ad_info. rewrite Hi. cbn [expect bind]. fold ch.
  destruct (Z.eqb_spec ms 0) as [|_]; [congruence|].
  change (fmul (fdiv (f32_of_Z (si_rate info)) f1000) (f32_of_Z ms)) with
    (fmul (fdiv (f32_of_Z (si_rate info)) (f32_of_Z 1000)) (f32_of_Z ms)). fold (target_block info ms). fold t.
  rewrite pow2_64 in *. rewrite uchk_ok by (rewrite ?pow2_64; nia). cbn [bind].
  cbn [ad_init ad_headers ad_stream ad_channels ad_level ad_scale ad_inv_scale ad_seq as_info as_stream].
  set (n := Z.to_nat ch). assert (En : ch = Z.of_nat n) by (subst n; lia).
  assert (HL : Forall (fun row => length row = n) rows).
  { pose proof (rows_ok_lens p rows _ HO) as X. rewrite repeat_length in X. exact X. }
  assert (Hlen : zlen (concat rows) = zlen rows * ch) by (unfold zlen; rewrite (concat_len rows n) by auto; lia).
  pose proof HM as (_ & _ & _ & HN). rewrite pow2_32 in HN.
  assert (Eh : fhs_len (ad_headers c) = zlen rows * ch).
  { rewrite (fhs_rep_len _ _ HH), zlen_headers_of. exact Hlen. }
  change (fhs_len (fhs_reset (ad_headers c))) with (fhs_len (ad_headers c)).
  rewrite Eh, udiv_ok by lia. cbn [bind]. rewrite Z.div_mul by lia.
  rewrite En. 
  pose proof (seek_walk_spec p (fhs_reset (ad_headers c)) rows n t HH ltac:(rewrite pow2_32; lia) HL ltac:(lia)
    (rows_ok_sizes p rows _ HO) ltac:(rewrite pow2_64, <- En; lia)
    (S (Z.to_nat (zlen rows * Z.of_nat n))) rows [] 0 eq_refl ltac:(unfold zlen; nia) eq_refl) as EW.
  rewrite Z.mul_0_l in EW. change (zlen (@nil (list frame))) with 0 in EW. rewrite Z.add_0_l in EW.
  rewrite EW. cbn [bind]. clear EW.
  destruct (walk_law t 0 rows Ht0) as (W1 & W2 & W3 & W4 & _).
  fold i in W1, W2, W3, W4 |- *. set (s := snd (walk t 0 rows)) in *. clearbody s.
  rewrite Z.add_0_l in W2. fold (block_of_row rows i) in W2. subst s.
  destruct (W4 ltac:(lia) Hne) as [Hil Hit]. clear W4.
  fold row in Hit. set (done := firstn i rows) in *. set (todo := skipn (S i) rows) in *.
  assert (Er : rows = done ++ row :: todo).
  { subst done row todo. rewrite <- (firstn_skipn i rows) at 1. f_equal. now apply skipn_nth_cons. }
  assert (Ld : length done = i) by (subst done; rewrite firstn_length; lia).
  assert (HLd : Forall (fun row => length row = n) done) by (rewrite Er in HL; apply Forall_app in HL; tauto).
  assert (HLr : length row = n) by (rewrite Er in HL; apply Forall_app in HL; destruct HL as [_ HL]; now inversion HL).
  assert (Elen : zlen (concat done) = Z.of_nat i * Z.of_nat n).
  { unfold zlen. rewrite (concat_len done n), Ld by auto. lia. }
  assert (Hil' : Z.of_nat i * Z.of_nat n < 4294967296).
  { rewrite <- En. unfold zlen in *. nia. }
  assert (Hrow : exists f, nth_error row 0 = Some f).
  { destruct row as [|f r]; [cbn in HLr; lia|]. now exists f. }
  destruct Hrow as (f & Hf).
  replace (fhs_get (fhs_reset (ad_headers c)) (Z.of_nat i * Z.of_nat n))
    with (fhs_get (fhs_reset (ad_headers c)) (Z.of_nat (length done * n + 0))) by (f_equal; rewrite Ld; lia).
  rewrite (row_header (fhs_reset (ad_headers c)) done row todo n 0 f); auto.
  2: { rewrite <- Er. exact HH. }
  2: { rewrite <- Er. rewrite pow2_32. lia. }
  cbn [bind expect header_of fh_bit_cursor firstn]. rewrite app_nil_r.
  rewrite (uwrap_small 32) by (rewrite ?pow2_32; lia).
  assert (HOr : rows_ok p (map fst (map restored row)) (row :: todo)).
  { apply (restored_shape p n done). - rewrite <- Er. exact HO. - rewrite <- Er. exact HMk. }
  pose proof HOr as (HFr & (nr & HSr) & HOt). rewrite <- map_fst_step in HOt.
  assert (Enr : row_n row = nr).
  { destruct row as [|g r]; [cbn in HLr; lia|]. now inversion HSr. }
  assert (HR : reader (set_bit_cursor (bs_seek_start (as_stream (ad_stream c))) (zlen (bits_of (concat done)))) m (zlen (bits_of (concat done)))).
  { pose proof HW as Hk. split; [|split]; auto. split; auto.
    cbn [bs_seek_start set_bit_cursor bs_cursor bs_binary]. split; [apply zlen_nonneg|].
    destruct HX as [HX _]. pose proof HM as (_ & HMl & _). rewrite bits_of_app, zlen_app in HMl.
    pose proof (zlen_nonneg (bits_of row)). lia. }
  rewrite <- Elen.
  destruct (seek_row_spec p
    (map fc_init (ad_channels c))
    (set_bit_cursor (bs_seek_start (as_stream (ad_stream c))) (zlen (bits_of (concat done))))
    (fhs_set_cursor (fhs_reset (ad_headers c)) (zlen (concat done))) m done row todo n) as (d' & E1 & A1); auto.
  { rewrite <- Er. exact HL. }
  { rewrite map_length. unfold zlen in Hn. lia. }
  { apply Forall_map. exact HA. }
  { rewrite <- Er. split; [exact HH|reflexivity]. }
  { rewrite <- Er. exact HM. }
  rewrite E1. cbn [bind]. destruct d' as [[chs1 s1] hs1].
  assert (HE1 : even (step_row (map restored row) row) nr).
  { replace nr with (0 + nr) by lia. apply (even_step p); auto. unfold even. apply Forall_map. apply Forall_forall. reflexivity. }
  assert (Lc : length chs1 = n).
  { destruct A1 as (A1 & _). rewrite (Forall2_len _ _ _ A1). rewrite (length_step p) by auto. rewrite map_length. exact HLr. }
  destruct (prune_spec n chs1 (Z.to_nat (t - block_of_row rows i))
     (Z.to_nat (t * Z.of_nat n - block_of_row rows i * Z.of_nat n)) (block_of_row rows i) t) with (ds := step_row (map restored row) row)
     as (chs2 & E2 & A2); auto; try lia.
  { apply Z2Nat.inj_le; nia. }
  { apply A1. }
  rewrite E2. cbn [bind]. eexists. split; [reflexivity|]. fold k in A2.
  assert (Ek : Z.of_nat k = t - block_of_row rows i) by (subst k; lia).
  split; [repeat split; now rewrite ?Hi|]. split; [exact Hil|]. split; [lia|]. split; [exact Hi|].
  split; [|split].
  - rewrite zlen_map. unfold zlen. rewrite (length_step p), map_length by auto. lia.
  - constructor.
    + unfold codec_state_of. cbn [ad_channels ad_stream as_stream ad_headers].
      destruct A1 as (_ & A1 & A1'). split; [exact A2|]. split; [exact A1|].
      rewrite <- app_assoc. exact A1'.
    + unfold even in *. apply Forall_map. eapply Forall_impl; [|apply HE1]. cbv beta. intros d Hd.
      cbn [popn snd]. rewrite zlen_skipn. lia.
    + rewrite map_map. cbn [popn fst]. exact HOt.
    + intros X. apply map_eq_nil in X. apply (f_equal (@length _)) in X.
      rewrite (length_step p) in X by auto. rewrite map_length in X. cbn [length] in X. lia.
    + right. apply Forall_map. eapply Forall_impl; [|apply (step_started p _ _ HFr)]. auto.
  - rewrite (remaining_popn p k _ todo nr) by (auto; lia). f_equal.
    replace (skipn i rows) with (row :: todo) by (symmetry; now apply skipn_nth_cons). reflexivity.
Qed.

Theorem seek_spec p c info m rows ms :
  let ch := si_channels info in
  let t := target_block info ms in
  as_info (ad_stream c) = Some info ->
  zlen (ad_channels c) = ch ->
  Forall (fun fc => hist_any (fc_history fc)) (ad_channels c) ->
  chunks_ok (bs_binary (as_stream (ad_stream c))) -> ext m (bs_binary (as_stream (ad_stream c))) ->
  fhs_rep (ad_headers c) (headers_of 0 (concat rows)) ->
  recorded p info m rows -> marked rows -> sum_n rows * ch < 2 ^ 64 ->
  ms <> 0 -> 0 <= t -> t <= sum_n rows -> rows <> [] ->
  exists c' i, ad_seek p c (SStart ms) = Ok c' /\ same_setup c c' /\
    (i < length rows)%nat /\ block_of_row rows i <= t <= block_of_row rows i + row_n (nth i rows []) /\
    i = fst (walk t 0 rows) /\
    decoding p c' info m rows
      (map (skipn (Z.to_nat (t - block_of_row rows i))) (remaining (map restored (nth i rows [])) (skipn i rows)))
      (Z.to_nat (row_n (nth i rows []) - (t - block_of_row rows i) + reach_run 0 (skipn (S i) rows))).
Proof.
  intros ch t Hi Hn HA HW HX HH (HM & HO & Hpos) HMk Hsum Hms Ht0 Ht Hne. fold ch in Hpos, HO.
  assert (HMa : mem_at m (concat rows) (concat (firstn (fst (walk t 0 rows)) rows)) (nth (fst (walk t 0 rows)) rows [])).
  { destruct (walk_law t 0 rows Ht0) as (W1 & W2 & W3 & W4 & _). destruct (W4 ltac:(lia) Hne) as [Hil _].
    set (i := fst (walk t 0 rows)) in *. clearbody i.
    assert (Er : rows = firstn i rows ++ nth i rows [] :: skipn (S i) rows).
    { rewrite <- (firstn_skipn i rows) at 1. f_equal. now apply skipn_nth_cons. }
    assert (Ec : concat rows = concat (firstn i rows) ++ nth i rows [] ++ concat (skipn (S i) rows)).
    { rewrite Er at 1. now rewrite concat_app. }
    rewrite Ec in HM |- *. now apply mem_ok_at. }
  destruct (seek_at p c info m rows ms Hi Hn HA HW HX HH HMa HO Hpos HMk Hsum Hms Ht0 Ht Hne)
    as (c' & E & ST & Hil & Hb & Hi' & Hz & HI & HR).
  fold t in Hil, Hb, Hi', Hz, HI, HR. set (i := fst (walk t 0 rows)) in *. exists c', i.
  split; [exact E|]. split; [exact ST|]. split; [exact Hil|]. split; [exact Hb|]. split; [reflexivity|].
  split; [exact Hi'|]. split; [exact HM|].
  eexists _, _, _, _. split; [|split; [exact HI|split; [|split; [exact Hz|exact HR]]]].
  - rewrite <- app_assoc. cbn [app]. rewrite <- (firstn_skipn i rows) at 1. f_equal. now apply skipn_nth_cons.
  - pose proof (reach_run_le 0 (skipn (S i) rows)). lia.
Qed.

(** Beyond the end. *)
Theorem seek_past_end p c info m rows ms :
  let ch := si_channels info in
  let t := target_block info ms in
  as_info (ad_stream c) = Some info ->
  fhs_rep (ad_headers c) (headers_of 0 (concat rows)) ->
  recorded p info m rows -> sum_n rows * ch < 2 ^ 64 ->
  ms <> 0 -> 0 <= t -> sum_n rows < t \/ rows = [] ->
  (t * ch < 2 ^ 64 -> ad_seek p c (SStart ms) = Panic ExpectFailed) /\
  (p = Debug -> 2 ^ 64 <= t * ch -> ad_seek p c (SStart ms) = Panic ArithmeticOverflow).
Proof.
  intros ch t Hi HH (HM & HO & Hpos) Hsum Hms Ht0 Ht. fold ch in Hpos, HO.
  unfold ad_seek, ad_info. rewrite Hi. cbn [expect bind]. fold ch.
  destruct (Z.eqb_spec ms 0) as [|_]; [congruence|].
  change (fmul (fdiv (f32_of_Z (si_rate info)) f1000) (f32_of_Z ms)) with
    (fmul (fdiv (f32_of_Z (si_rate info)) (f32_of_Z 1000)) (f32_of_Z ms)). fold (target_block info ms). fold t.
  split.
  2: { intros -> Hov. unfold uchk, in_u. destruct (Z.ltb_spec (t * ch) (2 ^ 64)); [lia|]. rewrite andb_false_r. reflexivity. }
  intros Hov. rewrite pow2_64 in *. rewrite uchk_ok by (rewrite ?pow2_64; nia). cbn [bind].
  cbn [ad_init ad_headers ad_stream ad_channels ad_level ad_scale ad_inv_scale ad_seq as_info as_stream].
  set (n := Z.to_nat ch). assert (En : ch = Z.of_nat n) by (subst n; lia).
  assert (HL : Forall (fun row => length row = n) rows).
  { pose proof (rows_ok_lens p rows _ HO) as X. rewrite repeat_length in X. exact X. }
  assert (Hlen : zlen (concat rows) = zlen rows * ch) by (unfold zlen; rewrite (concat_len rows n) by auto; lia).
  pose proof HM as (_ & _ & HBd & HN). rewrite pow2_32 in HN.
  assert (Eh : fhs_len (ad_headers c) = zlen rows * ch).
  { rewrite (fhs_rep_len _ _ HH), zlen_headers_of. exact Hlen. }
  change (fhs_len (fhs_reset (ad_headers c))) with (fhs_len (ad_headers c)).
  rewrite Eh, udiv_ok by lia. cbn [bind]. rewrite Z.div_mul by lia.
  rewrite En. 
  pose proof (seek_walk_spec p (fhs_reset (ad_headers c)) rows n t HH ltac:(rewrite pow2_32; lia) HL ltac:(lia)
    (rows_ok_sizes p rows _ HO) ltac:(rewrite pow2_64, <- En; lia)
    (S (Z.to_nat (zlen rows * Z.of_nat n))) rows [] 0 eq_refl ltac:(unfold zlen; nia) eq_refl) as EW.
  rewrite Z.mul_0_l in EW. change (zlen (@nil (list frame))) with 0 in EW. rewrite Z.add_0_l in EW.
  rewrite EW. cbn [bind]. clear EW.
  destruct (walk_law t 0 rows Ht0) as (W1 & W2 & W3 & _ & W5).
  assert (Ei : fst (walk t 0 rows) = length rows) by (destruct Ht as [Ht| ->]; [apply W5; lia|reflexivity]).
  rewrite Ei. rewrite (fhs_get_rep (fhs_reset (ad_headers c)) _ _ HH) by (rewrite ?zlen_headers_of, ?pow2_32; lia).
  replace (nth_error (headers_of 0 (concat rows)) (Z.to_nat (Z.of_nat (length rows) * Z.of_nat n))) with (@None frame_header).
  - reflexivity.
  - symmetry. apply nth_error_None. rewrite length_headers_of, (concat_len rows n) by auto. lia.
Qed.
