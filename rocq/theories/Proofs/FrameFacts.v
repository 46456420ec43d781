(** * FrameCodec against the specification *)
From Coq Require Import ZArith List Bool Lia.
From Verif Require Import Model.Base Model.F32 Model.Sample Model.BitStream Model.NibbleList
  Model.BitVec Model.CircularStack Model.Frame Spec.Bits Spec.Codec
  Proofs.BaseFacts Proofs.BitStreamFacts Proofs.BitLog Proofs.Rice Proofs.Containers Proofs.Headers.
Import ListNotations.
Open Scope Z_scope.

(** ** Sample history *)
Definition hist_is (h : cstack Z) (t : hist) : Prop :=
  let '(a, b, c) := t in exists l, cs_rep 0 h (c :: b :: a :: l).
(** Any history object: it can be pushed to. *)
Definition hist_any (h : cstack Z) : Prop := exists l, cs_rep 0 h l.

Lemma hist_is_any h t : hist_is h t -> hist_any h.
Proof. destruct t as [[a b] c]. intros [l H]. eexists; eauto. Qed.
Lemma hist_any_new : hist_any (cs_new 0).
Proof. exists []. apply cs_rep_new. Qed.
Lemma hist_any_push h x : hist_any h -> hist_any (cs_push h x).
Proof. intros [l H]. eexists. apply cs_push_rep. exact H. Qed.

Lemma hist_is_push h t q : hist_is h t -> hist_is (cs_push h q) (shift t q).
Proof.
  destruct t as [[a b] c]. intros [l H]. cbn [shift hist_is].
  exists (firstn 1 (a :: l)). pose proof (cs_push_rep 0 h _ q H) as R.
  cbn [firstn] in R. exact R || (destruct l; exact R).
Qed.
Lemma hist_is_push3 h a b c : hist_any h -> hist_is (cs_push (cs_push (cs_push h a) b) c) (a, b, c).
Proof.
  intros [l H].
  pose proof (cs_push_rep 0 _ _ c (cs_push_rep 0 _ _ b (cs_push_rep 0 h _ a H))) as R.
  cbn [hist_is]. destruct l; cbn [firstn] in R; eauto.
Qed.
Lemma hist_prev h a b c : hist_is h (a, b, c) ->
  cs_prev 0 h 3 = a /\ cs_prev 0 h 2 = b /\ cs_prev 0 h 1 = c.
Proof.
  intros [l H].
  assert (L : zlen (c :: b :: a :: l) >= 3) by (rewrite !zlen_cons; pose proof (zlen_nonneg l); lia).
  rewrite !(cs_prev_rep 0 h _ _ H) by lia. auto.
Qed.
Lemma hist_predict h t : hist_is h t -> predict_next h = pred_of t.
Proof.
  destruct t as [[a b] c]; intros H. unfold predict_next.
  destruct (hist_prev h a b c H) as (-> & -> & ->). reflexivity.
Qed.
Lemma hist_last3 h t : hist_is h t -> last3 h = t.
Proof.
  destruct t as [[a b] c]; intros H. unfold last3.
  destruct (hist_prev h a b c H) as (-> & -> & ->). reflexivity.
Qed.
Lemma hist_is_pushes h t qs : hist_is h t -> hist_is (fold_left cs_push qs h) (fold_left shift qs t).
Proof. revert h t; induction qs; cbn; intros; auto. apply IHqs. now apply hist_is_push. Qed.

Lemma fold_shift_3 t a b c : shift (shift (shift t a) b) c = (a, b, c).
Proof. destruct t as [[? ?] ?]; reflexivity. Qed.

(** ** Ranges *)
Lemma trunc_range x : -32768 <= truncate_sample x <= 32767.
Proof.
  unfold truncate_sample, f32_as_i16, f32_to_int.
  destruct (fmul _ _) as [?|[]| |? ? ? ?]; try lia; apply zclamp_range; lia.
Qed.
Lemma pred_range t : -32768 <= pred_of t <= 32767.
Proof. destruct t as [[a b] c]. apply trunc_range. Qed.
Lemma limit_range d : -32767 <= limit d <= 32766.
Proof. unfold limit; lia. Qed.
Lemma residual_limit q r : residual q r = limit (q - r).
Proof.
  unfold residual, limit. change (-32768 + 1) with (-32767). change (32767 - 1) with 32766.
  apply zclamp_eq; lia.
Qed.

Definition i16 (q : Z) : Prop := -32768 <= q <= 32767.
Lemma diffs_range t qs : Forall i16 qs -> Forall (fun d => -65535 <= d <= 65535) (diffs t qs).
Proof.
  revert t; induction qs as [|q qs IH]; intros t H; cbn [diffs]; constructor; inversion H; subst.
  - pose proof (pred_range t). unfold i16 in *. lia.
  - auto.
Qed.
Lemma length_diffs t qs : length (diffs t qs) = length qs.
Proof. revert t; induction qs; cbn; intros; auto. Qed.
Lemma length_residuals t qs : length (residuals t qs) = length qs.
Proof. unfold residuals. now rewrite map_length, length_diffs. Qed.
Lemma diffs_app t a b : diffs t (a ++ b) = diffs t a ++ diffs (fold_left shift a t) b.
Proof. revert t; induction a; cbn; intros; auto. now rewrite IHa. Qed.
Lemma residuals_range t qs : Forall (fun d => -32767 <= d <= 32766) (residuals t qs).
Proof.
  unfold residuals. apply Forall_forall. intros x Hx. apply in_map_iff in Hx.
  destruct Hx as (d & <- & _). apply limit_range.
Qed.
Lemma length_reconstruct t es : length (reconstruct t es) = length es.
Proof. revert t; induction es; cbn; intros; auto. Qed.
Lemma reconstruct_app t a b :
  reconstruct t (a ++ b) = reconstruct t a ++ reconstruct (fold_left shift (reconstruct t a) t) b.
Proof. revert t; induction a; cbn [app reconstruct fold_left]; intros; auto. now rewrite IHa. Qed.

(** Unlimited residuals reconstruct the samples. *)
Lemma reconstruct_exact t qs :
  Forall i16 qs -> Forall (fun d => -32767 <= d <= 32766) (diffs t qs) ->
  reconstruct t (residuals t qs) = qs.
Proof.
  unfold residuals. revert t; induction qs as [|q qs IH]; intros t H D; cbn [diffs map reconstruct]; auto.
  inversion H; inversion D; subst.
  assert (E : Z.max (-32768) (Z.min 32767 (limit (q - pred_of t) + pred_of t)) = q).
  { unfold limit, i16 in *. lia. }
  rewrite E. f_equal. auto.
Qed.

(** ** Costs *)
Lemma cost_nil k : cost k [] = 0. Proof. reflexivity. Qed.
Lemma cost_cons k d ds : cost k (d :: ds) = (Z.abs d / 2 ^ k + k + 2) + cost k ds.
Proof. reflexivity. Qed.
Lemma cost_app k a b : cost k (a ++ b) = cost k a + cost k b.
Proof. induction a; [reflexivity|]. cbn [app]. rewrite !cost_cons, IHa. lia. Qed.

Lemma cost_item k d : 1 <= k -> 0 <= Z.abs d / 2 ^ k.
Proof. intros. apply Z.div_pos; [lia|apply Z.pow_pos_nonneg; lia]. Qed.
Lemma cost_nonneg k ds : 0 <= k -> 0 <= cost k ds.
Proof.
  intros; induction ds; [rewrite cost_nil; lia|]. rewrite cost_cons.
  assert (0 <= Z.abs a / 2 ^ k) by (apply Z.div_pos; [lia|apply Z.pow_pos_nonneg; lia]). lia.
Qed.
Lemma cost_bound k ds : 1 <= k <= 15 -> Forall (fun d => -65535 <= d <= 65535) ds ->
  cost k ds <= 32784 * zlen ds.
Proof.
  intros Hk H; induction H as [|d ds Hd H IH]; [rewrite cost_nil; reflexivity|].
  rewrite cost_cons, zlen_cons.
  assert (Z.abs d / 2 ^ k <= 32767).
  { assert (2 ^ 1 <= 2 ^ k) by (apply Z.pow_le_mono_r; lia). change (2 ^ 1) with 2 in *.
    assert (Z.abs d / 2 ^ k < 32768); [|lia]. apply Z.div_lt_upper_bound; [lia|]. nia. }
  lia.
Qed.

(** ** The choice of the exponent *)
Lemma best_fold ds ks b0 :
  let b := fold_left (fun b k => if cost k ds <? cost b ds then k else b) ks b0 in
  (b = b0 \/ In b ks) /\ cost b ds <= cost b0 ds /\ (forall k, In k ks -> cost b ds <= cost k ds).
Proof.
  revert b0; induction ks as [|k ks IH]; intros b0; cbn [fold_left].
  - repeat split; auto; [lia|]. intros k [].
  - destruct (IH (if cost k ds <? cost b0 ds then k else b0)) as (H1 & H2 & H3).
    set (b := fold_left _ ks _) in *.
    destruct (Z.ltb_spec (cost k ds) (cost b0 ds)).
    + split; [destruct H1; [right; left|right; right]; auto|]. split; [lia|].
      intros k' [<-|Hk']; [lia|auto].
    + split; [destruct H1; [left|right; right]; auto|]. split; [lia|].
      intros k' [<-|Hk']; [lia|auto].
Qed.
Lemma best_range ds : 1 <= best_exponent ds <= 15.
Proof.
  destruct (best_fold ds [2; 3; 4; 5; 6; 7; 8; 9; 10; 11; 12; 13; 14; 15] 1) as (H & _).
  fold (best_exponent ds) in H. cbn [In] in H. lia.
Qed.
Lemma best_optimal ds k : 1 <= k <= 15 -> cost (best_exponent ds) ds <= cost k ds.
Proof.
  intros Hk.
  destruct (best_fold ds [2; 3; 4; 5; 6; 7; 8; 9; 10; 11; 12; 13; 14; 15] 1) as (_ & H1 & H2).
  fold (best_exponent ds) in H1, H2.
  destruct (Z.eq_dec k 1) as [->|]; auto. apply H2. cbn [In]. lia.
Qed.
(** With errors of at most 15 bits exponent 15 is never chosen. *)
Lemma best_small ds : Forall (fun d => -32767 <= d <= 32767) ds -> best_exponent ds <= 14.
Proof.
  intros H. unfold best_exponent.
  change [2; 3; 4; 5; 6; 7; 8; 9; 10; 11; 12; 13; 14; 15]
    with ([2; 3; 4; 5; 6; 7; 8; 9; 10; 11; 12; 13; 14] ++ [15]).
  rewrite fold_left_app. unfold fold_left at 1.
  set (b := fold_left (fun b k => if cost k ds <? cost b ds then k else b)
              [2; 3; 4; 5; 6; 7; 8; 9; 10; 11; 12; 13; 14] 1).
  destruct (best_fold ds [2; 3; 4; 5; 6; 7; 8; 9; 10; 11; 12; 13; 14] 1) as (B1 & B2 & B3).
  fold b in B1, B2, B3.
  assert (C14 : cost 14 ds <= cost 15 ds).
  { clear -H. induction H as [|d ds Hd H IH]; [reflexivity|]. rewrite !cost_cons.
    assert (Z.abs d / 2 ^ 14 < 2) by (apply Z.div_lt_upper_bound; [reflexivity|change (2 ^ 14) with 16384; lia]).
    assert (0 <= Z.abs d / 2 ^ 15) by (apply Z.div_pos; [lia|reflexivity]). lia. }
  specialize (B3 14 ltac:(cbn [In]; lia)).
  destruct (Z.ltb_spec (cost 15 ds) (cost b ds)); [lia|]. cbn [In] in B1. lia.
Qed.

Lemma mapM_map {A B C} (f : B -> outcome C) (h : A -> B) l :
  mapM f (map h l) = mapM (fun a => f (h a)) l.
Proof. induction l; cbn; auto. now rewrite IHl. Qed.
Lemma mapM_ext {A B} (f g : A -> outcome B) l :
  (forall a, In a l -> f a = g a) -> mapM f l = mapM g l.
Proof. induction l; cbn; intros H; auto. rewrite H, IHl; auto. Qed.
Lemma combine_map {A B} (g : A -> B) l : combine l (map g l) = map (fun k => (k, g k)) l.
Proof. induction l; cbn; auto. now rewrite IHl. Qed.

Definition table_of (ds : list Z) : list Z :=
  map (fun k => if k =? 0 then 0 else cost k ds) (range 16).

Lemma add_costs_spec p ds d :
  Forall (fun d => -65535 <= d <= 65535) (ds ++ [d]) -> zlen ds + 1 <= 131007 ->
  add_costs p (table_of ds) (Z.abs d) = Ok (table_of (ds ++ [d])).
Proof.
  intros H Hb. unfold add_costs, table_of at 1. rewrite combine_map, mapM_map.
  unfold table_of. apply mapM_ok. intros k Hk. apply in_range in Hk.
  destruct (Z.eqb_spec k 0) as [->|]; auto.
  pose proof H as H'. apply Forall_app in H'. destruct H' as [H1 H2]. inversion H2; subst.
  pose proof (cost_bound k (ds ++ [d]) ltac:(lia) H) as CB.
  rewrite zlen_app in CB. change (zlen [d]) with 1 in CB.
  pose proof (cost_nonneg k ds ltac:(lia)) as CN.
  rewrite cost_app, cost_cons, cost_nil in *.
  pose proof (cost_item k d ltac:(lia)) as CI.
  unfold cost_of. rewrite Z.shiftr_div_pow2 by lia.
  assert (P32 : 2 ^ 32 = 4294967296) by reflexivity.
  rewrite !uchk_ok; cbn [bind]; rewrite ?uchk_ok; cbn [bind]; rewrite ?uchk_ok; cbn [bind];
    rewrite ?uchk_ok; try lia.
  f_equal. lia.
Qed.

Lemma sum_costs_spec p h t samples ds :
  hist_is h t -> Forall (fun d => -65535 <= d <= 65535) ds ->
  zlen ds + zlen samples <= 131007 ->
  sum_costs p h samples (table_of ds) = Ok (table_of (ds ++ diffs t (map truncate_sample samples))).
Proof.
  revert h t ds; induction samples as [|s samples IH]; intros h t ds Hh Hd Hb; cbn [sum_costs map diffs].
  - now rewrite app_nil_r.
  - rewrite zlen_cons in Hb. pose proof (zlen_nonneg samples).
    rewrite (hist_predict h t Hh).
    assert (HD : Forall (fun d => -65535 <= d <= 65535) (ds ++ [truncate_sample s - pred_of t])).
    { apply Forall_app; split; auto. constructor; [|constructor].
      pose proof (trunc_range s). pose proof (pred_range t). lia. }
    rewrite add_costs_spec by (auto; lia). cbn [bind].
    rewrite (IH _ (shift t (truncate_sample s))); auto.
    + now rewrite <- app_assoc.
    + now apply hist_is_push.
    + rewrite zlen_app. change (zlen [truncate_sample s - pred_of t]) with 1. lia.
Qed.

Lemma pick_spec ds : Forall (fun d => -65535 <= d <= 65535) ds ->
  pick_exponent (table_of ds) = best_exponent ds.
Proof.
  intros H. unfold pick_exponent, table_of. rewrite combine_map.
  set (L := [1; 2; 3; 4; 5; 6; 7; 8; 9; 10; 11; 12; 13; 14; 15]).
  replace (skipn 1 (map (fun k => (k, if k =? 0 then 0 else cost k ds)) (range 16)))
    with (map (fun k => (k, cost k ds)) L) by reflexivity.
  assert (FE : forall l, (forall k, In k l -> 1 <= k <= 15) ->
     filter (fun '(_, b) => 0 <? b) (map (fun k => (k, cost k ds)) l) =
     match ds with [] => [] | _ => map (fun k => (k, cost k ds)) l end).
  { induction l as [|k l IH]; intros Hl; [destruct ds; reflexivity|].
    cbn [map filter]. rewrite IH by (intros; apply Hl; right; auto).
    specialize (Hl k (or_introl eq_refl)).
    destruct ds as [|d ds'].
    - rewrite cost_nil. reflexivity.
    - assert (0 < cost k (d :: ds')).
      { rewrite cost_cons. pose proof (cost_item k d ltac:(lia)).
        pose proof (cost_nonneg k ds' ltac:(lia)). lia. }
      destruct (Z.ltb_spec 0 (cost k (d :: ds'))); [reflexivity|lia]. }
  assert (FM : forall l b, 
     fold_left (fun best '(k, b) => match best with
                  | None => Some (k, b)
                  | Some (k0, b0) => if b <? b0 then Some (k, b) else Some (k0, b0) end)
       (map (fun k => (k, cost k ds)) l) (Some (b, cost b ds))
     = Some (fold_left (fun b k => if cost k ds <? cost b ds then k else b) l b,
             cost (fold_left (fun b k => if cost k ds <? cost b ds then k else b) l b) ds)).
  { induction l as [|k l IH]; intros b; cbn [map fold_left]; auto.
    destruct (cost k ds <? cost b ds); apply IH. }
  rewrite FE by (subst L; cbn [In]; intros; lia).
  destruct ds as [|d ds'].
  - reflexivity.
  - set (ds := d :: ds') in *. unfold first_min. subst L. cbn [map fold_left].
    pose proof (FM [2; 3; 4; 5; 6; 7; 8; 9; 10; 11; 12; 13; 14; 15] 1) as E.
    cbn [map fold_left] in E. rewrite E. reflexivity.
Qed.

Lemma map_trunc_i16 l : Forall i16 (map truncate_sample l).
Proof.
  apply Forall_forall. intros x Hx. apply in_map_iff in Hx. destruct Hx as (s & <- & _).
  apply trunc_range.
Qed.

Theorem optimal_exponent_spec p h t samples :
  hist_is h t -> zlen samples <= 131007 ->
  compute_optimal_divisor_exponent p h samples
    = Ok (best_exponent (diffs t (map truncate_sample samples))).
Proof.
  intros Hh Hb. unfold compute_optimal_divisor_exponent.
  change (repeat 0 16) with (table_of []).
  rewrite (sum_costs_spec p h t samples [] Hh) by (auto; change (zlen (@nil Z)) with 0; lia).
  cbn [bind app]. rewrite pick_spec; auto. apply diffs_range. apply map_trunc_i16.
Qed.

(** ** Encoding samples *)
Lemma zlen_flat_rice e es :
  0 <= e -> zlen (flat_map (rice e) es) = cost e es.
Proof.
  intros He; induction es as [|d es IH]; [reflexivity|].
  cbn [flat_map]. rewrite zlen_app, IH, zlen_rice, cost_cons by lia. lia.
Qed.

Lemma encode_samples_spec {k} p s bs h t e samples :
  holds k s bs -> hist_is h t -> (samples <> [] -> exp_ok p e) -> 0 <= e ->
  zlen bs + cost e (residuals t (map truncate_sample samples)) < 2 ^ 64 ->
  exists s' h',
    encode_samples p s h e samples = Ok (s', h') /\
    holds k s' (bs ++ flat_map (rice e) (residuals t (map truncate_sample samples))) /\
    hist_is h' (fold_left shift (map truncate_sample samples) t).
Proof.
  revert s bs h t; induction samples as [|x samples IH]; intros s bs h t Hs Hh He He0 Hb.
  - exists s, h. cbn [map encode_samples fold_left]. unfold residuals. cbn [diffs map flat_map].
    rewrite app_nil_r. auto.
  - cbn [encode_samples map fold_left]. rewrite (hist_predict h t Hh), residual_limit.
    unfold residuals in *. cbn [map diffs flat_map] in *. rewrite cost_cons in Hb.
    set (d := limit (truncate_sample x - pred_of t)) in *.
    pose proof (cost_nonneg e (map limit (diffs (shift t (truncate_sample x)) (map truncate_sample samples))) He0).
    pose proof (limit_range (truncate_sample x - pred_of t)) as Hd. fold d in Hd.
    specialize (He ltac:(discriminate)).
    destruct (write_compressed_spec p s bs e d Hs He ltac:(lia)) as (s1 & E1 & H1).
    { rewrite zlen_rice by lia. lia. }
    rewrite E1. cbn [bind].
    destruct (IH s1 _ (cs_push h (truncate_sample x)) (shift t (truncate_sample x)) H1
                (hist_is_push _ _ _ Hh)) as (s2 & h2 & E2 & H2 & H2'); auto.
    { rewrite zlen_app, zlen_rice by lia. lia. }
    exists s2, h2. split; [exact E2|]. split; [|exact H2'].
    now rewrite <- app_assoc in H2.
Qed.

Lemma encode_raw_spec {k} p s bs h pcm :
  holds k s bs -> hist_any h -> 3 <= zlen pcm -> zlen bs + 48 < 2 ^ 64 ->
  let qs := map truncate_sample pcm in
  exists s' h',
    encode_raw p s h pcm [0; 1; 2] = Ok (s', h') /\
    holds k s' (bs ++ flat_map (fun q => bits_le 16 (uwrap 16 q)) (firstn 3 qs)) /\
    hist_is h' (nth 0 qs 0, nth 1 qs 0, nth 2 qs 0).
Proof.
  intros Hs Hh Hl Hb qs. subst qs.
  destruct pcm as [|x0 [|x1 [|x2 pcm]]];
    try (rewrite ?zlen_cons in Hl; change (zlen (@nil f32)) with 0 in Hl; lia).
  cbn [map firstn nth flat_map].
  assert (W : forall s bs x, holds k s bs -> zlen bs + 16 < 2 ^ 64 ->
    exists s', write_typed p s (uwrap 16 x) 16 = Ok s' /\ holds k s' (bs ++ bits_le 16 (uwrap 16 x))).
  { intros s0 bs0 x Hs0 Hb0. unfold write_typed.
    apply (holds_write_bits p s0 bs0 (uwrap 16 x) 16); auto; try lia.
    pose proof (uwrap_range 16 x ltac:(lia)). rewrite pow2_128. change (2 ^ 16) with 65536 in *. lia. }
  assert (L16 : forall x, zlen (bits_le 16 x) = 16) by (intros; now rewrite zlen_bits_le).
  cbn [encode_raw].
  assert (Hlen : 3 <= zlen (x0 :: x1 :: x2 :: pcm)) by exact Hl.
  rewrite (index_ok _ 0 x0), (index_ok _ 1 x0), (index_ok _ 2 x0) by lia. cbn [bind].
  change (nth (Z.to_nat 0) (x0 :: x1 :: x2 :: pcm) x0) with x0.
  change (nth (Z.to_nat 1) (x0 :: x1 :: x2 :: pcm) x0) with x1.
  change (nth (Z.to_nat 2) (x0 :: x1 :: x2 :: pcm) x0) with x2.
  destruct (W s bs (truncate_sample x0) Hs ltac:(lia)) as (s0 & E0 & H0). rewrite E0. cbn [bind].
  destruct (W s0 _ (truncate_sample x1) H0) as (s1 & E1 & H1).
  { rewrite zlen_app, L16. lia. }
  rewrite E1. cbn [bind].
  destruct (W s1 _ (truncate_sample x2) H1) as (s2 & E2 & H2).
  { rewrite !zlen_app, !L16. lia. }
  rewrite E2. cbn [bind]. eexists; eexists; split; [reflexivity|]. split.
  - rewrite app_nil_r. rewrite <- !app_assoc in H2. exact H2.
  - now apply hist_is_push3.
Qed.

(** ** Encoding one frame *)
Definition fc_rel (c : frame_codec) (st : option hist) : Prop :=
  fc_buffer c = [] /\
  match st with
  | None => fc_state c = CInit /\ hist_any (fc_history c)
  | Some t => fc_state c = CEncoding /\ hist_is (fc_history c) t
  end.

(** Headers of consecutive frames, the first at bit [pos]. *)
Definition header_of (pos : Z) (f : frame) : frame_header :=
  mkFH (fr_e f) (uwrap 16 (fr_size f)) pos (fr_init f) (fr_hist f).
Fixpoint headers_of (pos : Z) (fs : list frame) : list frame_header :=
  match fs with
  | [] => []
  | f :: fs => header_of pos f :: headers_of (pos + zlen (fr_bits f)) fs
  end.
Lemma headers_of_app pos a b :
  headers_of pos (a ++ b) = headers_of pos a ++ headers_of (pos + zlen (flat_map fr_bits a)) b.
Proof.
  revert pos; induction a as [|f a IH]; intros pos; cbn [app headers_of flat_map].
  - change (zlen (@nil bool)) with 0. now rewrite Z.add_0_r.
  - rewrite IH, zlen_app. do 3 f_equal. lia.
Qed.
Lemma length_headers_of pos fs : length (headers_of pos fs) = length fs.
Proof. revert pos; induction fs; cbn; intros; auto. Qed.
Lemma zlen_headers_of pos fs : zlen (headers_of pos fs) = zlen fs.
Proof. unfold zlen; now rewrite length_headers_of. Qed.

(** The header list while encoding: cursor at the end. *)
Definition enc_headers (hs : frame_headers) (fs : list frame) : Prop :=
  fhs_rep hs (headers_of 0 fs) /\ fhs_cursor hs = zlen fs.

Lemma enc_headers_push p hs fs f :
  enc_headers hs fs -> 0 <= fr_e f < 16 -> zlen (flat_map fr_bits fs) < 2 ^ 64 ->
  zlen fs + 1 < 2 ^ 32 ->
  exists hs', fhs_push p hs (header_of (zlen (flat_map fr_bits fs)) f) = Ok hs' /\
              enc_headers hs' (fs ++ [f]).
Proof.
  intros [R C] He Hb Hn. pose proof (zlen_nonneg fs). pose proof (zlen_nonneg (flat_map fr_bits fs)).
  destruct (fhs_push_rep p hs _ (header_of (zlen (flat_map fr_bits fs)) f) R) as (hs' & E & R' & C').
  { split; cbn [header_of fh_exponent fh_bit_cursor]; lia. }
  { lia. } { lia. } { rewrite zlen_headers_of; lia. }
  exists hs'. split; auto. split.
  - rewrite headers_of_app. unfold push_at in R'. rewrite zlen_headers_of, C, Z.ltb_irrefl in R'.
    exact R'.
  - rewrite C', C, zlen_app. reflexivity.
Qed.

Lemma zlen_fr_bits f : 0 <= fr_e f -> 
  zlen (fr_bits f) = 16 * zlen (fr_raw f) + cost (fr_e f) (fr_res f).
Proof.
  intros He. unfold fr_bits. rewrite zlen_app, zlen_flat_rice by lia. f_equal.
  induction (fr_raw f) as [|a l IH]; [reflexivity|]. cbn [flat_map].
  rewrite zlen_app, IH, zlen_bits_le, zlen_cons. lia.
Qed.

(** Limiting never costs more. *)
Lemma cost_limit k ds : 0 <= k -> cost k (map limit ds) <= cost k ds.
Proof.
  intros Hk; induction ds as [|d ds IH]; [reflexivity|]. cbn [map]. rewrite !cost_cons.
  assert (Z.abs (limit d) / 2 ^ k <= Z.abs d / 2 ^ k).
  { apply Z.div_le_mono; [apply Z.pow_pos_nonneg; lia|]. unfold limit; lia. }
  lia.
Qed.

(** At most 18 bits per sample, 17 when no error exceeds 15 bits. *)
Lemma best_cost_18 t qs : Forall i16 qs ->
  cost (best_exponent (diffs t qs)) (residuals t qs) <= 18 * zlen qs.
Proof.
  intros H. pose proof (diffs_range t qs H) as D. pose proof (best_range (diffs t qs)).
  unfold residuals. etransitivity; [apply cost_limit; lia|].
  etransitivity; [apply (best_optimal _ 15); lia|].
  replace (zlen qs) with (zlen (diffs t qs)) by (unfold zlen; now rewrite length_diffs).
  clear -D. induction D as [|d ds Hd D IH]; [reflexivity|]. rewrite cost_cons, zlen_cons.
  assert (Z.abs d / 2 ^ 15 < 2) by (apply Z.div_lt_upper_bound; [reflexivity|change (2 ^ 15) with 32768; lia]).
  lia.
Qed.
Lemma best_cost_17 t qs : Forall (fun d => -32767 <= d <= 32767) (diffs t qs) ->
  cost (best_exponent (diffs t qs)) (residuals t qs) <= 17 * zlen qs.
Proof.
  intros D. pose proof (best_range (diffs t qs)).
  unfold residuals. etransitivity; [apply cost_limit; lia|].
  etransitivity; [apply (best_optimal _ 15); lia|].
  replace (zlen qs) with (zlen (diffs t qs)) by (unfold zlen; now rewrite length_diffs).
  clear -D. induction D as [|d ds Hd D IH]; [reflexivity|]. rewrite cost_cons, zlen_cons.
  assert (Z.abs d / 2 ^ 15 < 1) by (apply Z.div_lt_upper_bound; [reflexivity|change (2 ^ 15) with 32768; lia]).
  lia.
Qed.

Lemma make_frame_e st qs : 1 <= fr_e (make_frame st qs) <= 15.
Proof. destruct st; apply best_range. Qed.
Lemma make_frame_size st qs : (st = None -> 3 <= zlen qs) -> fr_size (make_frame st qs) = zlen qs.
Proof.
  intros H. destruct st as [t|]; unfold fr_size; cbn [make_frame fr_raw fr_res].
  - unfold zlen. rewrite length_residuals. cbn [length]. lia.
  - specialize (H eq_refl). unfold zlen in *. rewrite length_residuals, firstn_length, skipn_length. lia.
Qed.
Lemma make_frame_bits st qs : Forall i16 qs -> (st = None -> 3 <= zlen qs) ->
  zlen (fr_bits (make_frame st qs)) <= 18 * zlen qs + (if st then 0 else 48).
Proof.
  intros H Hn. pose proof (make_frame_e st qs). rewrite zlen_fr_bits by lia.
  destruct st as [t|]; cbn [make_frame fr_raw fr_res fr_e].
  - change (zlen (@nil Z)) with 0. pose proof (best_cost_18 t qs H). lia.
  - assert (HS : Forall i16 (skipn 3 qs)).
    { rewrite <- (firstn_skipn 3 qs) in H. apply Forall_app in H. tauto. }
    pose proof (best_cost_18 (nth 0 qs 0, nth 1 qs 0, nth 2 qs 0) _ HS) as B.
    rewrite zlen_skipn in B. rewrite zlen_firstn. specialize (Hn eq_refl). lia.
Qed.

Lemma first3_hist qs t : 3 <= zlen qs ->
  fold_left shift qs t = fold_left shift (skipn 3 qs) (nth 0 qs 0, nth 1 qs 0, nth 2 qs 0).
Proof.
  intros H. destruct qs as [|a [|b [|c qs]]];
    try (rewrite ?zlen_cons in H; change (zlen (@nil Z)) with 0 in H; lia).
  cbn [fold_left skipn nth]. now rewrite fold_shift_3.
Qed.

Theorem encode_frame_spec {k} p c st s hs fs pcm :
  fc_rel c st -> holds k s (flat_map fr_bits fs) -> enc_headers hs fs ->
  (st = None -> 3 <= zlen pcm) -> zlen pcm <= 131007 ->
  let f := make_frame st (map truncate_sample pcm) in
  (fr_res f <> [] -> exp_ok p (fr_e f)) ->
  zlen fs + 1 < 2 ^ 32 ->
  zlen (flat_map fr_bits (fs ++ [f])) < 2 ^ 64 ->
  exists c' s' hs',
    encode_frame p c s hs pcm = Ok (c', s', hs') /\
    fc_rel c' (Some (next_hist st (map truncate_sample pcm))) /\
    holds k s' (flat_map fr_bits (fs ++ [f])) /\
    enc_headers hs' (fs ++ [f]).
Proof.
  intros [Hbuf Hst] Hs Hh H3 Hn f He Hfs Hbits.
  assert (Hf1 : 1 <= fr_e f <= 15) by apply make_frame_e.
  rewrite flat_map_app, zlen_app in Hbits. cbn [flat_map] in Hbits. rewrite app_nil_r in Hbits.
  pose proof (zlen_nonneg (flat_map fr_bits fs)) as Hp1. pose proof (zlen_nonneg (fr_bits f)) as Hp2.
  assert (Hcur : bit_cursor s = zlen (flat_map fr_bits fs)) by apply Hs.
  assert (Hsize : fr_size f = zlen pcm).
  { subst f. rewrite make_frame_size; [apply zlen_map|]. rewrite zlen_map. exact H3. }
  destruct (enc_headers_push p hs fs f Hh ltac:(lia) ltac:(lia) Hfs) as (hs' & EH & Hh').
  rewrite flat_map_app. cbn [flat_map]. rewrite app_nil_r.
  unfold encode_frame. destruct st as [t|].
  - destruct Hst as [-> Hist]. rewrite (optimal_exponent_spec p _ t pcm Hist Hn). cbn [bind].
    rewrite (hist_last3 _ _ Hist).
    unfold header_of in EH. rewrite Hsize in EH. subst f. cbn [make_frame fr_e fr_init fr_hist fr_res] in *.
    rewrite (uwrap_small 8) by (change (2 ^ 8) with 256; lia). rewrite Hcur, EH. cbn [bind].
    destruct (encode_samples_spec p s _ (fc_history c) t
      (best_exponent (diffs t (map truncate_sample pcm))) pcm Hs Hist) as (s1 & h1 & E1 & H1 & H1').
    { intros Hne. apply He. intros E. apply Hne. apply (f_equal (@length Z)) in E.
      rewrite length_residuals, map_length in E. destruct pcm; [reflexivity|discriminate]. }
    { lia. }
    { rewrite zlen_fr_bits in Hbits by (cbn [fr_e]; lia). cbn [fr_raw fr_e fr_res] in Hbits.
      change (zlen (@nil Z)) with 0 in Hbits. lia. }
    rewrite E1. cbn [bind]. eexists; eexists; eexists; split; [reflexivity|].
    split; [split; [exact Hbuf|split; [reflexivity|exact H1']]|].
    split; [exact H1|exact Hh'].
  - destruct Hst as [-> Hist]. specialize (H3 eq_refl).
    rewrite zlen_fr_bits in Hbits by lia. subst f. cbn [make_frame fr_raw fr_e fr_res fr_init fr_hist] in *.
    set (qs := map truncate_sample pcm) in *.
    set (t := (nth 0 qs 0, nth 1 qs 0, nth 2 qs 0)) in *.
    assert (HR : map truncate_sample (skipn 3 pcm) = skipn 3 qs).
    { subst qs. symmetry. apply skipn_map. }
    assert (HF3 : zlen (firstn 3 qs) = 3).
    { rewrite zlen_firstn. subst qs. rewrite zlen_map. lia. }
    pose proof (cost_nonneg (best_exponent (diffs t (skipn 3 qs))) (residuals t (skipn 3 qs)) ltac:(lia)) as Hp3.
    destruct (encode_raw_spec p s _ (fc_history c) pcm Hs Hist ltac:(lia) ltac:(lia))
      as (s0 & h0 & E0 & H0 & H0'). fold qs t in H0, H0'.
    rewrite E0. cbn [bind]. unfold slice_from.
    destruct (Z.leb_spec 0 3) as [_|]; [|lia]. destruct (Z.leb_spec 3 (zlen pcm)) as [_|]; [|lia]. cbn [andb bind].
    change (Z.to_nat 3) with 3%nat.
    rewrite (optimal_exponent_spec p _ t (skipn 3 pcm) H0') by (rewrite zlen_skipn; lia).
    rewrite HR. cbn [bind]. rewrite (hist_last3 _ _ H0').
    unfold header_of in EH. rewrite Hsize in EH. cbn [fr_e fr_init fr_hist] in EH.
    rewrite (uwrap_small 8) by (change (2 ^ 8) with 256; lia). rewrite Hcur, EH. cbn [bind].
    destruct (encode_samples_spec p s0 _ h0 t (best_exponent (diffs t (skipn 3 qs))) (skipn 3 pcm) H0 H0')
      as (s1 & h1 & E1 & H1 & H1').
    { intros Hne. apply He. intros E. apply Hne. apply (f_equal (@length Z)) in E.
      rewrite length_residuals, <- HR, map_length in E. destruct (skipn 3 pcm); [reflexivity|discriminate]. }
    { lia. }
    { rewrite HR, zlen_app.
      assert (L : zlen (flat_map (fun q => bits_le 16 (uwrap 16 q)) (firstn 3 qs)) = 48).
      { pose proof (zlen_fr_bits (mkFrame true t 0 (firstn 3 qs) []) ltac:(cbn; lia)) as Z0.
        unfold fr_bits in Z0. cbn [fr_raw fr_res fr_e flat_map] in Z0. rewrite app_nil_r, cost_nil in Z0. lia. }
      rewrite L. lia. }
    rewrite E1. cbn [bind]. eexists; eexists; eexists; split; [reflexivity|].
    rewrite HR in *.
    split; [split; [exact Hbuf|split; [reflexivity|]]|].
    { cbn [next_hist fc_history]. subst t. rewrite first3_hist; [exact H1'|].
      subst qs. rewrite zlen_map. lia. }
    split; [|exact Hh']. rewrite <- app_assoc in H1. exact H1.
Qed.

(** ** Decoding samples *)
Definition out_res (q : Z) : f32 := fclamp (normalize_sample q) fm1 f1.

Lemma decode_samples_spec p s m pos h t buf e es :
  reader s m pos -> bits_at m pos (flat_map (rice e) es) -> hist_is h t ->
  (es <> [] -> exp_ok p e) -> 0 <= e -> Forall (fun d => -32767 <= d <= 32766) es ->
  pos + cost e es <= 128 * zlen m -> pos + cost e es + 512 < 2 ^ 64 ->
  exists s' h',
    decode_samples p s h buf e (length es) = Ok (s', h', buf ++ map out_res (reconstruct t es)) /\
    reader s' m (pos + cost e es) /\ hist_is h' (fold_left shift (reconstruct t es) t).
Proof.
  revert s pos h t buf; induction es as [|d es IH]; intros s pos h t buf R B Hh He He0 HF Hl Hb.
  - exists s, h. cbn [length decode_samples reconstruct map fold_left]. rewrite app_nil_r, cost_nil, Z.add_0_r. auto.
  - rewrite cost_cons in *. cbn [flat_map] in B. apply bits_at_app in B. destruct B as [B1 B2].
    inversion HF as [|? ? Hd HF']; subst. pose proof (cost_nonneg e es He0).
    specialize (He ltac:(discriminate)).
    assert (L : zlen (rice e d) = Z.abs d / 2 ^ e + e + 2) by (apply zlen_rice; lia).
    destruct (read_compressed_spec p s m pos e d R B1 He ltac:(lia)) as (s1 & E1 & R1).
    { lia. } { lia. }
    cbn [length decode_samples]. rewrite E1. cbn [bind]. rewrite (hist_predict h t Hh).
    rewrite zclamp_eq by lia.
    set (q := Z.max (-32768) (Z.min 32767 (d + pred_of t))).
    rewrite L in *.
    destruct (IH s1 _ (cs_push h q) (shift t q) (buf ++ [fclamp (normalize_sample q) fm1 f1])
                R1 B2 (hist_is_push _ _ _ Hh)) as (s2 & h2 & E2 & R2 & H2); auto; try lia.
    exists s2, h2. rewrite E2. cbn [reconstruct map fold_left]. fold q.
    rewrite <- app_assoc. split; [reflexivity|]. split; [|exact H2].
    now rewrite Z.add_assoc.
Qed.

Lemma decode_raw_spec p s m pos h qs :
  reader s m pos -> bits_at m pos (flat_map (fun q => bits_le 16 (uwrap 16 q)) qs) ->
  Forall i16 qs -> pos + 16 * zlen qs + 512 < 2 ^ 64 ->
  exists s', decode_raw p s h (length qs) = Ok (s', fold_left cs_push qs h) /\
             reader s' m (pos + 16 * zlen qs).
Proof.
  revert s pos h; induction qs as [|q qs IH]; intros s pos h R B HF Hb.
  - exists s. cbn [length decode_raw fold_left]. change (zlen (@nil Z)) with 0. now rewrite Z.add_0_r.
  - cbn [flat_map] in B. apply bits_at_app in B. destruct B as [B1 B2]. rewrite zlen_cons in *.
    inversion HF as [|? ? Hq HF']; subst. pose proof (zlen_nonneg qs).
    assert (Hpos : 0 <= pos) by (destruct R as ([Hc _] & _ & Ec); lia).
    destruct (read_typed_spec p s m pos _ R B1) as (s1 & E1 & R1).
    { rewrite zlen_bits_le; lia. } { lia. }
    rewrite zlen_bits_le in *. change (Z.of_nat 16) with 16 in *.
    cbn [length decode_raw]. rewrite E1. cbn [bind].
    assert (V : swrap 16 (bits_val (bits_le 16 (uwrap 16 q))) = q).
    { rewrite bits_val_le. change (2 ^ Z.of_nat 16) with (2 ^ 16).
      rewrite Z.mod_small by (apply uwrap_range; lia).
      rewrite swrap_uwrap by lia. apply swrap_small; [lia|]. rewrite pow16. unfold i16 in Hq. lia. }
    rewrite V.
    destruct (IH s1 _ (cs_push h q) R1 B2 HF' ltac:(lia)) as (s2 & E2 & R2).
    exists s2. rewrite E2. cbn [fold_left]. split; [reflexivity|].
    replace (pos + 16 * (1 + zlen qs)) with (pos + 16 + 16 * zlen qs) by lia. exact R2.
Qed.

(** A frame that can be decoded in state [st]: well formed and of the right kind. *)
Definition frame_ok (p : profile) (st : option hist) (f : frame) : Prop :=
  0 <= fr_e f < 16 /\ (fr_res f <> [] -> exp_ok p (fr_e f)) /\
  Forall (fun d => -32767 <= d <= 32766) (fr_res f) /\
  fr_size f <= 65535 /\
  match st with
  | None => length (fr_raw f) = 3%nat /\ Forall i16 (fr_raw f)
  | Some _ => fr_raw f = []
  end.

(** The samples of one decoded frame as written to the output. *)
Definition decode_floats (st : option hist) (f : frame) : list f32 :=
  match st with
  | Some t => map out_res (reconstruct t (fr_res f))
  | None =>
      let t := (nth 0 (fr_raw f) 0, nth 1 (fr_raw f) 0, nth 2 (fr_raw f) 0) in
      map normalize_sample (fr_raw f) ++ map out_res (reconstruct t (fr_res f))
  end.
Definition decode_hist (st : option hist) (f : frame) : hist := next_hist st (decode_values st f).

(** Decoder state of a channel. *)
Definition dc_rel (c : frame_codec) (st : option hist) (buf : list f32) : Prop :=
  fc_buffer c = buf /\
  match st with
  | None => fc_state c = CInit /\ hist_any (fc_history c)
  | Some t => fc_state c = CDecoding /\ hist_is (fc_history c) t
  end.

Lemma length_decode_floats st f :
  zlen (decode_floats st f) = match st with Some _ => zlen (fr_res f) | None => fr_size f end.
Proof.
  destruct st; cbn [decode_floats]; unfold fr_size, zlen;
    rewrite ?app_length, ?map_length, ?length_reconstruct; lia.
Qed.

(** The header list positioned at the [k]-th of the frames [fs]. *)
Definition dec_headers (hs : frame_headers) (fs : list frame) (k : Z) : Prop :=
  fhs_rep hs (headers_of 0 fs) /\ fhs_cursor hs = k.

Lemma headers_of_nth fs k pos f :
  nth_error fs k = Some f ->
  nth_error (headers_of pos fs) k = Some (header_of (pos + zlen (flat_map fr_bits (firstn k fs))) f).
Proof.
  revert k pos; induction fs as [|g fs IH]; intros [|k] pos H; try discriminate; cbn [nth_error headers_of] in *.
  - injection H as ->. cbn [firstn flat_map]. change (zlen (@nil bool)) with 0. now rewrite Z.add_0_r.
  - rewrite (IH k _ H). cbn [firstn flat_map]. rewrite zlen_app. do 2 f_equal. lia.
Qed.

Theorem decode_frame_end p c s hs fs :
  dec_headers hs fs (zlen fs) -> zlen fs + 1 < 2 ^ 32 -> decode_frame p c s hs = Ok (c, s, hs).
Proof.
  intros [R C] Hb. unfold decode_frame. pose proof (zlen_nonneg fs).
  rewrite (fhs_next_rep p hs _ R) by (rewrite ?zlen_headers_of; lia).
  rewrite zlen_headers_of, C, Z.ltb_irrefl.
  assert (E : nth_error (headers_of 0 fs) (Z.to_nat (zlen fs)) = None).
  { apply nth_error_None. rewrite length_headers_of, to_nat_zlen. lia. }
  rewrite E. reflexivity.
Qed.

Theorem decode_frame_spec p c st buf s m hs a f b :
  let fs := a ++ f :: b in
  let pos := zlen (flat_map fr_bits a) in
  dc_rel c st buf -> reader s m pos -> bits_at m pos (fr_bits f) ->
  dec_headers hs fs (zlen a) -> frame_ok p st f ->
  zlen fs + 1 < 2 ^ 32 ->
  pos + zlen (fr_bits f) <= 128 * zlen m -> pos + zlen (fr_bits f) + 512 < 2 ^ 64 ->
  exists c' s' hs',
    decode_frame p c s hs = Ok (c', s', hs') /\
    dc_rel c' (Some (decode_hist st f)) (buf ++ decode_floats st f) /\
    reader s' m (pos + zlen (fr_bits f)) /\
    dec_headers hs' fs (zlen a + 1).
Proof.
  intros fs pos [Hbuf Hst] R B [RH C] (He & Hx & HF & HS & Hk) Hn Hl Hb.
  assert (Hfs : zlen fs = zlen a + (1 + zlen b)) by (subst fs; now rewrite zlen_app, zlen_cons).
  pose proof (zlen_nonneg a). pose proof (zlen_nonneg b).
  unfold decode_frame. rewrite (fhs_next_rep p hs _ RH) by (rewrite ?zlen_headers_of; lia).
  rewrite zlen_headers_of, C. destruct (Z.ltb_spec (zlen a) (zlen fs)); [|lia].
  rewrite (headers_of_nth fs _ 0 f).
  2: { subst fs. rewrite to_nat_zlen, nth_error_app2, Nat.sub_diag by lia. reflexivity. }
  cbn [bind header_of fh_exponent fh_size].
  assert (Hsz0 : 0 <= fr_size f) by (unfold fr_size; pose proof (zlen_nonneg (fr_raw f)); pose proof (zlen_nonneg (fr_res f)); lia).
  rewrite (uwrap_small 16) by (change (2 ^ 16) with 65536; lia).
  assert (Hh' : dec_headers (fhs_set_cursor hs (zlen a + 1)) fs (zlen a + 1)).
  { split; [exact RH|reflexivity]. }
  unfold fr_bits in B. apply bits_at_app in B. destruct B as [B1 B2].
  rewrite zlen_fr_bits in * by lia.
  assert (Lraw : zlen (flat_map (fun q => bits_le 16 (uwrap 16 q)) (fr_raw f)) = 16 * zlen (fr_raw f)).
  { pose proof (zlen_fr_bits (mkFrame true (0,0,0) 0 (fr_raw f) []) ltac:(cbn; lia)) as Z0.
    unfold fr_bits in Z0. cbn [fr_raw fr_res fr_e flat_map] in Z0. rewrite app_nil_r, cost_nil in Z0. lia. }
  rewrite Lraw in B2. pose proof (cost_nonneg (fr_e f) (fr_res f) ltac:(lia)).
  destruct st as [t|].
  - destruct Hst as [-> Hist]. rewrite Hk in *. change (zlen (@nil Z)) with 0 in *.
    replace (Z.to_nat (fr_size f)) with (length (fr_res f)).
    2: { unfold fr_size. rewrite Hk. unfold zlen. cbn [length]. lia. }
    destruct (decode_samples_spec p s m pos (fc_history c) t (fc_buffer c) (fr_e f) (fr_res f))
      as (s1 & h1 & E1 & R1 & Hh1); auto; try lia.
    { replace pos with (pos + 16 * 0) by lia. exact B2. }
    rewrite E1. cbn [bind]. eexists; eexists; eexists; split; [reflexivity|].
    split; [|split; [|exact Hh']].
    + split; [cbn [fc_buffer decode_floats]; now rewrite Hbuf|]. split; [reflexivity|exact Hh1].
    + replace (pos + (16 * 0 + cost (fr_e f) (fr_res f))) with (pos + cost (fr_e f) (fr_res f)) by lia.
      exact R1.
  - destruct Hst as [-> Hist]. destruct Hk as [Hk Hraw].
    assert (Lr : zlen (fr_raw f) = 3) by (unfold zlen; lia).
    destruct (decode_raw_spec p s m pos (fc_history c) (fr_raw f) R B1 Hraw ltac:(lia)) as (s0 & E0 & R0).
    rewrite Hk in E0. rewrite E0. cbn [bind].
    destruct (fr_raw f) as [|q0 [|q1 [|q2 [|]]]] eqn:ER; try discriminate Hk.
    cbn [fold_left] in *. set (h0 := cs_push (cs_push (cs_push (fc_history c) q0) q1) q2) in *.
    pose proof (hist_is_push3 _ q0 q1 q2 Hist) as Hh3. fold h0 in Hh3.
    destruct (hist_prev h0 q0 q1 q2 Hh3) as (-> & -> & ->).
    replace (Z.to_nat (fr_size f - 3)) with (length (fr_res f)).
    2: { unfold fr_size. rewrite ER. change (zlen [q0; q1; q2]) with 3. unfold zlen. lia. }
    rewrite Lr in *.
    destruct (decode_samples_spec p s0 m _ h0 (q0, q1, q2)
        (fc_buffer c ++ [normalize_sample q0; normalize_sample q1; normalize_sample q2]) (fr_e f) (fr_res f) R0 B2)
      as (s1 & h1 & E1 & R1 & Hh1); auto; try lia.
    rewrite E1. cbn [bind]. eexists; eexists; eexists; split; [reflexivity|].
    split; [|split; [|exact Hh']].
    + split; [cbn [fc_buffer decode_floats]; rewrite Hbuf, ER, <- app_assoc; reflexivity|].
      split; [reflexivity|]. cbn [fc_history]. unfold decode_hist, decode_values.
      rewrite ER. cbn [next_hist nth app fold_left]. rewrite fold_shift_3. exact Hh1.
    + now rewrite Z.add_assoc.
Qed.

(** Frames made by the encoder are decodable, and exactly so when no error is limited. *)
Lemma make_frame_ok p st qs :
  Forall i16 qs -> (st = None -> 3 <= zlen qs) -> zlen qs <= 65535 ->
  (fr_res (make_frame st qs) <> [] -> exp_ok p (fr_e (make_frame st qs))) ->
  frame_ok p st (make_frame st qs).
Proof.
  intros HF H3 Hn He. pose proof (make_frame_e st qs).
  split; [lia|]. split; [exact He|]. split; [destruct st; apply residuals_range|].
  split; [rewrite make_frame_size; auto|].
  destruct st as [t|]; cbn [make_frame fr_raw]; auto.
  specialize (H3 eq_refl). split.
  - rewrite firstn_length. unfold zlen in H3. lia.
  - rewrite <- (firstn_skipn 3 qs) in HF. apply Forall_app in HF. tauto.
Qed.

(** Errors after the history, for the whole frame. *)
Definition frame_diffs (st : option hist) (qs : list Z) : list Z :=
  match st with
  | Some t => diffs t qs
  | None => diffs (nth 0 qs 0, nth 1 qs 0, nth 2 qs 0) (skipn 3 qs)
  end.

Lemma decode_values_exact st qs :
  Forall i16 qs -> (st = None -> 3 <= zlen qs) ->
  Forall (fun d => -32767 <= d <= 32766) (frame_diffs st qs) ->
  decode_values st (make_frame st qs) = qs.
Proof.
  intros HF H3 HD. destruct st as [t|]; cbn [decode_values make_frame fr_res fr_raw frame_diffs] in *.
  - now apply reconstruct_exact.
  - specialize (H3 eq_refl).
    assert (N : forall i, (i < 3)%nat -> nth i (firstn 3 qs) 0 = nth i qs 0).
    { intros i Hi. rewrite <- (firstn_skipn 3 qs) at 2. rewrite app_nth1; auto.
      rewrite firstn_length. unfold zlen in H3. lia. }
    rewrite !N by lia. rewrite reconstruct_exact; auto.
    + apply firstn_skipn.
    + rewrite <- (firstn_skipn 3 qs) in HF. apply Forall_app in HF. tauto.
Qed.
Lemma make_frame_tame_e st qs :
  Forall (fun d => -32767 <= d <= 32767) (frame_diffs st qs) -> fr_e (make_frame st qs) <= 14.
Proof. destruct st; apply best_small. Qed.
