(** * The bit stream refines a log of items *)
From Coq Require Import ZArith List Bool Lia.
From Verif Require Import Model.Base Model.BitStream Spec.Bits Spec.StreamOps
  Proofs.BaseFacts Proofs.BitStreamFacts Proofs.BitLog Proofs.Rice.
Import ListNotations.
Open Scope Z_scope.

Lemma count_ones_pow2m1 k : 0 <= k <= 14 -> count_ones16 (2 ^ k - 1) = k.
Proof.
  intros. assert (C : In k (range 15)) by (apply in_range; lia).
  revert C. change (range 15) with [0;1;2;3;4;5;6;7;8;9;10;11;12;13;14].
  cbn [In]. intros; repeat match goal with H : _ \/ _ |- _ => destruct H end; subst;
    try reflexivity; contradiction.
Qed.

Lemma divisor_exp p k : 0 <= k <= 14 ->
  bind (schk p 16 (2 ^ k - 1)) (fun d => Ok (count_ones16 d)) = Ok k.
Proof.
  intros. assert (0 < 2 ^ k) by (apply Z.pow_pos_nonneg; lia).
  assert (2 ^ k <= 2 ^ 14) by (apply Z.pow_le_mono_r; lia). change (2 ^ 14) with 16384 in *.
  rewrite schk_ok by (rewrite pow16; lia). cbn [bind]. now rewrite count_ones_pow2m1.
Qed.
Lemma write_divisor p s k v : 0 <= k <= 14 ->
  write_compressed_divisor p s (2 ^ k) v = write_compressed p s k v.
Proof.
  intros. unfold write_compressed_divisor.
  assert (0 < 2 ^ k) by (apply Z.pow_pos_nonneg; lia).
  assert (2 ^ k <= 2 ^ 14) by (apply Z.pow_le_mono_r; lia). change (2 ^ 14) with 16384 in *.
  rewrite schk_ok by (rewrite pow16; lia). cbn [bind]. now rewrite count_ones_pow2m1.
Qed.
Lemma read_divisor p s k : 0 <= k <= 14 ->
  read_compressed_divisor p s (2 ^ k) = read_compressed p s k.
Proof.
  intros. unfold read_compressed_divisor.
  assert (0 < 2 ^ k) by (apply Z.pow_pos_nonneg; lia).
  assert (2 ^ k <= 2 ^ 14) by (apply Z.pow_le_mono_r; lia). change (2 ^ 14) with 16384 in *.
  rewrite schk_ok by (rewrite pow16; lia). cbn [bind]. now rewrite count_ones_pow2m1.
Qed.

Lemma bits_le_mod n v : bits_le n (v mod 2 ^ Z.of_nat n) = bits_le n v.
Proof.
  apply nth_ext with (d := false) (d' := false); rewrite !length_bits_le; auto.
  intros j Hj. rewrite !nth_bits_le by lia. apply Z.mod_pow2_bits_low; lia.
Qed.
Lemma bits_le_cong n v w : v mod 2 ^ Z.of_nat n = w mod 2 ^ Z.of_nat n -> bits_le n v = bits_le n w.
Proof. intros H. rewrite <- bits_le_mod, H. apply bits_le_mod. Qed.

Lemma capped_clamp_eq v : zclamp v CAPPED_MIN CAPPED_MAX = capped_clamp v.
Proof.
  unfold capped_clamp. change CAPPED_MIN with (-8192). change CAPPED_MAX with 8191.
  apply zclamp_eq; lia.
Qed.

Lemma bits_le_uwrap14 v : bits_le 14 (uwrap 16 v) = bits_le 14 v.
Proof.
  apply bits_le_cong. unfold uwrap. change (2 ^ Z.of_nat 14) with 16384.
  change (2 ^ 16) with (16384 * 4).
  rewrite Z.rem_mul_r by lia. rewrite (Z.mul_comm 16384), Z.mod_add by lia.
  apply Zmod_mod.
Qed.

Lemma sign_extend14 v : -8192 <= v <= 8191 ->
  swrap 16 (Z.shiftr (swrap 128 (Z.shiftl (v mod 2 ^ 14) CAPPED_SHIFT_FACTOR)) CAPPED_SHIFT_FACTOR) = v.
Proof.
  intros Hv. change CAPPED_SHIFT_FACTOR with 114. 
  rewrite Z.shiftl_mul_pow2, Z.shiftr_div_pow2 by lia.
  assert (E : swrap 128 (v mod 2 ^ 14 * 2 ^ 114) = v * 2 ^ 114).
  { unfold swrap. change (2 ^ (128 - 1)) with (8192 * 2 ^ 114). change (2 ^ 128) with (2 ^ 14 * 2 ^ 114).
    rewrite <- Z.mul_add_distr_r, Z.mul_mod_distr_r by (cbv; discriminate).
    rewrite Z.add_mod_idemp_l by (cbv; discriminate).
    rewrite (Z.mod_small (v + 8192)) by (change (2 ^ 14) with 16384; lia). lia. }
  rewrite E, Z.div_mul by (cbv; discriminate).
  apply swrap_small; [lia|]. rewrite pow16. lia.
Qed.

Theorem write_item_spec {m} p s bs i :
  holds m s bs -> item_ok p i -> zlen bs + zlen (item_bits i) < 2 ^ 64 ->
  exists s', write_item p s i = Ok s' /\ holds m s' (bs ++ item_bits i).
Proof.
  intros Hs Hi Hb; destruct i as [v|v n|v n|e v|k v]; cbn [write_item item_bits item_ok] in *.
  - exact (holds_write_bit p s bs v Hs Hb).
  - destruct Hi as [Hv Hn]. rewrite zlen_bits_le in Hb.
    destruct (holds_write_bits p s bs v (Z.to_nat n) Hs ltac:(lia) Hv Hb) as (s' & E & H').
    rewrite Z2Nat.id in E by lia. eauto.
  - destruct Hi as [Hv Hn]. rewrite zlen_bits_le in Hb. unfold write_typed.
    assert (0 <= n <= 128) by (cbn in Hn; lia).
    assert (2 ^ n <= 2 ^ 128) by (apply Z.pow_le_mono_r; lia).
    destruct (holds_write_bits p s bs v (Z.to_nat n) Hs ltac:(lia) ltac:(lia) Hb) as (s' & E & H').
    rewrite Z2Nat.id in E by lia. eauto.
  - destruct Hi as (He & Hp & Hv). apply write_compressed_spec; auto. now split.
  - destruct Hi as (Hk & Hv). unfold write_compressed_capped.
    rewrite schk_ok by (rewrite pow16; lia). cbn [bind].
    assert (0 < 2 ^ k) by (apply Z.pow_pos_nonneg; lia).
    destruct (Z.eqb_spec (2 ^ k) 0); [lia|].
    destruct (Z.eqb_spec (Z.abs v) (-32768)); [lia|]. cbn [andb bind].
    rewrite Z.quot_div_nonneg by lia.
    unfold escapes in *.
    destruct (Z.ltb_spec (Z.abs v / 2 ^ k) 16), (Z.leb_spec 16 (Z.abs v / 2 ^ k)); try lia.
    + rewrite zlen_cons in Hb.
      destruct (holds_write_bit p s bs 0 Hs ltac:(pose proof (zlen_nonneg (rice k v)); lia)) as (s1 & E1 & H1s).
      rewrite E1. cbn [bind]. rewrite write_divisor by lia.
      destruct (write_compressed_spec p s1 _ k v H1s (exp_ok_small p k Hk) Hv) as (s2 & E2 & H2).
      { rewrite zlen_app. change (zlen [Z.odd 0]) with 1. lia. }
      exists s2; split; auto. rewrite <- app_assoc in H2. exact H2.
    + rewrite zlen_cons, zlen_bits_le in Hb.
      destruct (holds_write_bit p s bs 1 Hs ltac:(lia)) as (s1 & E1 & H1s).
      rewrite E1. cbn [bind]. rewrite capped_clamp_eq.
      destruct (holds_write_bits p s1 _ (uwrap 16 (capped_clamp v)) 14 H1s) as (s2 & E2 & H2).
      { lia. }
      { pose proof (uwrap_range 16 (capped_clamp v) ltac:(lia)).
        rewrite pow2_128. change (2 ^ 16) with 65536 in *. lia. }
      { rewrite zlen_app. change (zlen [Z.odd 1]) with 1. lia. }
      exists s2; split; [exact E2|]. rewrite <- app_assoc in H2.
      rewrite bits_le_uwrap14 in H2. exact H2.
Qed.

Theorem write_items_spec {m} p s bs l :
  holds m s bs -> Forall (item_ok p) l -> zlen bs + total_bits l < 2 ^ 64 ->
  exists s', write_items p s l = Ok s' /\ holds m s' (bs ++ flat_map item_bits l).
Proof.
  revert s bs; induction l; intros s bs Hs Hl Hb; cbn [write_items foldM flat_map].
  - exists s; split; auto. now rewrite app_nil_r.
  - inversion Hl; subst. unfold total_bits in *. cbn [flat_map] in Hb. rewrite zlen_app in Hb.
    pose proof (zlen_nonneg (flat_map item_bits l)).
    destruct (write_item_spec p s bs a Hs ltac:(auto) ltac:(lia)) as (s1 & E1 & H1').
    unfold write_items. cbn [foldM]. rewrite E1. cbn [bind].
    destruct (IHl s1 _ H1' ltac:(auto)) as (s2 & E2 & H2').
    { rewrite zlen_app; lia. }
    exists s2; split; [exact E2|]. now rewrite <- app_assoc in H2'.
Qed.

Theorem read_item_spec p s m c i :
  reader s m c -> item_ok p i -> bits_at m c (item_bits i) ->
  c + zlen (item_bits i) <= 128 * zlen m -> c + zlen (item_bits i) + 512 < 2 ^ 64 ->
  exists s', read_item p s i = Ok (s', item_value i) /\ reader s' m (c + zlen (item_bits i)).
Proof.
  intros R Hi B Hl Hb.
  pose proof R as ([Hc0 _] & _ & Ec).
  destruct i as [v|v n|v n|e v|k v]; cbn [read_item item_bits item_ok item_value] in *.
  - change (bits_le 1 v) with [Z.odd v] in *. change (zlen [Z.odd v]) with 1 in *.
    destruct (read_bit_spec p s m c (Z.odd v) R B ltac:(lia) ltac:(lia)) as (s' & E & R' & _).
    exists s'; split; auto. rewrite E. do 2 f_equal.
    rewrite Zmod_odd. now destruct (Z.odd v).
  - destruct Hi as [Hv Hn].
    destruct (read_bits_spec p s m c _ R B) as (s' & E & R').
    { rewrite zlen_bits_le; lia. } { rewrite zlen_bits_le in *; lia. }
    rewrite zlen_bits_le, Z2Nat.id in * by lia. exists s'; split; auto.
    rewrite E. rewrite bits_val_le, Z2Nat.id by lia. reflexivity.
  - destruct Hi as [Hv Hn]. assert (0 <= n <= 128) by (cbn in Hn; lia).
    destruct (read_typed_spec p s m c _ R B) as (s' & E & R').
    { rewrite zlen_bits_le; lia. } { rewrite zlen_bits_le in *; lia. }
    rewrite zlen_bits_le, Z2Nat.id in * by lia. exists s'; split; auto.
    rewrite E. rewrite bits_val_le, Z2Nat.id by lia. rewrite Z.mod_small by lia. reflexivity.
  - destruct Hi as (He & Hp & Hv). apply read_compressed_spec; auto. now split.
  - destruct Hi as (Hk & Hv). unfold read_compressed_capped.
    destruct (escapes k v).
    + rewrite zlen_cons in *. apply bits_at_cons in B. destruct B as [B1 B2].
      destruct (read_bit_spec p s m c true R) as (s1 & E1 & R1 & _).
      { apply bits_at_cons; split; auto using bits_at_nil. }
      { rewrite zlen_bits_le in *; lia. } { rewrite zlen_bits_le in *; lia. }
      rewrite E1. cbn [bind Z.b2z]. change (1 =? 1) with true. cbv iota.
      destruct (read_bits_spec p s1 m (c + 1) _ R1 B2) as (s2 & E2 & R2).
      { rewrite zlen_bits_le; lia. } { rewrite zlen_bits_le in *; lia. }
      rewrite zlen_bits_le in E2. change (Z.of_nat 14) with CAPPED_BITS in E2.
      rewrite E2. cbn [bind].
      exists s2. split.
      * rewrite bits_val_le. change (2 ^ Z.of_nat 14) with (2 ^ 14).
        rewrite sign_extend14; [reflexivity|]. unfold capped_clamp; lia.
      * replace (c + (1 + zlen (bits_le 14 (capped_clamp v))))
          with (c + 1 + zlen (bits_le 14 (capped_clamp v))) by lia. exact R2.
    + rewrite zlen_cons in *. apply bits_at_cons in B. destruct B as [B1 B2].
      pose proof (zlen_nonneg (rice k v)).
      destruct (read_bit_spec p s m c false R) as (s1 & E1 & R1 & _).
      { apply bits_at_cons; split; auto using bits_at_nil. }
      { lia. } { lia. }
      rewrite E1. cbn [bind Z.b2z]. change (0 =? 1) with false. cbv iota.
      rewrite read_divisor by lia.
      replace (c + (1 + zlen (rice k v))) with (c + 1 + zlen (rice k v)) in * by lia.
      apply read_compressed_spec; auto using exp_ok_small.
Qed.

Theorem read_items_spec p s m c l :
  reader s m c -> Forall (item_ok p) l -> bits_at m c (flat_map item_bits l) ->
  c + total_bits l <= 128 * zlen m -> c + total_bits l + 512 < 2 ^ 64 ->
  exists s', read_items p s l = Ok (s', map item_value l) /\ reader s' m (c + total_bits l).
Proof.
  revert s c; induction l; intros s c R Hl B Hlen Hb.
  - exists s. split; [reflexivity|]. change (total_bits []) with 0. now rewrite Z.add_0_r.
  - inversion Hl; subst. unfold total_bits in *. cbn [flat_map] in *. rewrite zlen_app in *.
    pose proof (zlen_nonneg (flat_map item_bits l)).
    apply bits_at_app in B. destruct B as [B1 B2].
    destruct (read_item_spec p s m c a R ltac:(auto) B1 ltac:(lia) ltac:(lia)) as (s1 & E1 & R1).
    destruct (IHl s1 _ R1 ltac:(auto) B2 ltac:(lia) ltac:(lia)) as (s2 & E2 & R2).
    exists s2. cbn [read_items]. rewrite E1. cbn [bind]. rewrite E2. cbn [bind map].
    split; [reflexivity|]. now rewrite Z.add_assoc.
Qed.

Lemma read_bools_spec p s m c bs :
  reader s m c -> bits_at m c bs ->
  c + zlen bs <= 128 * zlen m -> c + zlen bs + 512 < 2 ^ 64 ->
  exists s', read_bools p s (length bs) = Ok (s', bs) /\ reader s' m (c + zlen bs).
Proof.
  revert s c; induction bs as [|b bs IH]; intros s c R B Hl Hb.
  - exists s. split; [reflexivity|]. change (zlen (@nil bool)) with 0. now rewrite Z.add_0_r.
  - rewrite zlen_cons in *. apply bits_at_cons in B. destruct B as [B1 B2].
    pose proof (zlen_nonneg bs).
    destruct (read_bit_spec p s m c b R) as (s1 & E1 & R1 & _).
    { apply bits_at_cons; split; auto using bits_at_nil. }
    { lia. } { lia. }
    destruct (IH s1 _ R1 B2 ltac:(lia) ltac:(lia)) as (s2 & E2 & R2).
    exists s2. cbn [length read_bools]. rewrite E1. cbn [bind]. rewrite E2. cbn [bind].
    split; [|now rewrite Z.add_assoc]. do 2 f_equal. now destruct b.
Qed.

(** A written stream can be read from any position inside it. *)
Lemma holds_reader {m} s bs c :
  holds m s bs -> 0 <= c <= zlen bs -> reader (set_bit_cursor s c) (bs_binary s) c.
Proof.
  intros ([Hc Hk] & _ & C & _) H. split; [|split].
  - split; cbn [set_bit_cursor bs_cursor bs_binary]; auto. lia.
  - apply ext_refl.
  - reflexivity.
Qed.
Lemma holds_len {m} s bs : holds m s bs -> zlen bs <= 128 * zlen (bs_binary s).
Proof. intros ([Hc _] & _ & C & _). lia. Qed.
Lemma holds_bits_at {m} s a b c : holds m s (a ++ b ++ c) -> bits_at (bs_binary s) (zlen a) b.
Proof.
  intros (_ & _ & _ & B & _). apply bits_at_app in B. destruct B as [_ B].
  rewrite Z.add_0_l in B. apply bits_at_app in B. now destruct B.
Qed.

(** After writing anything, then [l], then anything, the middle reads back as [l] from
    its own position, and the cursor ends exactly behind it. *)
Theorem read_back_anywhere p pre l post :
  Forall (item_ok p) pre -> Forall (item_ok p) l -> Forall (item_ok p) post ->
  total_bits pre + total_bits l + total_bits post + 512 < 2 ^ 64 ->
  exists s s',
    write_items p bs_new (pre ++ l ++ post) = Ok s /\
    bs_len s = total_bits pre + total_bits l + total_bits post /\
    read_items p (set_bit_cursor s (total_bits pre)) l = Ok (s', map item_value l) /\
    bs_cursor s' = total_bits pre + total_bits l.
Proof.
  intros H1 H2 H3 Hb.
  assert (T : total_bits (pre ++ l ++ post) = total_bits pre + total_bits l + total_bits post).
  { unfold total_bits. rewrite !flat_map_app, !zlen_app. lia. }
  assert (0 <= total_bits pre) by apply zlen_nonneg.
  assert (0 <= total_bits l) by apply zlen_nonneg.
  assert (0 <= total_bits post) by apply zlen_nonneg.
  destruct (write_items_spec (m := 0) p bs_new [] (pre ++ l ++ post) holds_new) as (s & E & HS).
  { rewrite !Forall_app; auto. }
  { rewrite T. change (zlen (@nil bool)) with 0. lia. }
  cbn [app] in HS. rewrite !flat_map_app in HS.
  pose proof (holds_len _ _ HS) as HL. pose proof HS as (_ & _ & HC & _).
  rewrite !zlen_app in HL, HC.
  fold (total_bits pre) (total_bits l) (total_bits post) in HL, HC.
  destruct (read_items_spec p (set_bit_cursor s (total_bits pre)) (bs_binary s) (total_bits pre) l)
    as (s' & E' & R').
  - eapply holds_reader; [exact HS|]. rewrite !zlen_app.
    fold (total_bits pre) (total_bits l) (total_bits post). lia.
  - auto.
  - eapply holds_bits_at; eauto.
  - lia.
  - lia.
  - exists s, s'. repeat split; auto.
    + unfold bs_len. rewrite HC. rewrite uwrap_small; lia.
    + destruct R' as (_ & _ & R'). exact R'.
Qed.

(** The bits in the stream are exactly the items' bits. *)
Theorem stream_bits p l :
  Forall (item_ok p) l -> total_bits l + 512 < 2 ^ 64 ->
  exists s s',
    write_items p bs_new l = Ok s /\
    read_bools p (bs_seek_start s) (Z.to_nat (bs_len s)) = Ok (s', flat_map item_bits l).
Proof.
  intros Hl Hb. assert (0 <= total_bits l) by apply zlen_nonneg.
  destruct (write_items_spec (m := 0) p bs_new [] l holds_new Hl) as (s & E & H').
  { change (zlen (@nil bool)) with 0. lia. }
  cbn [app] in H'. pose proof (holds_len _ _ H') as HL. pose proof H' as (_ & _ & HC & HB & _).
  destruct (read_bools_spec p (bs_seek_start s) (bs_binary s) 0 (flat_map item_bits l))
    as (s' & E' & _).
  - eapply holds_reader; [exact H'|]. pose proof (zlen_nonneg (flat_map item_bits l)). lia.
  - exact HB.
  - lia.
  - unfold total_bits in *. lia.
  - exists s, s'; split; auto. unfold bs_len. rewrite HC.
    fold (total_bits l). rewrite uwrap_small by lia. unfold total_bits. now rewrite to_nat_zlen.
Qed.

(** ** Writing over memory that already has contents *)

Lemma typed_wf s : typed_stream s -> wf s.
Proof. intros [H1 H2]; split; auto. Qed.

Lemma clear_ahead_fresh s : typed_stream s -> clear_ahead s -> fresh s.
Proof.
  intros [_ Hc] H j Hj. unfold mchunk.
  destruct (Z.ltb_spec j (zlen (bs_binary s))).
  - specialize (H j ltac:(lia)). apply index_inv in H. destruct H as [_ H].
    now apply nth_error_nth with (d := 0) in H.
  - apply nth_overflow. unfold zlen in *. lia.
Qed.

Lemma typed_holds s : typed_stream s -> clear_ahead s ->
  exists bs, holds (zlen (bs_binary s)) s bs /\ zlen bs = bs_cursor s.
Proof.
  intros T F. pose proof (typed_wf _ T) as W. pose proof (clear_ahead_fresh _ T F) as FR.
  destruct T as [_ Hc].
  exists (map (fun i => mbit (bs_binary s) (Z.of_nat i)) (seq 0 (Z.to_nat (bs_cursor s)))).
  assert (L : zlen (map (fun i => mbit (bs_binary s) (Z.of_nat i)) (seq 0 (Z.to_nat (bs_cursor s))))
              = bs_cursor s).
  { unfold zlen. rewrite map_length, seq_length. lia. }
  split; auto. split; auto. split; auto. split; auto. split; [|lia].
  intros j Hj. rewrite L in Hj. rewrite Z.add_0_l.
  rewrite nth_indep with (d' := mbit (bs_binary s) (Z.of_nat 0))
    by (rewrite map_length, seq_length; lia).
  rewrite map_nth with (f := fun i => mbit (bs_binary s) (Z.of_nat i)).
  rewrite seq_nth by lia. f_equal. lia.
Qed.

Theorem write_ahead_clear p s l :
  typed_stream s -> clear_ahead s -> Forall (item_ok p) l ->
  bs_cursor s + total_bits l + 512 < 2 ^ 64 ->
  exists s1 s2,
    write_items p s l = Ok s1 /\
    read_items p (set_bit_cursor s1 (bs_cursor s)) l = Ok (s2, map item_value l).
Proof.
  intros T F Hl Hb. destruct (typed_holds s T F) as (bs & Hs & Hlen).
  assert (0 <= total_bits l) by apply zlen_nonneg.
  destruct (write_items_spec p s bs l Hs Hl ltac:(lia)) as (s1 & E1 & H1).
  pose proof (holds_len _ _ H1) as HL. rewrite zlen_app in HL.
  destruct T as [_ Hc].
  destruct (read_items_spec p (set_bit_cursor s1 (bs_cursor s)) (bs_binary s1) (bs_cursor s) l)
    as (s2 & E2 & _).
  - eapply holds_reader; eauto. rewrite zlen_app. unfold total_bits in *. lia.
  - auto.
  - rewrite <- Hlen. rewrite <- (app_nil_r (flat_map item_bits l)) in H1.
    eapply holds_bits_at; eauto.
  - unfold total_bits in *. lia.
  - unfold total_bits in *. lia.
  - eauto.
Qed.

(** The exact law of one overwrite. *)
Theorem overwrite_law p s v n :
  typed_stream s -> 0 <= v < 2 ^ 128 -> 0 <= n <= 128 -> bs_cursor s + 512 < 2 ^ 64 ->
  let room := 128 - bs_cursor s mod 128 in
  exists s0 old s1 s2,
    read_bits p s n = Ok (s0, old) /\
    write_bits p s v n = Ok s1 /\
    read_bits p (set_bit_cursor s1 (bs_cursor s)) n
      = Ok (s2, Z.lor (v mod 2 ^ n) (old / 2 ^ room * 2 ^ room)).
Proof.
  intros T Hv Hn Hb room. pose proof (typed_wf _ T) as W. destruct T as [_ Hc].
  destruct (peek_bits_spec p s n W Hn ltac:(lia))
    as (s0 & old & E0 & W0 & C0 & K0 & X0 & L0 & V0 & B0).
  destruct (write_bits_general p s v n W Hn Hv ltac:(lia))
    as (s1 & E1 & C1 & K1 & W1 & L1 & J1 & J2 & B1).
  assert (W1' : wf (set_bit_cursor s1 (bs_cursor s))).
  { destruct W1 as [Wa Wb]. split; auto. cbn [set_bit_cursor bs_cursor bs_binary]. lia. }
  destruct (peek_bits_spec p _ n W1' Hn ltac:(cbn [set_bit_cursor bs_cursor]; lia))
    as (s2 & got & E2 & W2 & C2 & K2 & X2 & L2 & V2 & B2).
  assert (O0 : exists t, offset_bit_cursor p s0 n = Ok t).
  { rewrite offset_ok by lia. eauto. }
  assert (O2 : exists t, offset_bit_cursor p s2 n = Ok t).
  { cbn [set_bit_cursor bs_cursor] in C2. rewrite offset_ok by lia. eauto. }
  destruct O0 as [t0 O0]. destruct O2 as [t2 O2].
  exists t0, old, s1, t2. unfold read_bits. rewrite E0, E2. cbn [bind]. rewrite O0, O2.
  cbn [bind]. repeat split; auto. do 2 f_equal.
  assert (Hroom : 0 < room <= 128) by (subst room; pose proof (Z.mod_pos_bound (bs_cursor s) 128); lia).
  apply Z.bits_inj'. intros i Hi.
  rewrite Z.lor_spec. rewrite <- Z.shiftr_div_pow2, <- Z.shiftl_mul_pow2 by lia.
  rewrite Z.shiftl_spec by lia.
  destruct (Z.ltb_spec i n).
  - rewrite B2 by lia. cbn [set_bit_cursor bs_cursor bs_binary].
    rewrite B1 by lia. destruct (Z.ltb_spec (bs_cursor s + i) (bs_cursor s)); [lia|].
    replace (bs_cursor s + i - bs_cursor s) with i by lia.
    rewrite Z.mod_pow2_bits_low by lia. f_equal.
    pose proof (Z.div_mod (bs_cursor s) 128 ltac:(lia)) as Edm.
    pose proof (Z.mod_pos_bound (bs_cursor s) 128 ltac:(lia)) as Hbm.
    destruct (Z.ltb_spec i room).
    + rewrite (Z.testbit_neg_r _ (i - room)) by lia.
      replace ((bs_cursor s + i) / 128) with (bs_cursor s / 128).
      * rewrite Z.eqb_refl. reflexivity.
      * apply Z.div_unique with (r := bs_cursor s mod 128 + i); lia.
    + rewrite Z.shiftr_spec by lia. replace (i - room + room) with i by lia.
      rewrite B0 by lia.
      destruct (Z.eqb_spec ((bs_cursor s + i) / 128) (bs_cursor s / 128)) as [E|E]; auto.
      exfalso.
      assert (bs_cursor s / 128 + 1 <= (bs_cursor s + i) / 128).
      { apply Z.div_le_lower_bound; lia. }
      lia.
  - rewrite (Z.mod_pow2_bits_high v n i) by lia.
    assert (Hhi : forall w j, 0 <= w < 2 ^ n -> n <= j -> Z.testbit w j = false).
    { intros w j Hw Hj. rewrite <- (Z.mod_small w (2 ^ n)) by lia. apply Z.mod_pow2_bits_high; lia. }
    rewrite (Hhi got i V2) by lia.
    destruct (Z.ltb_spec i room).
    + now rewrite Z.testbit_neg_r by lia.
    + rewrite Z.shiftr_spec by lia. replace (i - room + room) with i by lia.
      now rewrite (Hhi old i V0) by lia.
Qed.

(** [zero] makes a used stream reusable. *)
Lemma zero_clear s c : typed_stream s -> 0 <= c <= bs_cursor s ->
  typed_stream (set_bit_cursor (bs_zero s) c) /\ clear_ahead (set_bit_cursor (bs_zero s) c).
Proof.
  intros [H1 H2] Hc. split.
  - split; cbn [set_bit_cursor bs_zero bs_cursor bs_binary].
    + apply Forall_forall. intros x Hx. apply in_map_iff in Hx. destruct Hx as (? & <- & _).
      rewrite pow2_128. lia.
    + rewrite zlen_map. lia.
  - intros j Hj. cbn [set_bit_cursor bs_zero bs_cursor bs_binary] in *.
    rewrite zlen_map in Hj.
    assert (0 <= c / 128) by (apply Z.div_pos; lia).
    rewrite (index_ok _ j 0) by (rewrite zlen_map; lia).
    f_equal. set (f := fun _ : Z => 0). change 0 with (f 0) at 1. apply map_nth.
Qed.

(** Prefix freeness. *)
Lemma rice_prefix e v w x y :
  0 <= e -> rice e v ++ x = rice e w ++ y -> rice e v = rice e w /\ x = y /\ v = w.
Proof.
  intros He. unfold rice. cbn [app]. intros H. injection H as Hs H.
  rewrite <- !app_assoc in H. cbn [app] in H.
  assert (Hv : 0 <= Z.abs v / 2 ^ e) by (apply Z.div_pos; [lia|apply Z.pow_pos_nonneg; lia]).
  assert (Hw : 0 <= Z.abs w / 2 ^ e) by (apply Z.div_pos; [lia|apply Z.pow_pos_nonneg; lia]).
  assert (Q : forall a b r t, repeat true a ++ false :: r = repeat true b ++ false :: t ->
              a = b /\ r = t).
  { induction a; destruct b; cbn [repeat app]; intros r t E; try discriminate.
    - injection E; auto.
    - injection E as E. apply IHa in E. destruct E; auto. }
  apply Q in H. destruct H as [HQ H].
  assert (HQ' : Z.abs v / 2 ^ e = Z.abs w / 2 ^ e) by lia.
  assert (HL : forall n a b (r t : list bool), bits_le n a ++ r = bits_le n b ++ t ->
               bits_le n a = bits_le n b /\ r = t).
  { intros n a b r t E.
    assert (H1 : length (bits_le n a) = length (bits_le n b)) by now rewrite !length_bits_le.
    clear -H1 E. revert r t E H1. generalize (bits_le n b). induction (bits_le n a) as [|u l IH];
      intros [|u' l'] r t E HL; try discriminate; cbn [app] in E; auto.
    injection E as -> E. injection HL as HL. destruct (IH l' r t E HL) as [-> ->]; auto. }
  apply HL in H. destruct H as [HB HX].
  assert (HR : Z.abs v mod 2 ^ e = Z.abs w mod 2 ^ e).
  { pose proof (f_equal bits_val HB) as E. rewrite !bits_val_le in E.
    rewrite Z2Nat.id in E by lia. rewrite !Z.mod_mod in E by (apply Z.pow_nonzero; lia). exact E. }
  assert (HA : Z.abs v = Z.abs w).
  { rewrite (Z.div_mod (Z.abs v) (2 ^ e)), (Z.div_mod (Z.abs w) (2 ^ e)) by (apply Z.pow_nonzero; lia).
    now rewrite HQ', HR. }
  rewrite Hs, HQ, HB. repeat split; auto.
  destruct (Z.ltb_spec v 0), (Z.ltb_spec w 0); try discriminate; lia.
Qed.

Theorem code_shape p e v :
  0 <= e <= 15 -> (p = Debug -> e <= 14) -> -32767 <= v <= 32767 ->
  exists s s',
    write_compressed p bs_new e v = Ok s /\
    bs_len s = Z.abs v / 2 ^ e + e + 2 /\
    read_bools p (bs_seek_start s) (Z.to_nat (bs_len s)) =
      Ok (s', (v <? 0) :: repeat true (Z.to_nat (Z.abs v / 2 ^ e)) ++ false ::
              bits_le (Z.to_nat e) (Z.abs v mod 2 ^ e)).
Proof.
  intros He Hp Hv.
  assert (L : total_bits [IRice e v] = Z.abs v / 2 ^ e + e + 2).
  { unfold total_bits. cbn [flat_map item_bits]. rewrite app_nil_r. apply zlen_rice; lia. }
  assert (0 <= Z.abs v / 2 ^ e <= 32767).
  { split; [apply Z.div_pos; [lia|apply Z.pow_pos_nonneg; lia]|].
    apply Z.div_le_upper_bound; [apply Z.pow_pos_nonneg; lia|].
    assert (0 < 2 ^ e) by (apply Z.pow_pos_nonneg; lia). nia. }
  assert (P64 : 2 ^ 64 = 18446744073709551616) by reflexivity.
  assert (OK : Forall (item_ok p) [IRice e v]) by (constructor; [cbn; auto|constructor]).
  destruct (stream_bits p [IRice e v] OK) as (s & s' & E1 & E2).
  { lia. }
  destruct (read_back_anywhere p [] [IRice e v] []) as (t & t' & F1 & F2 & _); auto.
  { change (total_bits []) with 0. lia. }
  change ([] ++ [IRice e v] ++ []) with [IRice e v] in F1. rewrite E1 in F1.
  injection F1 as <-. change (total_bits []) with 0 in F2.
  unfold write_items in E1. cbn [foldM write_item] in E1.
  destruct (write_compressed p bs_new e v) as [s1| |]; try discriminate.
  cbn [bind] in E1. injection E1 as ->.
  exists s, s'. split; [reflexivity|]. split; [lia|].
  rewrite E2. do 2 f_equal. cbn [flat_map item_bits]. apply app_nil_r.
Qed.

Theorem capped_anywhere p pre k v post :
  Forall (item_ok p) pre -> Forall (item_ok p) post ->
  0 <= k <= 14 -> -32767 <= v <= 32767 ->
  total_bits pre + total_bits [ICapped k v] + total_bits post + 512 < 2 ^ 64 ->
  exists s s' r,
    write_items p bs_new (pre ++ [ICapped k v] ++ post) = Ok s /\
    read_compressed_capped p (set_bit_cursor s (total_bits pre)) (2 ^ k) = Ok (s', r) /\
    bs_cursor s' = total_bits pre + total_bits [ICapped k v] /\
    (CAPPED_MIN <= v <= CAPPED_MAX -> r = v) /\
    (r = v \/ r = Z.max CAPPED_MIN (Z.min CAPPED_MAX v)).
Proof.
  intros H1 H2 Hk Hv HB.
  destruct (read_back_anywhere p pre [ICapped k v] post) as (s & s' & E1 & E2 & E3 & E4); auto.
  { constructor; [cbn; auto|constructor]. }
  cbn [read_items read_item] in E3.
  destruct (read_compressed_capped p (set_bit_cursor s (total_bits pre)) (2 ^ k)) as [[t r]| |] eqn:ER;
    try discriminate.
  cbn [bind map] in E3. injection E3 as -> ->.
  exists s, s', (item_value (ICapped k v)).
  split; [exact E1|]. split; [exact ER|]. split; [exact E4|]. cbn [item_value]. split.
  - change CAPPED_MIN with (-8192). change CAPPED_MAX with 8191. intros Hr.
    destruct (escapes k v); auto. unfold capped_clamp. clear -Hr. lia.
  - change CAPPED_MIN with (-8192). change CAPPED_MAX with 8191.
    destruct (escapes k v); auto.
Qed.

Theorem zero_reuse p old l :
  Forall (item_ok p) old -> Forall (item_ok p) l ->
  total_bits old + 512 < 2 ^ 64 -> total_bits l + 512 < 2 ^ 64 ->
  exists s s1 s2,
    write_items p bs_new old = Ok s /\
    write_items p (bs_seek_start (bs_zero s)) l = Ok s1 /\
    read_items p (bs_seek_start s1) l = Ok (s2, map item_value l).
Proof.
  intros H1 H2 B1 B2. assert (0 <= total_bits old) by apply zlen_nonneg.
  destruct (write_items_spec (m := 0) p bs_new [] old holds_new H1) as (s & E & HS).
  { change (zlen (@nil bool)) with 0. lia. }
  destruct HS as ([Wc Wm] & _ & _ & _).
  destruct (zero_clear s 0 (conj Wm Wc) ltac:(lia)) as [T F].
  destruct (write_ahead_clear p (bs_seek_start (bs_zero s)) l T F H2) as (s1 & s2 & E1 & E2).
  { cbn [bs_seek_start set_bit_cursor bs_cursor]. lia. }
  exists s, s1, s2. auto.
Qed.
