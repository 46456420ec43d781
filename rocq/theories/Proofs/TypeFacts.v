(** * Every session keeps all stored values within their Rust types *)
From Coq Require Import ZArith List Bool Lia.
From Verif Require Import Model.Base Model.F32 Model.Sample Model.BitStream Model.NibbleList Model.BitVec
  Model.CircularStack Model.Frame Model.Adhoc Spec.Recording Spec.Frames Spec.Files Proofs.BaseFacts Proofs.FrameFacts Proofs.AnyState.
Import ListNotations.
Open Scope Z_scope.

(** ** Machine integers *)
Lemma uchk_fits p w x y : 0 <= w -> uchk p w x = Ok y -> in_range_u w y.
Proof.
  intros Hw. unfold uchk, in_u. destruct (_ && _) eqn:B.
  - intros E. injection E as <-. apply andb_prop in B. split; lia.
  - destruct p; [discriminate|]. intros E. injection E as <-. now apply uwrap_range.
Qed.
Lemma uwrap_fits w x : 0 <= w -> in_range_u w (uwrap w x).
Proof. intros. now apply uwrap_range. Qed.
Lemma ushl_fits p w x s y : 0 <= w -> ushl p w x s = Ok y -> in_range_u w y.
Proof. intros Hw. unfold ushl. destruct (_ && _); [|destruct p; [discriminate|]]; intros E; injection E as <-; now apply uwrap_fits. Qed.
Lemma lor_fits w a b : 0 <= w -> in_range_u w a -> in_range_u w b -> in_range_u w (Z.lor a b).
Proof.
  intros Hw [A1 A2] [B1 B2]. split; [apply Z.lor_nonneg; auto|].
  assert (N : 0 <= Z.lor a b) by (apply Z.lor_nonneg; auto).
  destruct (Z.eq_dec (Z.lor a b) 0) as [->|Hne]; [lia|]. apply Z.log2_lt_pow2; [lia|].
  rewrite Z.log2_lor by auto.
  destruct (Z.eq_dec a 0) as [->|]; destruct (Z.eq_dec b 0) as [->|].
  - cbn in Hne. lia.
  - change (Z.log2 0) with 0. rewrite Z.max_r by apply Z.log2_nonneg. apply Z.log2_lt_pow2; lia.
  - change (Z.log2 0) with 0. rewrite Z.max_l by apply Z.log2_nonneg. apply Z.log2_lt_pow2; lia.
  - apply Z.max_lub_lt; apply Z.log2_lt_pow2; lia.
Qed.
Lemma land_fits w a b : 0 <= w -> in_range_u w a -> in_range_u w (Z.land a b).
Proof.
  intros Hw [A1 A2]. assert (N : 0 <= Z.land a b) by (apply Z.land_nonneg; auto). split; [exact N|].
  apply Z.le_lt_trans with a; auto. clear -A1 N.
  assert (E : a - Z.land a b = Z.ldiff a (Z.land a b)).
  { apply Z.sub_nocarry_ldiff. apply Z.bits_inj'. intros n Hn. rewrite Z.ldiff_spec, Z.land_spec, Z.bits_0.
    destruct (Z.testbit a n), (Z.testbit b n); reflexivity. }
  assert (0 <= Z.ldiff a (Z.land a b)) by (apply Z.ldiff_nonneg; auto). lia.
Qed.
Lemma shiftr_fits w a s : 0 <= w -> 0 <= s -> in_range_u w a -> in_range_u w (Z.shiftr a s).
Proof.
  intros Hw Hs [A1 A2]. rewrite Z.shiftr_div_pow2 by auto. assert (0 < 2 ^ s) by (apply Z.pow_pos_nonneg; lia).
  split; [apply Z.div_pos; lia|]. apply Z.le_lt_trans with a; auto. apply Z.div_le_upper_bound; nia.
Qed.
Lemma Forall_app1 {A} (P : A -> Prop) l a : Forall P l -> P a -> Forall P (l ++ [a]).
Proof. intros. apply Forall_app. auto. Qed.

(** ** The bit stream *)
Definition stream_fits (s : bitstream) : Prop :=
  Forall (in_range_u 128) (bs_binary s) /\ in_range_u 128 (bs_cursor s) /\ in_range_u 128 (bs_capacity s).
Lemma zero_fits w : 0 <= w -> in_range_u w 0.
Proof. intros. split; [lia|]. apply Z.pow_pos_nonneg; lia. Qed.
Lemma alloc_fits s i : stream_fits s -> stream_fits (allocate_if_needed s i).
Proof.
  intros (H1 & H2 & H3). unfold allocate_if_needed. destruct (_ <=? _); [|split; auto].
  split; [|split; auto]. apply Forall_app1; auto. now apply zero_fits.
Qed.
Lemma offset_fits p s n s' : stream_fits s -> offset_bit_cursor p s n = Ok s' -> stream_fits s'.
Proof.
  intros (H1 & H2 & H3) H. unfold offset_bit_cursor in H. inv_bind H. injection H as <-.
  assert (in_range_u 128 (uwrap 128 a)) by now apply uwrap_fits.
  split; [exact H1|]. split; cbn [bs_cursor bs_capacity]; auto. unfold in_range_u in *. lia.
Qed.
Lemma set_binary_fits s b : stream_fits s -> Forall (in_range_u 128) b -> stream_fits (set_binary s b).
Proof. intros (H1 & H2 & H3) H. split; auto. Qed.
Lemma store_fits {A} (P : A -> Prop) l i a l' : Forall P l -> P a -> store l i a = Ok l' -> Forall P l'.
Proof. apply Forall_store. Qed.
Lemma shr_fits p w x s y : 0 < w -> 0 <= s -> in_range_u w x -> shr p w x s = Ok y -> in_range_u w y.
Proof.
  intros Hw Hs Hx. unfold shr. destruct (_ && _); [|destruct p; [discriminate|]]; intros E; injection E as <-.
  - apply shiftr_fits; auto; lia.
  - apply shiftr_fits; auto; [lia|]. apply Z.mod_pos_bound. lia.
Qed.
Lemma write_bits_fits p s v n s' : in_range_u 128 v -> stream_fits s -> write_bits p s v n = Ok s' -> stream_fits s'.
Proof.
  intros Hv Hs H. unfold write_bits in H. inv_bind H. inv_bind H. inv_bind H. inv_bind H.
  set (s2 := allocate_if_needed _ a) in *. assert (H2 : stream_fits s2) by (now apply alloc_fits, alloc_fits). clearbody s2.
  assert (H3 : stream_fits (set_binary s2 a1)).
  { apply set_binary_fits; auto. destruct H2 as (B & _). pose proof (Forall_index _ _ _ _ B Ha0).
    eapply store_fits; [exact B| |exact Ha1]. apply lor_fits; [lia|apply land_fits; auto; lia|apply uwrap_fits; lia]. }
  eapply offset_fits; [|exact H]. destruct (_ <? _); [|injection Ha2 as <-; exact H3].
  do 3 inv_bind Ha2. do 2 inv_bind Ha2. injection Ha2 as <-. apply set_binary_fits; auto.
  destruct H3 as (B & _). pose proof (Forall_index _ _ _ _ B Ha3). eapply store_fits; [exact B| |exact Ha7].
  apply lor_fits; [lia|apply land_fits; auto; lia|].
  eapply shr_fits; [lia| |exact Hv|exact Ha6]. unfold CHUNK_SIZE_IN_BITS, chunk_bit_index.
  pose proof (Z.mod_pos_bound (bs_cursor s) 128). lia.
Qed.
Lemma write_bit_fits p s v s' : stream_fits s -> write_bit p s v = Ok s' -> stream_fits s'.
Proof.
  intros Hs H. unfold write_bit in H. inv_bind H. inv_bind H.
  set (s2 := allocate_if_needed _ _) in *. assert (H2 : stream_fits s2) by (now apply alloc_fits). clearbody s2.
  eapply offset_fits; [|exact H]. apply set_binary_fits; auto. destruct H2 as (B & _). pose proof (Forall_index _ _ _ _ B Ha).
  eapply store_fits; [exact B| |exact Ha0]. apply lor_fits; [lia|apply land_fits; auto; lia|apply uwrap_fits; lia].
Qed.
Lemma max128_fits : in_range_u 128 (2 ^ 128 - 1).
Proof. split; [apply Z.lt_le_pred; apply Z.pow_pos_nonneg; lia|lia]. Qed.
Lemma write_unary_fits p fuel s q s' : stream_fits s -> write_unary p fuel s q = Ok s' -> stream_fits s'.
Proof.
  revert s q; induction fuel as [|fuel IH]; intros s q Hs H; cbn [write_unary] in H; [discriminate|].
  destruct (0 <? q); [|injection H as <-; auto]. destruct (128 <? q).
  - inv_bind H. eapply IH; [|exact H]. eapply write_bits_fits; [apply max128_fits|exact Hs|exact Ha].
  - eapply write_bits_fits; [apply max128_fits|exact Hs|exact H].
Qed.
Lemma fits_mono w w' x : w <= w' -> in_range_u w x -> in_range_u w' x.
Proof.
  intros H [A B]. split; auto. destruct (Z.neg_nonneg_cases w) as [N|N].
  - rewrite Z.pow_neg_r in B by auto. lia.
  - assert (2 ^ w <= 2 ^ w') by (apply Z.pow_le_mono_r; lia). lia.
Qed.
Lemma write_compressed_fits p s e v s' : stream_fits s -> write_compressed p s e v = Ok s' -> stream_fits s'.
Proof.
  intros Hs H. unfold write_compressed in H. do 5 inv_bind H. do 3 inv_bind H.
  eapply write_bits_fits; [|eapply write_bit_fits; [eapply write_unary_fits; [eapply write_bit_fits; [exact Hs|exact Ha4]|exact Ha5]|exact Ha6]|exact H].
  apply (fits_mono 32); [lia|]. apply uwrap_fits. lia.
Qed.
Lemma peek_fits p s n s' v : stream_fits s -> peek_bits p s n = Ok (s', v) -> stream_fits s'.
Proof.
  intros Hs H. unfold peek_bits in H. inv_bind H.
  set (s2 := allocate_if_needed _ a) in *. assert (H2 : stream_fits s2) by (now apply alloc_fits, alloc_fits). clearbody s2.
  destruct (_ <=? _); [injection H as <- _; auto|]. do 2 inv_bind H. injection H as <- _. exact H2.
Qed.
Lemma read_bit_fits p s s' v : stream_fits s -> read_bit p s = Ok (s', v) -> stream_fits s'.
Proof.
  intros Hs H. unfold read_bit in H. destruct (_ <=? _); [injection H as <- _; auto|].
  do 2 inv_bind H. injection H as <- _. eapply offset_fits; eauto.
Qed.
Lemma read_bits_fits p s n s' v : stream_fits s -> read_bits p s n = Ok (s', v) -> stream_fits s'.
Proof.
  intros Hs H. unfold read_bits in H. inv_bind H. destruct a. inv_bind H. injection H as <- _.
  eapply offset_fits; [|exact Ha0]. eapply peek_fits; eauto.
Qed.
Lemma skip_ones_fits p fuel s q s' q' v : stream_fits s -> skip_ones p fuel s q = Ok (s', q', v) -> stream_fits s'.
Proof.
  revert s q; induction fuel as [|fuel IH]; intros s q Hs H; cbn [skip_ones] in H; [discriminate|].
  inv_bind H. destruct a as [s1 chunk]. apply peek_fits in Ha; auto. destruct (_ =? _).
  - do 2 inv_bind H. eapply IH; [|exact H]. eapply offset_fits; eauto.
  - injection H as <- _ _. exact Ha.
Qed.
Lemma read_compressed_fits p s e s' v : stream_fits s -> read_compressed p s e = Ok (s', v) -> stream_fits s'.
Proof.
  intros Hs H. unfold read_compressed in H. inv_bind H. destruct a as [s1 sb]. inv_bind H. inv_bind H. destruct a0 as [[s2 q] ck].
  do 2 inv_bind H. inv_bind H. destruct a2 as [s3 r]. do 7 inv_bind H. injection H as <- _.
  eapply read_bits_fits; [|exact Ha4]. eapply offset_fits; [|exact Ha2]. eapply skip_ones_fits; [|exact Ha1]. eapply read_bit_fits; eauto.
Qed.

(** ** Histories *)
Definition i16v (x : Z) : Prop := -32768 <= x <= 32767.
Definition stack_fits (h : cstack Z) : Prop := Forall i16v (cs_data h) /\ hist_any h.
Lemma push_fits h x : stack_fits h -> i16v x -> stack_fits (cs_push h x).
Proof. intros [H HA] Hx. split; [|now apply hist_any_push]. unfold cs_push. cbn [cs_data]. now apply Forall_replace. Qed.
Lemma prev_fits h n : stack_fits h -> i16v (cs_prev 0 h n).
Proof.
  intros [H _]. unfold cs_prev. set (m := Z.to_nat _). clearbody m. destruct (Nat.lt_ge_cases m (length (cs_data h))).
  - rewrite Forall_forall in H. apply H. now apply nth_In.
  - rewrite nth_overflow by auto. unfold i16v. lia.
Qed.
Lemma last3_fits h : stack_fits h -> history_fits (last3 h).
Proof. intros H. repeat split; now apply prev_fits. Qed.
Lemma new_stack_fits : stack_fits (cs_new 0).
Proof. split; [unfold cs_new; cbn; repeat constructor; unfold i16v; lia|]. apply hist_any_new. Qed.

(** ** Frame headers *)
Record table_fits (h : frame_headers) : Prop := {
  tf_exps : Forall (in_range_u 8) (nl_data (fhs_exps h));
  tf_count : in_range_u 32 (nl_count (fhs_exps h));
  tf_inits : Forall (in_range_u 64) (bv_binary (fhs_inits h));
  tf_bits : in_range_u 128 (bv_cursor (fhs_inits h));
  tf_sizes : Forall (in_range_u 16) (fhs_sizes h);
  tf_cursors : Forall (in_range_u 64) (fhs_cursors h);
  tf_hists : Forall history_fits (fhs_hists h);
  tf_cursor : in_range_u 32 (fhs_cursor h);
  (* the parallel lists have the same length, the exponent list counts modulo 2^32 *)
  tf_len1 : zlen (fhs_cursors h) = zlen (fhs_sizes h);
  tf_len2 : zlen (fhs_hists h) = zlen (fhs_sizes h);
  tf_len3 : nl_count (fhs_exps h) = uwrap 32 (zlen (fhs_sizes h)) }.
Lemma set_cursor_fits h n : table_fits h -> in_range_u 32 n -> table_fits (fhs_set_cursor h n).
Proof. intros [] H. constructor; auto. Qed.
Lemma nl_push_fits p n v n' : Forall (in_range_u 8) (nl_data n) -> nl_push p n v = Ok n' ->
  Forall (in_range_u 8) (nl_data n') /\ in_range_u 32 (nl_count n') /\ nl_count n' = uwrap 32 (nl_count n + 1).
Proof.
  intros Hd H. unfold nl_push in H. do 3 inv_bind H. injection H as <-. cbn [nl_data nl_count].
  set (d := if _ <=? _ then _ else _) in *.
  assert (Fd : Forall (in_range_u 8) d).
  { subst d. destruct (_ <=? _); auto. apply Forall_app1; auto. now apply zero_fits. }
  pose proof (Forall_index _ _ _ _ Fd Ha). split; [|split].
  - eapply store_fits; [exact Fd| |exact Ha0]. apply lor_fits; auto; [lia|apply uwrap_fits; lia].
  - eapply uchk_fits; [|exact Ha1]. lia.
  - unfold uchk, in_u in Ha1. destruct (_ && _) eqn:B.
    + injection Ha1 as <-. apply andb_prop in B. rewrite uwrap_small; lia.
    + destruct p; [discriminate|]. now injection Ha1 as <-.
Qed.
Lemma clear_fits c i : in_range_u 64 c -> in_range_u 64 (clear_bit64 c i).
Proof. intros. apply land_fits; auto. lia. Qed.
Lemma onebit_fits b i : 0 <= i < 64 -> in_range_u 64 (Z.shiftl (Z.land b 1) i).
Proof.
  intros Hi. rewrite Z.shiftl_mul_pow2 by lia. change 1 with (Z.ones 1). rewrite Z.land_ones by lia. change (2 ^ 1) with 2.
  pose proof (Z.mod_pos_bound b 2). assert (2 ^ i < 2 ^ 64) by (apply Z.pow_lt_mono_r; lia).
  assert (0 < 2 ^ i) by (apply Z.pow_pos_nonneg; lia). split; nia.
Qed.
Lemma bv_push_fits p v b v' : Forall (in_range_u 64) (bv_binary v) -> bv_push p v b = Ok v' ->
  Forall (in_range_u 64) (bv_binary v') /\ in_range_u 128 (bv_cursor v').
Proof.
  intros Hd H. unfold bv_push in H. do 2 inv_bind H.
  set (d := if _ <=? _ then _ else _) in *.
  assert (Fd : Forall (in_range_u 64) d).
  { subst d. destruct (_ <=? _); auto. apply Forall_app1; auto. now apply zero_fits. }
  pose proof (Forall_index _ _ _ _ Fd Ha). unfold bv_offset_cursor in H. inv_bind H. injection H as <-. cbn [bv_binary bv_cursor].
  split; [|apply uwrap_fits; lia]. eapply store_fits; [exact Fd| |exact Ha0]. apply lor_fits; [lia|now apply clear_fits|].
  apply onebit_fits. apply Z.mod_pos_bound. lia.
Qed.
Lemma nl_set_fits n i v : Forall (in_range_u 8) (nl_data n) ->
  Forall (in_range_u 8) (nl_data (nl_set n i v)) /\ nl_count (nl_set n i v) = nl_count n.
Proof.
  intros Hd. unfold nl_set. destruct (Z.leb_spec (zlen (nl_data n)) (i / 2)); auto. cbn [nl_data nl_count]. split; auto.
  apply Forall_replace; auto. apply lor_fits; [lia| |apply uwrap_fits; lia]. apply land_fits; [lia|].
  set (m := Z.to_nat _). clearbody m. destruct (Nat.lt_ge_cases m (length (nl_data n))).
  - rewrite Forall_forall in Hd. apply Hd. now apply nth_In.
  - rewrite nth_overflow by auto. now apply zero_fits.
Qed.
Lemma bv_set_fits v i b : Forall (in_range_u 64) (bv_binary v) ->
  Forall (in_range_u 64) (bv_binary (bv_set v i b)) /\ bv_cursor (bv_set v i b) = bv_cursor v.
Proof.
  intros Hd. unfold bv_set. destruct (_ <=? _); auto. cbn [bv_binary bv_cursor]. split; auto.
  apply Forall_replace; auto. apply lor_fits; [lia| |apply onebit_fits; apply Z.mod_pos_bound; lia]. apply clear_fits.
  set (m := Z.to_nat _). clearbody m. destruct (Nat.lt_ge_cases m (length (bv_binary v))).
  - rewrite Forall_forall in Hd. apply Hd. now apply nth_In.
  - rewrite nth_overflow by auto. now apply zero_fits.
Qed.
Lemma fhs_push_fits p f h f' : table_fits f -> in_range_u 16 (fh_size h) -> history_fits (fh_history h) ->
  fhs_push p f h = Ok f' -> table_fits f'.
Proof.
  intros [T1 T2 T3 T4 T5 T6 T7 T8 L1 L2 L3] Hs Hh H. unfold fhs_push in H. inv_bind H. inv_bind H. injection H as <-.
  apply uchk_fits in Ha0; [|lia]. apply set_cursor_fits; auto. clear Ha0 a0. destruct (_ <=? _).
  - do 2 inv_bind Ha. injection Ha as <-. apply nl_push_fits in Ha0; auto. apply bv_push_fits in Ha1; auto.
    destruct Ha0 as (A1 & A2 & A3), Ha1 as (B1 & B2).
    constructor; cbn [fhs_exps fhs_inits fhs_sizes fhs_cursors fhs_hists fhs_cursor]; auto.
    + apply Forall_app1; auto.
    + apply Forall_app1; auto. apply uwrap_fits; lia.
    + apply Forall_app1; auto.
    + rewrite !zlen_app, L1. reflexivity.
    + rewrite !zlen_app, L2. reflexivity.
    + rewrite A3, L3, zlen_app. unfold uwrap. change (zlen [fh_size h]) with 1. now rewrite Zplus_mod_idemp_l.
  - do 3 inv_bind Ha. injection Ha as <-.
    destruct (nl_set_fits (fhs_exps f) (fhs_cursor f) (fh_exponent h) T1) as [A1 A2].
    destruct (bv_set_fits (fhs_inits f) (fhs_cursor f) (if fh_is_init h then 1 else 0) T3) as [B1 B2].
    constructor; cbn [fhs_exps fhs_inits fhs_sizes fhs_cursors fhs_hists fhs_cursor]; auto; rewrite ?A2, ?B2; auto.
    + eapply store_fits; [exact T5|exact Hs|exact Ha0].
    + eapply store_fits; [exact T6|apply uwrap_fits; lia|exact Ha1].
    + eapply store_fits; [exact T7|exact Hh|exact Ha2].
    + rewrite (zlen_store _ _ _ _ Ha0), (zlen_store _ _ _ _ Ha1). auto.
    + rewrite (zlen_store _ _ _ _ Ha0), (zlen_store _ _ _ _ Ha2). auto.
    + rewrite (zlen_store _ _ _ _ Ha0). auto.
Qed.
Lemma fhs_next_fits p f f' oh : table_fits f -> fhs_next p f = Ok (f', oh) -> table_fits f'.
Proof.
  intros T H. unfold fhs_next in H. destruct (_ <? _); [|injection H as <- _; auto].
  do 4 inv_bind H. injection H as <- _. apply set_cursor_fits; auto. eapply uchk_fits; [|eassumption]. lia.
Qed.

(** ** Frames *)
Lemma encode_raw_fits p s h pcm ks s' h' : stream_fits s -> stack_fits h -> encode_raw p s h pcm ks = Ok (s', h') ->
  stream_fits s' /\ stack_fits h'.
Proof.
  revert s h; induction ks as [|k ks IH]; intros s h Hs Hh H; cbn [encode_raw] in H; [injection H as <- <-; auto|].
  do 2 inv_bind H. eapply IH; [| |exact H].
  - eapply write_bits_fits; [|exact Hs|exact Ha0]. apply (fits_mono 16); [lia|]. apply uwrap_fits. lia.
  - apply push_fits; auto. apply trunc_range.
Qed.
Lemma encode_samples_fits p s h e l s' h' : stream_fits s -> stack_fits h -> encode_samples p s h e l = Ok (s', h') ->
  stream_fits s' /\ stack_fits h'.
Proof.
  revert s h; induction l as [|x l IH]; intros s h Hs Hh H; cbn [encode_samples] in H; [injection H as <- <-; auto|].
  inv_bind H. eapply IH; [| |exact H].
  - eapply write_compressed_fits; eauto.
  - apply push_fits; auto. apply trunc_range.
Qed.
Definition chan_fits (fc : frame_codec) : Prop := stack_fits (fc_history fc).
Lemma encode_frame_fits p c s hs pcm c' s' hs' : chan_fits c -> stream_fits s -> table_fits hs ->
  encode_frame p c s hs pcm = Ok (c', s', hs') -> chan_fits c' /\ stream_fits s' /\ table_fits hs'.
Proof.
  intros Hc Hs Ht H. unfold encode_frame in H. destruct (fc_state c).
  - inv_bind H. destruct a as [s1 h1]. apply encode_raw_fits in Ha; auto. destruct Ha as [S1 K1].
    do 3 inv_bind H. inv_bind H. destruct a2 as [s2 h2]. injection H as <- <- <-.
    apply fhs_push_fits in Ha1; auto; cbn [fh_size fh_history]; [|apply uwrap_fits; lia|now apply last3_fits].
    apply encode_samples_fits in Ha2; auto. destruct Ha2. auto.
  - do 2 inv_bind H. inv_bind H. destruct a1 as [s2 h2]. injection H as <- <- <-.
    apply fhs_push_fits in Ha0; auto; cbn [fh_size fh_history]; [|apply uwrap_fits; lia|now apply last3_fits].
    apply encode_samples_fits in Ha1; auto. destruct Ha1. auto.
  - discriminate.
Qed.
Lemma decode_raw_fits p s h n s' h' : stream_fits s -> stack_fits h -> decode_raw p s h n = Ok (s', h') ->
  stream_fits s' /\ stack_fits h'.
Proof.
  revert s h; induction n as [|n IH]; intros s h Hs Hh H; cbn [decode_raw] in H; [injection H as <- <-; auto|].
  inv_bind H. destruct a as [s1 v]. eapply IH; [| |exact H].
  - eapply read_bits_fits; [exact Hs|]. exact Ha.
  - apply push_fits; auto. apply swrap16.
Qed.
Lemma decode_samples_fits p s h b e n s' h' b' : stream_fits s -> stack_fits h -> decode_samples p s h b e n = Ok (s', h', b') ->
  stream_fits s' /\ stack_fits h'.
Proof.
  revert s h b; induction n as [|n IH]; intros s h b Hs Hh H; cbn [decode_samples] in H; [injection H as <- <- _; auto|].
  inv_bind H. destruct a as [s1 v]. eapply IH; [| |exact H].
  - eapply read_compressed_fits; eauto.
  - apply push_fits; auto. apply zclamp_range. lia.
Qed.
Lemma decode_frame_fits p c s hs c' s' hs' : chan_fits c -> stream_fits s -> table_fits hs ->
  decode_frame p c s hs = Ok (c', s', hs') -> chan_fits c' /\ stream_fits s' /\ table_fits hs'.
Proof.
  intros Hc Hs Ht H. unfold decode_frame in H. inv_bind H. destruct a as [hs1 oh]. apply fhs_next_fits in Ha; auto.
  destruct oh as [hd|]; [|injection H as <- <- <-; auto]. destruct (fc_state c).
  - inv_bind H. destruct a as [s1 h1]. apply decode_raw_fits in Ha0; auto. destruct Ha0 as [S1 K1].
    inv_bind H. destruct a as [[s2 h2] b2]. injection H as <- <- <-. apply decode_samples_fits in Ha0; auto. destruct Ha0. auto.
  - discriminate.
  - inv_bind H. destruct a as [[s2 h2] b2]. injection H as <- <- <-. apply decode_samples_fits in Ha0; auto. destruct Ha0. auto.
Qed.

(** ** Codecs *)
Definition d_fits (d : dstate) : Prop :=
  let '(chs, s, hs) := d in Forall chan_fits chs /\ stream_fits s /\ table_fits hs.
Lemma decode_channel_fits p d j d' : d_fits d -> decode_channel p d j = Ok d' -> d_fits d'.
Proof.
  destruct d as [[chs s] hs]. intros (F & Hs & Ht) H. unfold decode_channel in H. inv_bind H. inv_bind H. destruct a0 as [[c2 s2] hs2].
  inv_bind H. injection H as <-. pose proof (Forall_index _ _ _ _ F Ha). apply decode_frame_fits in Ha0; auto.
  destruct Ha0 as (K & S2 & T2). split; [|split; auto]. eapply (store_fits chan_fits); [exact F|exact K|eassumption].
Qed.
Lemma foldM_fits {S X} (P : S -> Prop) (f : S -> X -> outcome S) l s s' :
  (forall s x s', P s -> f s x = Ok s' -> P s') -> P s -> foldM f l s = Ok s' -> P s'.
Proof.
  intros HP. revert s; induction l as [|x l IH]; intros s Hs H; cbn [foldM] in H; [injection H as <-; auto|].
  inv_bind H. eapply IH; [|exact H]. eapply HP; eauto.
Qed.
Lemma buffer_audio_fits p n fuel d d' k : d_fits d -> buffer_audio p n fuel d = Ok (d', k) -> d_fits d'.
Proof.
  revert d d' k; induction fuel as [|fuel IH]; intros d d' k Hd H; cbn [buffer_audio] in H; [injection H as <- _; auto|].
  destruct d as [[chs s] hs] eqn:E. destruct (buffers_empty chs); [|injection H as <- _; auto].
  inv_bind H. inv_bind H. destruct a0. injection H as <- _. eapply IH; [|exact Ha0].
  eapply (foldM_fits d_fits); [|exact Hd|exact Ha]. intros; eapply decode_channel_fits; eauto.
Qed.
Lemma pop_block_fits chs n c fuel room chs' out : Forall chan_fits chs -> pop_block chs n c fuel room = Ok (chs', out) -> Forall chan_fits chs'.
Proof.
  revert chs c room chs' out; induction fuel as [|fuel IH]; intros chs c room chs' out F H; cbn [pop_block] in H; [injection H as <- _; auto|].
  destruct (_ && _); [|injection H as <- _; auto]. inv_bind H. destruct (match fc_buffer a with [] => _ | _ => _ end) as [v rest].
  inv_bind H. inv_bind H. destruct a1. injection H as <- _. eapply IH; [|exact Ha1].
  eapply store_fits; [exact F| |exact Ha0]. exact (Forall_index _ _ _ _ F Ha).
Qed.
Lemma decode_loop_fits p n fuel room d d' out : d_fits d -> decode_loop p n fuel room d = Ok (d', out) -> d_fits d'.
Proof.
  revert room d d' out; induction fuel as [|fuel IH]; intros room d d' out Hd H; cbn [decode_loop] in H; [discriminate|].
  destruct (0 <? room); [|injection H as <- _; auto]. inv_bind H. destruct a as [d1 k]. apply buffer_audio_fits in Ha; auto.
  destruct (_ <=? _)%nat; [injection H as <- _; auto|]. destruct d1 as [[chs s] hs]. inv_bind H. destruct a as [chs1 o].
  inv_bind H. destruct a as [d2 o2]. injection H as <- _. eapply IH; [|exact Ha1]. destruct Ha as (F & Hs & Ht).
  split; [|auto]. eapply pop_block_fits; eauto.
Qed.
Record typed (c : adhoc) : Prop := {
  ty_d : d_fits (ad_channels c, as_stream (ad_stream c), ad_headers c);
  ty_level : in_range_u 32 (ad_level c);
  ty_info : forall info, as_info (ad_stream c) = Some info -> in_range_u 32 (si_rate info) /\ in_range_u 32 (si_channels info) }.
Lemma init_typed c : typed c -> typed (ad_init c).
Proof.
  intros [(F & (S1 & S2 & S3) & T) L I]. constructor; auto. split; [|split].
  - cbn [ad_init ad_channels]. apply Forall_map. exact F.
  - split; auto. split; auto. apply zero_fits. lia.
  - apply set_cursor_fits; auto. apply zero_fits. lia.
Qed.
Lemma decode_typed p c buf c' out k : typed c -> ad_decode p c buf = Ok (c', out, k) -> typed c'.
Proof.
  intros [D L I] H. unfold ad_decode in H. do 2 inv_bind H. inv_bind H. destruct a1 as [[[chs s] hs] o].
  apply decode_loop_fits in Ha1; auto. injection H as <- _ _. constructor; auto.
Qed.
Lemma encode_channel_typed p pcm n k c j c' : typed c -> encode_channel p pcm n k c j = Ok c' -> typed c'.
Proof.
  intros [(F & S & T) L I] H. unfold encode_channel in H. inv_bind H. inv_bind H. destruct a0. inv_bind H. inv_bind H.
  destruct a1 as [[fc s] hs]. inv_bind H. injection H as <-. pose proof (Forall_index _ _ _ _ F Ha1).
  apply encode_frame_fits in Ha2; auto. destruct Ha2 as (K & S2 & T2). constructor; auto. split; [|auto].
  cbn [ad_channels]. eapply (store_fits chan_fits); [exact F|exact K|eassumption].
Qed.
Lemma encode_typed p c pcm c' r : typed c -> ad_encode p c pcm = Ok (c', r) -> typed c'.
Proof.
  intros T H. unfold ad_encode in H. do 3 inv_bind H. injection H as <- _.
  eapply (foldM_fits typed); [|exact T|exact Ha1]. intros; eapply encode_channel_typed; eauto.
Qed.
Lemma seek_channel_fits p start d j d' : d_fits d -> seek_channel p start d j = Ok d' -> d_fits d'.
Proof.
  destruct d as [[chs s] hs]. intros (F & Hs & Ht) H. unfold seek_channel in H. do 3 inv_bind H.
  assert (HH : history_fits (fh_history a0)).
  { unfold fhs_get in Ha. destruct (_ <? _); [|injection Ha as <-; discriminate]. do 3 inv_bind Ha. injection Ha as <-.
    injection Ha0 as <-. cbn [fh_history]. exact (Forall_index _ _ _ _ (tf_hists _ Ht) Ha4). }
  destruct (fh_history a0) as [[h3 h2] h1]. destruct HH as (H3 & H2 & H1). inv_bind H. destruct a2 as [[c2 s2] hs2].
  inv_bind H. injection H as <-. pose proof (Forall_index _ _ _ _ F Ha1) as FC. apply decode_frame_fits in Ha2; auto.
  - destruct Ha2 as (K & S2 & T2). split; [|split; auto]. eapply (store_fits chan_fits); [exact F|exact K|eassumption].
  - unfold chan_fits. cbn [fc_history]. repeat (apply push_fits; auto).
Qed.
Lemma prune_fits fuel n sk t chs chs' : Forall chan_fits chs -> prune fuel n sk t chs = Ok chs' -> Forall chan_fits chs'.
Proof.
  revert sk chs; induction fuel as [|fuel IH]; intros sk chs F H; cbn [prune] in H.
  - destruct (sk <? t); [discriminate|]. now injection H as <-.
  - destruct (sk <? t); [|now injection H as <-]. eapply IH; [|exact H]. apply Forall_app. split.
    + apply Forall_map. rewrite <- (firstn_skipn (Z.to_nat n) chs) in F. apply Forall_app in F. apply F.
    + rewrite <- (firstn_skipn (Z.to_nat n) chs) in F. apply Forall_app in F. apply F.
Qed.
Lemma seek_typed p c dt c' : typed c -> ad_seek p c dt = Ok c' -> typed c'.
Proof.
  intros T H. apply init_typed in T. unfold ad_seek in H. inv_bind H. destruct dt as [dt| |]; try discriminate.
  destruct (dt =? 0); [injection H as <-; exact T|]. destruct T as [(F & (S1 & S2 & S3) & T) L I].
  do 2 inv_bind H. inv_bind H. destruct a2 as [sk idx]. do 2 inv_bind H. inv_bind H. destruct a4 as [[chs s] hs]. inv_bind H. injection H as <-.
  assert (D : d_fits (chs, s, hs)).
  { eapply (foldM_fits d_fits); [| |exact Ha5]; [intros; eapply seek_channel_fits; eauto|]. split; [exact F|]. split.
    - split; [exact S1|]. split; [|exact S3]. cbn [set_bit_cursor bs_cursor].
      unfold fhs_get in Ha3. destruct (_ <? _); [|injection Ha3 as <-; discriminate]. do 3 inv_bind Ha3. injection Ha3 as <-.
      injection Ha4 as <-. cbn [fh_bit_cursor]. apply (fits_mono 64); [lia|]. exact (Forall_index _ _ _ _ (tf_cursors _ T) Ha8).
    - apply set_cursor_fits; auto. apply uwrap_fits. lia. }
  destruct D as (D1 & D2 & D3). constructor; auto. split; [|auto]. cbn [ad_channels]. eapply prune_fits; eauto.
Qed.
Lemma session_typed p acts c c' : typed c -> session p acts c = Ok c' -> typed c'.
Proof.
  apply foldM_fits. clear. intros c [pcm|[buf| |dt]] c' T H; cbn [act play] in H.
  - inv_bind H. destruct a. injection H as <-. eapply encode_typed; eauto.
  - inv_bind H. destruct a as [[? ?] ?]. injection H as <-. eapply decode_typed; eauto.
  - injection H as <-. now apply init_typed.
  - eapply seek_typed; eauto.
Qed.
Lemma new_typed info level : in_range_u 32 (si_rate info) -> in_range_u 32 (si_channels info) -> typed (new_codec info level).
Proof.
  intros H1 H2. constructor.
  - split; [|split].
    + cbn. unfold resize. change (zlen (@nil frame_codec)) with 0. destruct (Z.leb_spec 0 (si_channels info)); [|destruct H2; lia].
      cbn [app]. apply Forall_repeat. apply new_stack_fits.
    + split; [constructor|]. split; apply zero_fits; lia.
    + constructor; try constructor; auto; try lia; reflexivity.
  - pose proof (zclamp_range level 0 10). cbn [new_codec ad_with_level ad_level]. unfold in_range_u. lia.
  - intros i E. cbn in E. injection E as <-. auto.
Qed.
