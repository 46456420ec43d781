(** * FixedRingBuffer against a bounded deque *)
From Coq Require Import ZArith List Bool Lia.
From Verif Require Import Model.Base Model.RingBuffer Spec.Collections Proofs.BaseFacts.
Import ListNotations.
Open Scope Z_scope.

Section Ring.
Context {T : Type}.
Implicit Types (r : ring T) (l : list T).

(** The [i]-th item is [i] places after the front, cyclically. *)
Record ring_rep (k : Z) (r : ring T) (l : list T) : Prop := {
  rr_k : 0 <= k <= 31;
  rr_cap : rb_capacity r = 2 ^ k;
  rr_back : 2 ^ k <= zlen (rb_backing r);
  rr_front : 0 <= rb_front r < 2 ^ k;
  rr_len : rb_len r = zlen l;
  rr_room : zlen l <= 2 ^ k;
  rr_rear : rb_rear r = (rb_front r + zlen l) mod 2 ^ k;
  rr_items : forall i, 0 <= i < zlen l ->
    nth_error (rb_backing r) (Z.to_nat ((rb_front r + i) mod 2 ^ k)) = nth_error l (Z.to_nat i) }.

Lemma mod_shift_ne c f i j : 0 < c -> 0 <= i < c -> 0 <= j < c -> i <> j -> (f + i) mod c <> (f + j) mod c.
Proof.
  intros Hc Hi Hj Hij E. assert (H : ((f + i) - (f + j)) mod c = 0) by (rewrite Zminus_mod, E, Z.sub_diag; reflexivity).
  replace (f + i - (f + j)) with (i - j) in H by ring. apply Z.mod_divide in H; [|lia]. destruct H as [q H].
  assert (q = 0 \/ 1 <= q \/ q <= -1) as [Q|[Q|Q]] by lia; [subst q; lia|nia|nia].
Qed.
Lemma pow_k k : 0 <= k <= 31 -> 1 <= 2 ^ k <= 2 ^ 31.
Proof. intros H. pose proof (Z.pow_pos_nonneg 2 k). split; [lia|]. apply Z.pow_le_mono_r; lia. Qed.
Lemma land_ones_cap k x : 0 <= k <= 31 -> Z.land x (2 ^ k - 1) = x mod 2 ^ k.
Proof. intros H. rewrite <- Z.land_ones by lia. now rewrite Z.ones_equiv, Z.sub_1_r. Qed.

Lemma before_spec p k r i : 0 <= k <= 31 -> rb_capacity r = 2 ^ k -> 0 <= i < 2 ^ k ->
  rb_before p r i = Ok ((i - 1) mod 2 ^ k).
Proof.
  intros Hk Hc Hi. pose proof (pow_k k Hk). unfold rb_before. rewrite Hc.
  rewrite uchk_ok by lia. cbn [bind]. rewrite uchk_ok by lia. cbn [bind]. rewrite uchk_ok by lia. cbn [bind].
  rewrite land_ones_cap by auto. f_equal. replace (i + 2 ^ k - 1) with (i - 1 + 1 * 2 ^ k) by ring.
  apply Z.mod_add. lia.
Qed.
Lemma after_spec p k r i : 0 <= k <= 31 -> rb_capacity r = 2 ^ k -> 0 <= i < 2 ^ k ->
  rb_after p r i = Ok ((i + 1) mod 2 ^ k).
Proof.
  intros Hk Hc Hi. pose proof (pow_k k Hk). unfold rb_after. rewrite Hc.
  rewrite uchk_ok by lia. cbn [bind]. rewrite uchk_ok by lia. cbn [bind]. now rewrite land_ones_cap.
Qed.

Lemma new_spec backing k : 0 <= k <= 31 -> 2 ^ k <= zlen backing ->
  exists r, rb_new backing (2 ^ k) = Ok r /\ ring_rep k r ([] : list T).
Proof.
  intros Hk Hb. pose proof (pow_k k Hk). unfold rb_new.
  assert (E : count_ones32 (2 ^ k) = 1).
  { assert (In k (range 32)) as Hin by (apply in_range; lia). revert Hin. clear.
    assert (F : forallb (fun k => count_ones32 (2 ^ k) =? 1) (range 32) = true) by (vm_compute; reflexivity).
    rewrite forallb_forall in F. intros Hin. specialize (F k Hin). lia. }
  rewrite E. cbn [Z.eqb Pos.eqb]. eexists. split; [reflexivity|].
  constructor; cbn [rb_capacity rb_backing rb_front rb_rear rb_len]; auto; change (zlen (@nil T)) with 0; try lia.
  all: rewrite ?Z.add_0_l, ?Z.mod_0_l by lia; auto; lia.
Qed.

Lemma nth_error_cons_pos {A} (x : A) (l : list A) i : 0 < i -> nth_error (x :: l) (Z.to_nat i) = nth_error l (Z.to_nat (i - 1)).
Proof. intros H. replace (Z.to_nat i) with (S (Z.to_nat (i - 1))) by lia. reflexivity. Qed.

Lemma push_front_spec p k r l x : ring_rep k r l ->
  exists r', rb_push_front p r x = Ok r' /\ ring_rep k r' (if zlen l <? 2 ^ k then x :: l else l).
Proof.
  intros R. pose proof R as [Hk Hc Hb Hf Hl Hr Hrear Hit]. pose proof (pow_k k Hk).
  unfold rb_push_front, rb_is_full. rewrite Hc, Hl.
  destruct (Z.leb_spec (2 ^ k) (zlen l)), (Z.ltb_spec (zlen l) (2 ^ k)); try lia.
  { exists r. split; auto. }
  rewrite (before_spec p k) by auto. cbn [bind]. set (f := (rb_front r - 1) mod 2 ^ k).
  assert (Hf' : 0 <= f < 2 ^ k) by (apply Z.mod_pos_bound; lia).
  rewrite store_ok by lia. cbn [bind]. rewrite uchk_ok by (pose proof (zlen_nonneg l); lia). cbn [bind].
  eexists. split; [reflexivity|]. pose proof (zlen_nonneg l).
  assert (S1 : forall i, (f + i) mod 2 ^ k = (rb_front r + (i - 1)) mod 2 ^ k).
  { intros i. subst f. rewrite Zplus_mod_idemp_l. f_equal. ring. }
  constructor; cbn [rb_capacity rb_backing rb_front rb_rear rb_len]; auto; rewrite ?zlen_cons, ?zlen_replace_nth; try lia.
  - rewrite S1, Hrear. f_equal. lia.
  - intros i Hi. destruct (Z.eq_dec i 0) as [->|Hne].
    + rewrite Z.add_0_r, (Z.mod_small f) by lia. cbn [Z.to_nat nth_error]. apply nth_error_replace_same. unfold zlen in Hb. lia.
    + rewrite nth_error_cons_pos by lia. rewrite nth_error_replace_other.
      * rewrite S1. apply Hit. lia.
      * intros E. pose proof (mod_shift_ne (2 ^ k) f i 0 ltac:(lia) ltac:(lia) ltac:(lia) Hne) as N.
        rewrite Z.add_0_r, (Z.mod_small f) in N by lia.
        pose proof (Z.mod_pos_bound (f + i) (2 ^ k) ltac:(lia)). lia.
Qed.

Lemma push_rear_spec p k r l x : ring_rep k r l ->
  exists r', rb_push_rear p r x = Ok r' /\ ring_rep k r' (if zlen l <? 2 ^ k then l ++ [x] else l).
Proof.
  intros R. pose proof R as [Hk Hc Hb Hf Hl Hr Hrear Hit]. pose proof (pow_k k Hk).
  unfold rb_push_rear, rb_is_full. rewrite Hc, Hl.
  destruct (Z.leb_spec (2 ^ k) (zlen l)), (Z.ltb_spec (zlen l) (2 ^ k)); try lia.
  { exists r. split; auto. }
  pose proof (zlen_nonneg l). pose proof (Z.mod_pos_bound (rb_front r + zlen l) (2 ^ k) ltac:(lia)) as Hm. rewrite <- Hrear in Hm.
  rewrite store_ok by lia. cbn [bind]. rewrite (after_spec p k) by auto. cbn [bind].
  rewrite uchk_ok by lia. cbn [bind]. eexists. split; [reflexivity|].
  constructor; cbn [rb_capacity rb_backing rb_front rb_rear rb_len]; auto; rewrite ?zlen_app, ?zlen_replace_nth; change (zlen [x]) with 1; try lia.
  - rewrite Hrear, Zplus_mod_idemp_l. f_equal. ring.
  - intros i Hi. destruct (Z.eq_dec i (zlen l)) as [->|Hne].
    + rewrite <- Hrear, nth_error_replace_same by (unfold zlen in *; lia).
      rewrite nth_error_app2 by (unfold zlen; lia). unfold zlen. rewrite Nat2Z.id, Nat.sub_diag. reflexivity.
    + rewrite nth_error_app1 by (unfold zlen in *; lia). rewrite nth_error_replace_other.
      * apply Hit. lia.
      * intros E. pose proof (mod_shift_ne (2 ^ k) (rb_front r) i (zlen l) ltac:(lia) ltac:(lia) ltac:(lia) Hne) as N.
        pose proof (Z.mod_pos_bound (rb_front r + i) (2 ^ k) ltac:(lia)). lia.
Qed.

Lemma pop_front_spec p k r l : ring_rep k r l ->
  exists r', rb_pop_front p r = Ok (r', hd_error l) /\ ring_rep k r' (tl l).
Proof.
  intros R. pose proof R as [Hk Hc Hb Hf Hl Hr Hrear Hit]. pose proof (pow_k k Hk).
  unfold rb_pop_front, rb_is_empty. rewrite Hl. destruct l as [|x l].
  { change (zlen (@nil T)) with 0. cbn [Z.eqb hd_error tl]. exists r. split; auto. }
  rewrite zlen_cons in *. pose proof (zlen_nonneg l). destruct (Z.eqb_spec (1 + zlen l) 0); [lia|].
  rewrite (after_spec p k) by auto. cbn [bind]. rewrite uchk_ok by lia. cbn [bind].
  pose proof (Hit 0 ltac:(lia)) as HX. rewrite Z.add_0_r, (Z.mod_small _ (2 ^ k)) in HX by lia. cbn [Z.to_nat nth_error] in HX.
  rewrite (index_ok _ _ x) by lia. cbn [bind]. rewrite (nth_error_nth _ _ x HX).
  eexists. split; [reflexivity|]. cbn [tl].
  constructor; cbn [rb_capacity rb_backing rb_front rb_rear rb_len]; auto; try lia.
  - apply Z.mod_pos_bound. lia.
  - rewrite Hrear, Zplus_mod_idemp_l. f_equal. ring.
  - intros i Hi. rewrite Zplus_mod_idemp_l. replace (rb_front r + 1 + i) with (rb_front r + (i + 1)) by ring.
    rewrite Hit by lia. rewrite nth_error_cons_pos by lia. do 2 f_equal. lia.
Qed.

Lemma pop_rear_spec p k r l : ring_rep k r l ->
  exists r', rb_pop_rear p r = Ok (r', snd (split_last l)) /\ ring_rep k r' (fst (split_last l)).
Proof.
  intros R. pose proof R as [Hk Hc Hb Hf Hl Hr Hrear Hit]. pose proof (pow_k k Hk).
  unfold rb_pop_rear, rb_is_empty. rewrite Hl.
  destruct l as [|x l _] using rev_ind.
  { change (zlen (@nil T)) with 0. cbn [Z.eqb split_last rev snd fst]. exists r. split; auto. }
  unfold split_last. rewrite rev_app_distr. cbn [rev app fst snd]. rewrite rev_involutive.
  rewrite zlen_app in *. change (zlen [x]) with 1 in *. pose proof (zlen_nonneg l).
  destruct (Z.eqb_spec (zlen l + 1) 0); [lia|].
  rewrite (before_spec p k); auto.
  2: { rewrite Hrear. apply Z.mod_pos_bound. lia. }
  cbn [bind]. rewrite uchk_ok by lia. cbn [bind].
  assert (E : (rb_rear r - 1) mod 2 ^ k = (rb_front r + zlen l) mod 2 ^ k).
  { rewrite Hrear, Zminus_mod_idemp_l. f_equal. ring. }
  rewrite E. pose proof (Z.mod_pos_bound (rb_front r + zlen l) (2 ^ k) ltac:(lia)) as Hm.
  pose proof (Hit (zlen l) ltac:(lia)) as HX. rewrite nth_error_app2 in HX by (unfold zlen; lia).
  unfold zlen in HX at 2. rewrite Nat2Z.id, Nat.sub_diag in HX. cbn [nth_error] in HX.
  rewrite (index_ok _ _ x) by lia. cbn [bind]. rewrite (nth_error_nth _ _ x HX).
  eexists. split; [reflexivity|].
  constructor; cbn [rb_capacity rb_backing rb_front rb_rear rb_len]; auto; try lia.
  intros i Hi. rewrite Hit by lia. apply nth_error_app1. unfold zlen in *. lia.
Qed.

Lemma iter_spec p k r l : ring_rep k r l -> rb_iter p r = Ok l.
Proof.
  intros [Hk Hc Hb Hf Hl Hr Hrear Hit]. pose proof (pow_k k Hk). unfold rb_iter. rewrite Hl, Hc.
  destruct l as [|d l0] eqn:El; [reflexivity|]. rewrite <- El in *. clear El l0.
  rewrite (mapM_ok _ (fun i => nth (Z.to_nat i) l d)).
  - f_equal. unfold range. rewrite map_map. apply nth_ext with (d := d) (d' := d).
    + rewrite map_length, seq_length. unfold zlen. lia.
    + rewrite map_length, seq_length. intros n Hn.
      rewrite (nth_indep _ d ((fun x => nth (Z.to_nat (Z.of_nat x)) l d) 0%nat)) by (rewrite map_length, seq_length; auto).
      rewrite (map_nth (fun x => nth (Z.to_nat (Z.of_nat x)) l d)), seq_nth by auto. now rewrite Nat2Z.id.
  - intros i Hi. apply in_range in Hi. rewrite uchk_ok by lia. cbn [bind].
    destruct (Z.eqb_spec (2 ^ k) 0); [lia|]. pose proof (Z.mod_pos_bound (rb_front r + i) (2 ^ k) ltac:(lia)).
    rewrite (index_ok _ _ d) by lia. f_equal. specialize (Hit i Hi).
    erewrite (nth_error_nth (rb_backing r)); [|rewrite Hit; apply nth_error_nth'; unfold zlen in Hi; lia]. reflexivity.
Qed.

Lemma clear_spec k r l : ring_rep k r l -> ring_rep k (rb_clear r) [].
Proof.
  intros [Hk Hc Hb Hf Hl Hr Hrear Hit]. pose proof (pow_k k Hk).
  constructor; cbn [rb_clear rb_capacity rb_backing rb_front rb_rear rb_len]; auto; change (zlen (@nil T)) with 0; try lia.
  all: rewrite ?Z.add_0_l, ?Z.mod_0_l by lia; auto; lia.
Qed.

(** Exactly the powers of two have one bit set. *)
Lemma fold_count (f : nat -> bool) s a : fold_left (fun acc i => acc + Z.b2z (f i)) s a = a + zlen (filter f s).
Proof.
  revert a; induction s as [|i s IH]; intros a; cbn [fold_left filter].
  - change (zlen (@nil nat)) with 0. lia.
  - rewrite IH. destruct (f i); cbn [Z.b2z]; rewrite ?zlen_cons; lia.
Qed.
Lemma count_ones_pow c : 0 <= c < 2 ^ 32 -> count_ones32 c = 1 -> exists k, 0 <= k <= 31 /\ c = 2 ^ k.
Proof.
  intros Hc. unfold count_ones32. rewrite (fold_count (fun i => Z.testbit c (Z.of_nat i))). intros H.
  set (b := filter (fun i => Z.testbit c (Z.of_nat i)) (seq 0 32)) in *.
  destruct b as [|i [|j b']] eqn:Eb; [discriminate| |rewrite !zlen_cons in H; pose proof (zlen_nonneg b'); lia].
  assert (I : forall n, In n (filter (fun i => Z.testbit c (Z.of_nat i)) (seq 0 32)) <-> n = i).
  { intros n. fold b. rewrite Eb. cbn. intuition. }
  exists (Z.of_nat i). pose proof (proj2 (I i) eq_refl) as Hi. rewrite filter_In, in_seq in Hi. split; [lia|].
  apply Z.bits_inj'. intros n Hn. rewrite Z.pow2_bits_eqb by lia.
  destruct (Z.lt_ge_cases n 32) as [L|L].
  - specialize (I (Z.to_nat n)). rewrite filter_In, in_seq, Z2Nat.id in I by lia.
    destruct (Z.testbit c n) eqn:Et; symmetry.
    + apply Z.eqb_eq. assert (Z.to_nat n = i) by (apply I; split; [lia|auto]). lia.
    + apply Z.eqb_neq. intros E. assert (Z.testbit c n = true) by (rewrite <- E, <- (proj2 Hi); f_equal; lia). congruence.
  - replace (Z.of_nat i =? n) with false by (symmetry; apply Z.eqb_neq; lia).
    destruct (Z.eq_dec c 0) as [->|]; [apply Z.bits_0|]. apply Z.bits_above_log2; [lia|].
    pose proof (Z.log2_lt_pow2 c 32 ltac:(lia)) as X. lia.
Qed.
End Ring.
