(** * NibbleList, BitVec and CircularStack represent lists *)
From Coq Require Import ZArith List Bool Lia.
From Verif Require Import Model.Base Model.NibbleList Model.BitVec Model.CircularStack
  Proofs.BaseFacts.
Import ListNotations.
Open Scope Z_scope.

(** ** Nibbles *)
Definition nibble (x : Z) : Prop := 0 <= x < 16.
Definition nl_rep (n : nibble_list) (l : list Z) : Prop :=
  Forall nibble l /\ nl_count n = zlen l /\
  zlen (nl_data n) = (zlen l + 1) / 2 /\
  forall b, (b < length (nl_data n))%nat ->
    nth b (nl_data n) 0 = nth (2 * b) l 0 + 16 * nth (2 * b + 1) l 0.

Lemma nibble_cases x : nibble x -> In x (range 16).
Proof. intros; apply in_range; exact H. Qed.

Lemma nibble_arith a b v : nibble a -> nibble b -> nibble v ->
  Z.lor (a + 16 * 0) 0 = a /\
  Z.lor 0 (uwrap 8 (Z.shiftl v (4 * 0))) = v /\
  Z.lor (a + 16 * 0) (uwrap 8 (Z.shiftl v (4 * 1))) = a + 16 * v /\
  Z.land (Z.shiftr (a + 16 * b) (4 * 0)) 15 = a /\
  Z.land (Z.shiftr (a + 16 * b) (4 * 1)) 15 = b /\
  Z.lor (Z.land (a + 16 * b) (Z.lor (15 * 0) (240 * (1 - 0)))) (uwrap 8 (Z.shiftl v (4 * 0))) = v + 16 * b /\
  Z.lor (Z.land (a + 16 * b) (Z.lor (15 * 1) (240 * (1 - 1)))) (uwrap 8 (Z.shiftl v (4 * 1))) = a + 16 * v.
Proof.
  intros Ha Hb Hv. apply nibble_cases in Ha, Hb, Hv.
  assert (G : forallb (fun a => forallb (fun b => forallb (fun v =>
     (Z.lor (a + 16 * 0) 0 =? a) &&
     (Z.lor 0 (uwrap 8 (Z.shiftl v (4 * 0))) =? v) &&
     (Z.lor (a + 16 * 0) (uwrap 8 (Z.shiftl v (4 * 1))) =? a + 16 * v) &&
     (Z.land (Z.shiftr (a + 16 * b) (4 * 0)) 15 =? a) &&
     (Z.land (Z.shiftr (a + 16 * b) (4 * 1)) 15 =? b) &&
     (Z.lor (Z.land (a + 16 * b) (Z.lor (15 * 0) (240 * (1 - 0)))) (uwrap 8 (Z.shiftl v (4 * 0))) =? v + 16 * b) &&
     (Z.lor (Z.land (a + 16 * b) (Z.lor (15 * 1) (240 * (1 - 1)))) (uwrap 8 (Z.shiftl v (4 * 1))) =? a + 16 * v))
     (range 16)) (range 16)) (range 16) = true) by (vm_compute; reflexivity).
  rewrite forallb_forall in G. specialize (G a Ha).
  rewrite forallb_forall in G. specialize (G b Hb).
  rewrite forallb_forall in G. specialize (G v Hv).
  repeat (apply andb_prop in G; destruct G as [G ?]).
  repeat split; now apply Z.eqb_eq.
Qed.

Lemma nth_nibble l i : Forall nibble l -> nibble (nth i l 0).
Proof.
  intros H. destruct (Nat.lt_ge_cases i (length l)).
  - rewrite Forall_forall in H. apply H. now apply nth_In.
  - rewrite nth_overflow by lia. unfold nibble; lia.
Qed.

Lemma nl_rep_new : nl_rep nl_new [].
Proof. repeat split; auto. cbn. intros; lia. Qed.

Lemma div2_cases c : 0 <= c -> (c mod 2 = 0 /\ c = 2 * (c / 2)) \/ (c mod 2 = 1 /\ c = 2 * (c / 2) + 1).
Proof. intros. pose proof (Z.mod_pos_bound c 2). pose proof (Z.div_mod c 2). lia. Qed.

Theorem nl_push_rep p n l v :
  nl_rep n l -> nibble v -> zlen l + 1 < 2 ^ 32 ->
  exists n', nl_push p n v = Ok n' /\ nl_rep n' (l ++ [v]).
Proof.
  intros (HF & HC & HL & HD) Hv Hb. unfold nl_push. rewrite HC.
  pose proof (zlen_nonneg l) as H0.
  destruct (nibble_arith (nth (Z.to_nat (2 * (zlen l / 2))) l 0) 0 v (nth_nibble _ _ HF)
              ltac:(unfold nibble; lia) Hv) as (A1 & A2 & A3 & A4 & A5 & A6 & A7).
  assert (Lapp : zlen (l ++ [v]) = zlen l + 1) by (rewrite zlen_app; reflexivity).
  assert (FA : Forall nibble (l ++ [v])) by (apply Forall_app; auto).
  destruct (div2_cases (zlen l) H0) as [[E1 E2]|[E1 E2]]; rewrite E1.
  - assert (Eq : (zlen l + 1) / 2 = zlen l / 2).
    { symmetry; apply Z.div_unique with (r := 1); lia. }
    rewrite HL, Eq. destruct (Z.leb_spec (zlen l / 2) (zlen l / 2)); [|lia].
    rewrite (index_ok _ _ 0) by (rewrite zlen_app; change (zlen [0]) with 1; lia).
    cbn [bind]. replace (Z.to_nat (zlen l / 2)) with (length (nl_data n)) by (unfold zlen in *; lia).
    rewrite nth_middle. rewrite store_ok by (rewrite zlen_app; change (zlen [0]) with 1; lia).
    cbn [bind]. rewrite uchk_ok by lia. cbn [bind].
    replace (Z.to_nat (zlen l / 2)) with (length (nl_data n)) by (unfold zlen in *; lia).
    rewrite replace_nth_last, A2.
    eexists; split; [reflexivity|]. split; [auto|]. cbn [nl_count nl_data]. split; [lia|]. split.
    + rewrite zlen_app. change (zlen [v]) with 1. rewrite Lapp.
      replace (zlen l + 1 + 1) with (zlen l + 1 * 2) by lia. rewrite Z.div_add by lia. lia.
    + intros b Hlt. rewrite app_length in Hlt. cbn [length] in Hlt.
      destruct (Nat.eq_dec b (length (nl_data n))) as [->|].
      * rewrite nth_middle. assert (2 * length (nl_data n) = length l)%nat by (unfold zlen in *; lia).
        rewrite H1, nth_middle. rewrite nth_overflow by (rewrite app_length; cbn; lia). lia.
      * rewrite app_nth1 by lia. rewrite HD by lia.
        rewrite !(app_nth1 l) by (unfold zlen in *; lia). reflexivity.
  - assert (Eq : (zlen l + 1) / 2 = zlen l / 2 + 1).
    { symmetry; apply Z.div_unique with (r := 0); lia. }
    rewrite HL, Eq. destruct (Z.leb_spec (zlen l / 2 + 1) (zlen l / 2)); [lia|].
    assert (Hq : 0 <= zlen l / 2) by (apply Z.div_pos; lia).
    rewrite (index_ok _ _ 0) by lia. cbn [bind]. rewrite store_ok by lia. cbn [bind].
    rewrite uchk_ok by lia. cbn [bind].
    assert (Hq' : (Z.to_nat (zlen l / 2) < length (nl_data n))%nat) by (unfold zlen in *; lia).
    rewrite (HD (Z.to_nat (zlen l / 2))) by lia.
    rewrite (nth_overflow l (n := 2 * Z.to_nat (zlen l / 2) + 1)) by (unfold zlen in *; lia).
    replace (2 * Z.to_nat (zlen l / 2))%nat with (Z.to_nat (2 * (zlen l / 2))) by lia.
    rewrite A3.
    eexists; split; [reflexivity|]. split; [auto|]. cbn [nl_count nl_data]. split; [lia|]. split.
    + rewrite zlen_replace_nth, Lapp.
      replace (zlen l + 1 + 1) with (1 + (zlen l / 2 + 1) * 2) by lia.
      rewrite Z.div_add by lia. change (1 / 2) with 0. lia.
    + intros b Hlt. rewrite length_replace_nth in Hlt.
      rewrite nth_replace. destruct (Nat.eqb_spec (Z.to_nat (zlen l / 2)) b) as [<-|].
      * destruct (Nat.ltb_spec (Z.to_nat (zlen l / 2)) (length (nl_data n))); [|lia]. cbn [andb].
        rewrite app_nth1 by (unfold zlen in *; lia).
        replace (2 * Z.to_nat (zlen l / 2))%nat with (Z.to_nat (2 * (zlen l / 2))) by lia.
        replace (Z.to_nat (2 * (zlen l / 2)) + 1)%nat with (length l) by (unfold zlen in *; lia).
        rewrite nth_middle. reflexivity.
      * cbn [andb]. rewrite HD by lia. rewrite !(app_nth1 l) by (unfold zlen in *; lia). reflexivity.
Qed.

Theorem nl_get_rep n l i :
  nl_rep n l -> 0 <= i < zlen l -> nl_get n i = nth (Z.to_nat i) l 0.
Proof.
  intros (HF & HC & HL & HD) Hi. unfold nl_get.
  assert (Hq : 0 <= i / 2 < zlen (nl_data n)).
  { split; [apply Z.div_pos; lia|]. rewrite HL. apply Z.div_lt_upper_bound; [lia|].
    pose proof (Z.mul_succ_div_gt (zlen l + 1) 2). lia. }
  destruct (Z.leb_spec (zlen (nl_data n)) (i / 2)); [lia|].
  rewrite HD by (unfold zlen in *; lia).
  destruct (nibble_arith (nth (2 * Z.to_nat (i / 2)) l 0) (nth (2 * Z.to_nat (i / 2) + 1) l 0) 0
    (nth_nibble _ _ HF) (nth_nibble _ _ HF) ltac:(unfold nibble; lia)) as (_ & _ & _ & A4 & A5 & _).
  destruct (div2_cases i ltac:(lia)) as [[E1 E2]|[E1 E2]]; rewrite E1.
  - rewrite A4. f_equal. lia.
  - rewrite A5. f_equal. lia.
Qed.

Theorem nl_set_rep n l i v :
  nl_rep n l -> nibble v -> 0 <= i < zlen l ->
  nl_rep (nl_set n i v) (replace_nth (Z.to_nat i) l v).
Proof.
  intros (HF & HC & HL & HD) Hv Hi. unfold nl_set.
  assert (Hq : 0 <= i / 2 < zlen (nl_data n)).
  { split; [apply Z.div_pos; lia|]. rewrite HL. apply Z.div_lt_upper_bound; [lia|].
    pose proof (Z.mul_succ_div_gt (zlen l + 1) 2). lia. }
  destruct (Z.leb_spec (zlen (nl_data n)) (i / 2)); [lia|].
  set (b := Z.to_nat (i / 2)) in *.
  assert (Hb : (b < length (nl_data n))%nat) by (unfold zlen in *; lia).
  rewrite (HD b) by lia.
  destruct (nibble_arith (nth (2 * b) l 0) (nth (2 * b + 1) l 0) v
    (nth_nibble _ _ HF) (nth_nibble _ _ HF) Hv) as (_ & _ & _ & _ & _ & A6 & A7).
  assert (HF' : Forall nibble (replace_nth (Z.to_nat i) l v)).
  { rewrite Forall_forall in *. intros x Hx. apply In_nth with (d := 0) in Hx.
    destruct Hx as (k & _ & <-). rewrite nth_replace. destruct (_ && _); auto.
    apply nth_nibble. now apply Forall_forall. }
  destruct (div2_cases i ltac:(lia)) as [[E1 E2]|[E1 E2]]; rewrite E1.
  - rewrite A6. split; [auto|]. cbn [nl_count nl_data].
    rewrite zlen_replace_nth, zlen_replace_nth. split; [auto|]. split; [auto|].
    intros c Hc. rewrite length_replace_nth in Hc. rewrite !nth_replace.
    replace (Z.to_nat i) with (2 * b)%nat by lia.
    assert (2 * b < length l)%nat by (unfold zlen in *; lia).
    destruct (Nat.eqb_spec b c) as [<-|].
    + destruct (Nat.ltb_spec b (length (nl_data n))); [|lia].
      destruct (Nat.eqb_spec (2 * b) (2 * b)); [|lia].
      destruct (Nat.ltb_spec (2 * b) (length l)); [|lia].
      destruct (Nat.eqb_spec (2 * b) (2 * b + 1)); [lia|]. reflexivity.
    + destruct (Nat.eqb_spec (2 * b) (2 * c)); [lia|].
      destruct (Nat.eqb_spec (2 * b) (2 * c + 1)); [lia|]. cbn [andb]. now apply HD.
  - rewrite A7. split; [auto|]. cbn [nl_count nl_data].
    rewrite zlen_replace_nth, zlen_replace_nth. split; [auto|]. split; [auto|].
    intros c Hc. rewrite length_replace_nth in Hc. rewrite !nth_replace.
    replace (Z.to_nat i) with (2 * b + 1)%nat by lia.
    assert (2 * b + 1 < length l)%nat by (unfold zlen in *; lia).
    destruct (Nat.eqb_spec b c) as [<-|].
    + destruct (Nat.ltb_spec b (length (nl_data n))); [|lia].
      destruct (Nat.eqb_spec (2 * b + 1) (2 * b)); [lia|].
      destruct (Nat.eqb_spec (2 * b + 1) (2 * b + 1)); [|lia].
      destruct (Nat.ltb_spec (2 * b + 1) (length l)); [|lia]. reflexivity.
    + destruct (Nat.eqb_spec (2 * b + 1) (2 * c)); [lia|].
      destruct (Nat.eqb_spec (2 * b + 1) (2 * c + 1)); [lia|]. cbn [andb]. now apply HD.
Qed.

Lemma nl_set_far n l i v :
  nl_rep n l -> zlen l + 1 <= i -> nl_set n i v = n.
Proof.
  intros (HF & HC & HL & HD) Hi. unfold nl_set.
  destruct (Z.leb_spec (zlen (nl_data n)) (i / 2)); auto.
  exfalso. assert ((zlen l + 1) / 2 <= i / 2) by (apply Z.div_le_mono; lia). lia.
Qed.

Lemma nl_rep_len n l : nl_rep n l -> nl_len n = zlen l.
Proof. intros (_ & H & _); exact H. Qed.

Theorem nl_iter_rep n l : nl_rep n l -> nl_iter n = l.
Proof.
  intros R. unfold nl_iter. rewrite (nl_rep_len n l R).
  apply nth_ext with (d := 0) (d' := 0).
  - rewrite map_length, length_range. unfold zlen; lia.
  - rewrite map_length, length_range. intros k Hk.
    rewrite nth_indep with (d' := nl_get n 0) by (rewrite map_length, length_range; lia).
    rewrite map_nth. rewrite <- (Nat2Z.id k), nth_range by lia.
    apply nl_get_rep; auto. unfold zlen in *; lia.
Qed.

(** ** Bit vectors *)
Definition gbit (bin : list Z) (i : Z) : bool :=
  Z.testbit (nth (Z.to_nat (i / 64)) bin 0) (i mod 64).
Definition bv_wf (v : bitvec) : Prop := Forall (fun x => 0 <= x < 2 ^ 64) (bv_binary v).
(** [hi]: the greatest length ever reached, which determines the allocation. *)
Definition bv_rep (v : bitvec) (l : list bool) (hi : Z) : Prop :=
  bv_wf v /\ bv_cursor v = zlen l /\ zlen l <= hi /\
  zlen (bv_binary v) = (hi + 63) / 64 /\
  forall i, 0 <= i < zlen l -> gbit (bv_binary v) i = nth (Z.to_nat i) l false.

Lemma bv_rep_new : bv_rep bv_new [] 0.
Proof.
  split; [constructor|]. split; [reflexivity|]. split; [reflexivity|]. split; [reflexivity|].
  intros i Hi. change (zlen (@nil bool)) with 0 in Hi. lia.
Qed.

Lemma mask_testbit i j : 0 <= i < 64 -> 0 <= j ->
  Z.testbit (2 ^ 64 - 1 - Z.shiftl 1 i) j = (j <? 64) && negb (i =? j).
Proof.
  intros Hi Hj. rewrite Z.shiftl_1_l.
  change (2 ^ 64 - 1) with (Z.pred (2 ^ 64)). rewrite <- Z.ones_equiv.
  assert (E : Z.ldiff (2 ^ i) (Z.ones 64) = 0).
  { apply Z.bits_inj'. intros k Hk. rewrite Z.ldiff_spec, Z.bits_0, Z.pow2_bits_eqb by lia.
    destruct (Z.eqb_spec i k) as [<-|]; auto. rewrite Z.ones_spec_low by lia. reflexivity. }
  rewrite Z.sub_nocarry_ldiff by exact E.
  rewrite Z.ldiff_spec, Z.pow2_bits_eqb by lia.
  destruct (Z.ltb_spec j 64); [rewrite Z.ones_spec_low by lia|rewrite Z.ones_spec_high by lia]; reflexivity.
Qed.

Lemma clear_set_testbit c i b j : 0 <= i < 64 -> 0 <= j < 64 ->
  Z.testbit (Z.lor (clear_bit64 c i) (Z.shiftl (Z.land b 1) i)) j
  = if i =? j then Z.odd b else Z.testbit c j.
Proof.
  intros Hi Hj. unfold clear_bit64. rewrite Z.lor_spec, Z.land_spec, mask_testbit, Z.shiftl_spec by lia.
  assert (HL : forall k, 0 <= k -> Z.testbit (Z.land b 1) k = (k =? 0) && Z.odd b).
  { intros k Hk. rewrite Z.land_spec. change 1 with (2 ^ 0). rewrite Z.pow2_bits_eqb by lia.
    rewrite (Z.eqb_sym k 0). destruct (Z.eqb_spec 0 k) as [<-|]; cbn [andb].
    - now rewrite Z.bit0_odd, andb_true_r.
    - apply andb_false_r. }
  destruct (Z.ltb_spec j 64); [|lia]. cbn [andb].
  destruct (Z.eqb_spec i j) as [<-|].
  - cbn [negb andb]. rewrite andb_false_r, Z.sub_diag, HL by lia. reflexivity.
  - cbn [negb]. rewrite andb_true_r. destruct (Z.ltb_spec j i).
    + rewrite (Z.testbit_neg_r _ (j - i)) by lia. apply orb_false_r.
    + rewrite HL by lia. destruct (Z.eqb_spec (j - i) 0); [lia|]. apply orb_false_r.
Qed.

Lemma clear_set_range c i b : 0 <= c < 2 ^ 64 -> 0 <= i < 64 ->
  0 <= Z.lor (clear_bit64 c i) (Z.shiftl (Z.land b 1) i) < 2 ^ 64.
Proof.
  intros Hc Hi. assert (N : 0 <= Z.lor (clear_bit64 c i) (Z.shiftl (Z.land b 1) i)).
  { apply Z.lor_nonneg. split.
    - apply Z.land_nonneg. lia.
    - apply Z.shiftl_nonneg. apply Z.land_nonneg. right. lia. }
  split; auto. destruct (Z.lt_ge_cases (Z.lor (clear_bit64 c i) (Z.shiftl (Z.land b 1) i)) (2 ^ 64)) as [|G]; auto.
  exfalso. set (x := Z.lor _ _) in *.
  assert (Hx : 0 < x) by (assert (0 < 2 ^ 64) by reflexivity; lia).
  assert (HL : 64 <= Z.log2 x) by (apply Z.log2_le_pow2; lia).
  pose proof (Z.bit_log2 x Hx) as T. revert T. subst x. set (k := Z.log2 _) in *.
  rewrite Z.lor_spec, Z.shiftl_spec by lia. unfold clear_bit64. rewrite Z.land_spec.
  assert (Z.testbit c k = false) as ->.
  { rewrite <- (Z.mod_small c (2 ^ 64)) by lia. apply Z.mod_pow2_bits_high; lia. }
  rewrite Z.land_spec. replace (Z.testbit 1 (k - i)) with (Z.testbit (2 ^ 0) (k - i)) by reflexivity. rewrite Z.pow2_bits_eqb by lia.
  destruct (Z.eqb_spec 0 (k - i)); [lia|]. rewrite andb_false_r. discriminate.
Qed.

Lemma nth_wf (bin : list Z) k : Forall (fun x => 0 <= x < 2 ^ 64) bin -> 0 <= nth k bin 0 < 2 ^ 64.
Proof.
  intros H. destruct (Nat.lt_ge_cases k (length bin)).
  - rewrite Forall_forall in H. apply H. now apply nth_In.
  - rewrite nth_overflow by lia. split; [lia|reflexivity].
Qed.

Lemma Forall_replace {A} (P : A -> Prop) n l a :
  Forall P l -> P a -> Forall P (replace_nth n l a).
Proof.
  intros H Ha. revert n; induction H; destruct n; cbn [replace_nth]; constructor; auto.
Qed.

Lemma div64_split i : 0 <= i -> 0 <= i / 64 /\ 0 <= i mod 64 < 64 /\ i = 64 * (i / 64) + i mod 64.
Proof.
  intros. pose proof (Z.mod_pos_bound i 64). pose proof (Z.div_mod i 64).
  assert (0 <= i / 64) by (apply Z.div_pos; lia). lia.
Qed.

Lemma gbit_update bin i b j :
  0 <= i -> 0 <= j -> (Z.to_nat (i / 64) < length bin)%nat ->
  gbit (replace_nth (Z.to_nat (i / 64)) bin
          (Z.lor (clear_bit64 (nth (Z.to_nat (i / 64)) bin 0) (i mod 64))
                 (Z.shiftl (Z.land b 1) (i mod 64)))) j
  = if i =? j then Z.odd b else gbit bin j.
Proof.
  intros Hi Hj HL. unfold gbit.
  destruct (div64_split i Hi) as (A1 & A2 & A3). destruct (div64_split j Hj) as (B1 & B2 & B3).
  rewrite nth_replace. destruct (Nat.ltb_spec (Z.to_nat (i / 64)) (length bin)); [|lia].
  destruct (Nat.eqb_spec (Z.to_nat (i / 64)) (Z.to_nat (j / 64))) as [E|E]; cbn [andb].
  - assert (E' : i / 64 = j / 64) by lia. rewrite clear_set_testbit by lia.
    destruct (Z.eqb_spec (i mod 64) (j mod 64)), (Z.eqb_spec i j); try lia; auto.
    now rewrite E'.
  - destruct (Z.eqb_spec i j) as [->|]; auto. contradiction.
Qed.

Lemma gbit_app0 bin j : 0 <= j -> gbit (bin ++ [0]) j = gbit bin j.
Proof.
  intros Hj. unfold gbit. destruct (Nat.lt_ge_cases (Z.to_nat (j / 64)) (length bin)).
  - now rewrite app_nth1.
  - rewrite (nth_overflow bin) by lia. rewrite app_nth2 by lia.
    destruct (Z.to_nat (j / 64) - length bin)%nat as [|[|]]; reflexivity.
Qed.

Theorem bv_push_rep p v l hi b :
  bv_rep v l hi -> zlen l + 1 < 2 ^ 64 ->
  exists v', bv_push p v b = Ok v' /\ bv_rep v' (l ++ [Z.odd b]) (Z.max hi (zlen l + 1)).
Proof.
  intros (HW & HC & HH & HL & HB) Hb. unfold bv_push, bv_chunk_index, bv_chunk_bit_index.
  pose proof (zlen_nonneg l) as H0. rewrite HC.
  destruct (div64_split (zlen l) H0) as (A1 & A2 & A3).
  rewrite uwrap_small by (rewrite pow2_64 in *; lia).
  set (q := zlen l / 64) in *.
  assert (Q : q <= (hi + 63) / 64) by (apply Z.div_le_mono; lia).
  set (bin := if zlen (bv_binary v) <=? q then bv_binary v ++ [0] else bv_binary v).
  assert (HB1 : zlen bin = (Z.max hi (zlen l + 1) + 63) / 64).
  { subst bin. rewrite HL. destruct (Z.leb_spec ((hi + 63) / 64) q).
    - rewrite zlen_app. change (zlen [0]) with 1. rewrite HL.
      assert (q = (hi + 63) / 64) by lia.
      pose proof (Z.mul_div_le (hi + 63) 64 ltac:(lia)).
      pose proof (Z.mul_succ_div_gt (hi + 63) 64 ltac:(lia)).
      assert (zlen l mod 64 = 0) by lia. assert (hi = zlen l) by lia.
      apply Z.div_unique with (r := 0); lia.
    - rewrite HL.
      pose proof (Z.mul_div_le (hi + 63) 64 ltac:(lia)).
      pose proof (Z.mul_succ_div_gt (hi + 63) 64 ltac:(lia)).
      destruct (Z.max_spec hi (zlen l + 1)) as [[M1 ->]|[M1 ->]]; [|reflexivity].
      apply Z.div_unique with (r := (zlen l + 1 + 63) - 64 * ((hi + 63) / 64)); lia. }
  assert (HB2 : q < zlen bin).
  { rewrite HB1. assert (q < (zlen l + 64) / 64).
    { replace (zlen l + 64) with (zlen l + 1 * 64) by lia. rewrite Z.div_add by lia. fold q. lia. }
    assert ((zlen l + 64) / 64 <= (Z.max hi (zlen l + 1) + 63) / 64) by (apply Z.div_le_mono; lia).
    lia. }
  assert (HW1 : Forall (fun x => 0 <= x < 2 ^ 64) bin).
  { subst bin. destruct (_ <=? _); auto. apply Forall_app; split; auto.
    constructor; auto. split; [lia|reflexivity]. }
  assert (HG : forall j, 0 <= j -> gbit bin j = gbit (bv_binary v) j).
  { intros j Hj. subst bin. destruct (_ <=? _); auto. now apply gbit_app0. }
  rewrite (index_ok bin q 0) by lia. cbn [bind]. rewrite store_ok by lia. cbn [bind].
  unfold bv_offset_cursor. cbn [bv_cursor bv_binary].
  rewrite (swrap_small 128); [|lia|rewrite ?pow2_64 in *; change (2 ^ (128 - 1)) with (2 ^ 127); rewrite pow2_127; lia].
  rewrite schk_ok by (rewrite ?pow2_64 in *; change (2 ^ (128 - 1)) with (2 ^ 127); rewrite pow2_127; lia).
  cbn [bind]. eexists; split; [reflexivity|].
  rewrite uwrap_small by (rewrite pow2_64 in *; rewrite pow2_128; lia).
  assert (LA : zlen (l ++ [Z.odd b]) = zlen l + 1) by (rewrite zlen_app; reflexivity).
  split; [|split; [|split; [|split]]]; cbn [bv_binary bv_cursor].
  - apply Forall_replace; auto. apply clear_set_range; auto. now apply nth_wf.
  - lia.
  - lia.
  - now rewrite zlen_replace_nth.
  - intros i Hi. rewrite LA in Hi.
    subst q. rewrite gbit_update; [|lia|lia|unfold zlen in *; lia].
    destruct (Z.eqb_spec (zlen l) i) as [<-|].
    + now rewrite to_nat_zlen, nth_middle.
    + rewrite HG by lia. rewrite HB by lia. rewrite app_nth1; auto. unfold zlen in *; lia.
Qed.

Theorem bv_get_rep v l hi i :
  bv_rep v l hi -> 0 <= i < zlen l -> zlen l < 2 ^ 64 -> bv_get v i = Z.b2z (nth (Z.to_nat i) l false).
Proof.
  intros (HW & HC & HH & HL & HB) Hi Hb. unfold bv_get, bv_chunk_index, bv_chunk_bit_index.
  destruct (div64_split i ltac:(lia)) as (A1 & A2 & A3).
  rewrite uwrap_small by (rewrite pow2_64 in *; lia).
  assert (i / 64 < zlen (bv_binary v)).
  { rewrite HL. assert (i / 64 < (hi + 63) / 64); [|lia].
    assert ((i + 64) / 64 <= (hi + 63) / 64) by (apply Z.div_le_mono; lia).
    replace (i + 64) with (i + 1 * 64) in H by lia. rewrite Z.div_add in H by lia. lia. }
  destruct (Z.leb_spec (zlen (bv_binary v)) (i / 64)); [lia|].
  rewrite <- HB by lia. unfold gbit. rewrite Z.testbit_spec' by lia.
  change 1 with (Z.ones 1). rewrite Z.land_ones by lia. now rewrite Z.shiftr_div_pow2 by lia.
Qed.

Theorem bv_set_rep v l hi i b :
  bv_rep v l hi -> 0 <= i < 2 ^ 64 ->
  bv_rep (bv_set v i b) (replace_nth (Z.to_nat i) l (Z.odd b)) hi.
Proof.
  intros (HW & HC & HH & HL & HB) Hi. unfold bv_set, bv_chunk_index, bv_chunk_bit_index.
  destruct (div64_split i ltac:(lia)) as (A1 & A2 & A3).
  rewrite uwrap_small by (rewrite pow2_64 in *; lia).
  assert (LR : zlen (replace_nth (Z.to_nat i) l (Z.odd b)) = zlen l) by apply zlen_replace_nth.
  destruct (Z.leb_spec (zlen (bv_binary v)) (i / 64)).
  - split; auto. split; [lia|]. split; [lia|]. split; auto.
    intros j Hj. rewrite LR in Hj. rewrite HB by lia. rewrite nth_replace.
    assert (zlen l <= i).
    { assert ((zlen l + 63) / 64 <= (hi + 63) / 64) by (apply Z.div_le_mono; lia).
      pose proof (Z.mul_succ_div_gt (zlen l + 63) 64 ltac:(lia)). lia. }
    destruct (Nat.eqb_spec (Z.to_nat i) (Z.to_nat j)); [lia|]. reflexivity.
  - split; [|split; [|split; [|split]]]; cbn [bv_binary bv_cursor].
    + apply Forall_replace; auto. apply clear_set_range; auto. now apply nth_wf.
    + lia.
    + lia.
    + now rewrite zlen_replace_nth.
    + intros j Hj. rewrite LR in Hj. rewrite gbit_update; [|lia|lia|unfold zlen in *; lia].
      rewrite nth_replace. destruct (Z.eqb_spec i j) as [<-|].
      * destruct (Nat.eqb_spec (Z.to_nat i) (Z.to_nat i)); [|lia].
        destruct (Nat.ltb_spec (Z.to_nat i) (length l)); [reflexivity|unfold zlen in *; lia].
      * destruct (Nat.eqb_spec (Z.to_nat i) (Z.to_nat j)); [lia|]. cbn [andb]. now apply HB.
Qed.

Lemma bv_clear_rep v l hi : bv_rep v l hi -> bv_rep (bv_clear v) [] hi.
Proof.
  intros (HW & HC & HH & HL & HB). pose proof (zlen_nonneg l).
  split; auto. split; [reflexivity|]. change (zlen (@nil bool)) with 0. split; [lia|]. split; auto.
  intros i Hi. lia.
Qed.
Lemma bv_rep_len v l hi : bv_rep v l hi -> zlen l < 2 ^ 64 -> bv_len v = zlen l.
Proof. intros (_ & H & _) Hb. unfold bv_len. rewrite H. pose proof (zlen_nonneg l). apply uwrap_small; lia. Qed.

Theorem bv_iter_rep v l hi : bv_rep v l hi -> zlen l < 2 ^ 64 -> bv_iter v = map Z.b2z l.
Proof.
  intros R Hb. unfold bv_iter. rewrite (bv_rep_len v l hi R Hb).
  apply nth_ext with (d := 0) (d' := 0).
  - rewrite !map_length, length_range. unfold zlen; lia.
  - rewrite map_length, length_range. intros k Hk.
    rewrite nth_indep with (d' := bv_get v 0) by (rewrite map_length, length_range; lia).
    rewrite map_nth.
    replace (nth k (map Z.b2z l) 0) with (Z.b2z (nth k l false)) by (symmetry; exact (map_nth Z.b2z l false k)).
    rewrite <- (Nat2Z.id k) at 1. rewrite nth_range by lia.
    rewrite (bv_get_rep v l hi) by (auto; unfold zlen in *; lia). now rewrite Nat2Z.id.
Qed.

Theorem bv_capacity_rep v l hi : bv_rep v l hi -> bv_capacity v = bv_bits_required hi.
Proof.
  intros (HW & HC & HH & HL & HB). pose proof (zlen_nonneg l). unfold bv_capacity, bv_bits_required.
  rewrite HL. f_equal. destruct (div64_split hi ltac:(lia)) as (A1 & A2 & A3).
  rewrite zclamp_eq by lia.
  destruct (Z.eq_dec (hi mod 64) 0).
  - replace (Z.max 0 (Z.min 1 (hi mod 64))) with 0 by lia.
    symmetry. apply Z.div_unique with (r := 63); lia.
  - replace (Z.max 0 (Z.min 1 (hi mod 64))) with 1 by lia.
    symmetry. apply Z.div_unique with (r := hi mod 64 - 1); lia.
Qed.

(** ** The four-entry history *)
Section CS.
Context {T : Type} (d : T).
(** [l]: the values currently held, most recent first. *)
Definition cs_rep (s : cstack T) (l : list T) : Prop :=
  length (cs_data s) = 4%nat /\ 0 <= cs_cursor s < 4 /\ cs_len s = zlen l /\ zlen l <= 4 /\
  forall i, 0 <= i < zlen l ->
    nth (Z.to_nat ((cs_cursor s - 1 - i) mod 4)) (cs_data s) d = nth (Z.to_nat i) l d.

Lemma cs_rep_new : cs_rep (cs_new d) [].
Proof.
  repeat split; cbn; try lia; intros i Hi; change (zlen (@nil T)) with 0 in Hi; lia.
Qed.

Lemma land3 x : Z.land x 3 = x mod 4.
Proof. change 3 with (Z.ones 2). rewrite Z.land_ones by lia. reflexivity. Qed.

Theorem cs_push_rep s l x : cs_rep s l -> cs_rep (cs_push s x) (firstn 4 (x :: l)).
Proof.
  intros (HD & HC & HL & H4 & HV). unfold cs_push. rewrite !land3.
  pose proof (zlen_nonneg l).
  assert (LF : zlen (firstn 4 (x :: l)) = Z.min (zlen l + 1) 4).
  { rewrite zlen_firstn, zlen_cons. lia. }
  split; [|split; [|split; [|split]]]; cbn [cs_data cs_cursor cs_len].
  - now rewrite length_replace_nth.
  - apply Z.mod_pos_bound; lia.
  - lia.
  - lia.
  - intros i Hi. rewrite LF in Hi. rewrite (Z.mod_small (cs_cursor s)) by lia.
    replace ((cs_cursor s + 1) mod 4 - 1 - i) with ((cs_cursor s + 1) mod 4 - (1 + i)) by lia.
    rewrite Zminus_mod_idemp_l.
    replace (cs_cursor s + 1 - (1 + i)) with (cs_cursor s - i) by lia.
    rewrite nth_replace.
    destruct (Z.eq_dec i 0) as [->|].
    + rewrite Z.sub_0_r, Z.mod_small by lia. rewrite Nat.eqb_refl.
      destruct (Nat.ltb_spec (Z.to_nat (cs_cursor s)) (length (cs_data s))); [reflexivity|lia].
    + pose proof (Z.mod_pos_bound (cs_cursor s - i) 4 ltac:(lia)).
      assert (Hne : (cs_cursor s - i) mod 4 <> cs_cursor s).
      { destruct (Z.lt_ge_cases (cs_cursor s - i) 0).
        - rewrite <- (Z.mod_add _ 1) by lia. rewrite Z.mod_small by lia. lia.
        - rewrite Z.mod_small by lia. lia. }
      destruct (Nat.eqb_spec (Z.to_nat (cs_cursor s)) (Z.to_nat ((cs_cursor s - i) mod 4))); [lia|].
      cbn [andb]. replace (cs_cursor s - i) with (cs_cursor s - 1 - (i - 1)) by lia.
      rewrite HV by lia.
      assert (N : nth (Z.to_nat i) (firstn 4 (x :: l)) d = nth (Z.to_nat i) (x :: l) d).
      { rewrite <- (firstn_skipn 4 (x :: l)) at 2. rewrite app_nth1; auto.
        unfold zlen in LF, Hi. lia. }
      rewrite N. replace (Z.to_nat i) with (S (Z.to_nat (i - 1))) by lia. reflexivity.
Qed.

Theorem cs_prev_rep s l k : cs_rep s l -> 1 <= k <= zlen l -> cs_prev d s k = nth (Z.to_nat (k - 1)) l d.
Proof.
  intros (HD & HC & HL & H4 & HV) Hk. unfold cs_prev. rewrite land3, HL, zclamp_id by lia.
  rewrite <- HV by lia. f_equal. f_equal.
  replace (cs_cursor s + 4 - k) with (cs_cursor s - 1 - (k - 1) + 1 * 4) by lia.
  now rewrite Z.mod_add by lia.
Qed.

Theorem cs_pop_rep s x l : cs_rep s (x :: l) ->
  exists s', cs_pop d s = (s', x) /\ cs_rep s' l.
Proof.
  intros (HD & HC & HL & H4 & HV). unfold cs_pop. rewrite land3. rewrite zlen_cons in *.
  pose proof (zlen_nonneg l).
  assert (E : (cs_cursor s + 4 - 1) mod 4 = (cs_cursor s - 1) mod 4).
  { replace (cs_cursor s + 4 - 1) with (cs_cursor s - 1 + 1 * 4) by lia. now rewrite Z.mod_add by lia. }
  eexists; split.
  - f_equal. rewrite E. specialize (HV 0 ltac:(lia)). now rewrite Z.sub_0_r in HV.
  - split; [|split; [|split; [|split]]]; cbn [cs_data cs_cursor cs_len]; auto; try lia.
    + apply Z.mod_pos_bound; lia.
    + intros i Hi. specialize (HV (i + 1) ltac:(lia)).
      replace (Z.to_nat (i + 1)) with (S (Z.to_nat i)) in HV by lia. cbn [nth] in HV.
      rewrite <- HV. f_equal. f_equal. rewrite E.
      replace ((cs_cursor s - 1) mod 4 - 1 - i) with ((cs_cursor s - 1) mod 4 - (1 + i)) by lia.
      rewrite Zminus_mod_idemp_l. f_equal. lia.
Qed.

Lemma cs_len_rep s l : cs_rep s l -> cs_len s = zlen l.
Proof. intros (_ & _ & H & _); exact H. Qed.
End CS.

Lemma cs_pushes_rep {T} (d : T) xs s l :
  cs_rep d s l -> cs_rep d (fold_left cs_push xs s) (firstn 4 (rev xs ++ l)).
Proof.
  revert s l; induction xs as [|x xs IH]; intros s l R; cbn [fold_left rev].
  - assert (zlen l <= 4) by apply R. rewrite firstn_all2; auto. unfold zlen in *; cbn [app]; lia.
  - pose proof (IH _ _ (cs_push_rep d s l x R)) as H.
    replace (firstn 4 ((rev xs ++ [x]) ++ l)) with (firstn 4 (rev xs ++ firstn 4 (x :: l))); auto.
    rewrite <- app_assoc. cbn [app]. rewrite !firstn_app. f_equal.
    rewrite firstn_firstn. f_equal. lia.
Qed.
Lemma cs_prev_kth_last : forall T (d : T) xs k,
  1 <= k <= Z.min 4 (zlen xs) ->
  cs_prev d (fold_left cs_push xs (cs_new d)) k = nth (Z.to_nat (k - 1)) (rev xs) d.
Proof.
  intros T d xs k Hk. pose proof (cs_pushes_rep d xs _ _ (cs_rep_new d)) as R.
  rewrite app_nil_r in R.
  assert (L : zlen (firstn 4 (rev xs)) = Z.min 4 (zlen xs)) by (rewrite zlen_firstn, zlen_rev; lia).
  rewrite (cs_prev_rep d _ _ k R) by lia.
  rewrite <- (firstn_skipn 4 (rev xs)) at 2. rewrite app_nth1; auto. unfold zlen in *; lia.
Qed.
Lemma cs_is_empty_full : forall T (d : T) xs,
  cs_is_empty (fold_left cs_push xs (cs_new d)) = (4 <=? zlen xs).
Proof.
  intros T d xs. pose proof (cs_pushes_rep d xs _ _ (cs_rep_new d)) as R.
  rewrite app_nil_r in R. unfold cs_is_empty. rewrite (cs_len_rep d _ _ R).
  rewrite zlen_firstn, zlen_rev. destruct (Z.leb_spec 4 (Z.min (Z.of_nat 4) (zlen xs))), (Z.leb_spec 4 (zlen xs)); auto; lia.
Qed.

Lemma lor_nibble a b v : nibble a -> nibble b -> nibble v ->
  Z.land (Z.shiftr (Z.lor (a + 16 * b) (uwrap 8 (Z.shiftl v (4 * 0)))) (4 * 0)) 15 = Z.lor a v.
Proof.
  intros Ha Hb Hv. apply nibble_cases in Ha, Hb, Hv.
  assert (G : forallb (fun a => forallb (fun b => forallb (fun v =>
     Z.land (Z.shiftr (Z.lor (a + 16 * b) (uwrap 8 (Z.shiftl v (4 * 0)))) (4 * 0)) 15 =? Z.lor a v)
     (range 16)) (range 16)) (range 16) = true) by (vm_compute; reflexivity).
  rewrite forallb_forall in G. specialize (G a Ha).
  rewrite forallb_forall in G. specialize (G b Hb).
  rewrite forallb_forall in G. specialize (G v Hv). now apply Z.eqb_eq.
Qed.
Theorem nl_push_clear : forall p n l v,
  nl_rep n l -> 0 < zlen l -> 0 <= v < 16 ->
  exists n', nl_push p (nl_clear n) v = Ok n' /\ nl_get n' 0 = Z.lor (nth 0 l 0) v.
Proof.
  intros p n l v (HF & HC & HL & HD) Hl Hv. unfold nl_push, nl_clear. cbn [nl_count nl_data].
  change (0 / 2) with 0. change (0 mod 2) with 0.
  assert (1 <= (zlen l + 1) / 2) by (apply Z.div_le_lower_bound; lia).
  destruct (Z.leb_spec (zlen (nl_data n)) 0); [lia|].
  rewrite (index_ok _ 0 0) by lia. cbn [bind]. rewrite store_ok by lia. cbn [bind].
  rewrite uchk_ok by (cbn; lia). cbn [bind]. eexists; split; [reflexivity|].
  unfold nl_get. cbn [nl_data]. change (0 / 2) with 0. change (0 mod 2) with 0.
  rewrite zlen_replace_nth. destruct (Z.leb_spec (zlen (nl_data n)) 0); [lia|].
  change (Z.to_nat 0) with 0%nat. rewrite nth_replace_same by (unfold zlen in *; lia).
  rewrite (HD 0%nat) by (unfold zlen in *; lia). apply lor_nibble; auto; apply nth_nibble; auto.
Qed.
