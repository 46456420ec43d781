(** * Whole blocks of a signal cut into chunks *)
From Coq Require Import ZArith List Bool Lia.
From Verif Require Import Model.Base Model.F32 Spec.Recording Spec.Wave Proofs.BaseFacts Proofs.EncodeFacts Proofs.WavFacts.
Import ListNotations.
Open Scope Z_scope.

Lemma whole_nil ch : whole ch [] = [].
Proof. unfold whole. apply firstn_nil. Qed.
(** A front of whole blocks can be split off. *)
Lemma whole_app ch a b k : 0 < ch -> zlen a = ch * k -> whole ch (a ++ b) = a ++ whole ch b.
Proof.
  intros Hc Ha. unfold whole. rewrite zlen_app, Ha. pose proof (zlen_nonneg a). pose proof (zlen_nonneg b).
  rewrite Z.add_comm, (Z.mul_comm ch k), Z.div_add by lia. pose proof (Z.div_pos (zlen b) ch ltac:(lia) Hc).
  assert (0 <= k) by nia.
  replace (Z.to_nat (ch * (zlen b / ch + k))) with (length a + Z.to_nat (ch * (zlen b / ch)))%nat.
  - now rewrite firstn_app_2.
  - assert (0 <= ch * (zlen b / ch)) by nia. unfold zlen in *. lia.
Qed.
Lemma whole_all ch a k : 0 < ch -> zlen a = ch * k -> whole ch a = a.
Proof. intros Hc Ha. rewrite <- (app_nil_r a) at 1. rewrite (whole_app ch a [] k), whole_nil, app_nil_r; auto. Qed.
(** Shortening a list of numbers the same way. *)
Lemma whole_map ch {A} (f : A -> f32) (l : list A) : whole ch (map f l) = map f (firstn (Z.to_nat (ch * (zlen l / ch))) l).
Proof. unfold whole. now rewrite zlen_map, firstn_map. Qed.

(** What one buffer takes, as a split of the rest. *)
Lemma fill_split ch rest buf : 0 < ch ->
  exists k, 0 <= k /\ (zlen (reported (snd (fill ch rest buf))) = ch * k \/ fst (fill ch rest buf) = []).
Proof.
  intros Hc. exists (zlen buf / ch). pose proof (zlen_nonneg buf). pose proof (zlen_nonneg rest).
  split; [apply Z.div_pos; lia|]. pose proof (Z.div_pos (zlen buf) ch ltac:(lia) Hc).
  assert (H3 : 0 <= ch * (zlen buf / ch)) by nia. unfold fill, reported. cbn [fst snd].
  set (m := ch * (zlen buf / ch)) in *. clearbody m.
  destruct (Z.le_gt_cases m (zlen rest)) as [L|G].
  - left. rewrite Z.min_l by lia. destruct (Z.eqb_spec m 0) as [->|]; [reflexivity|]. cbn [fst snd].
    rewrite zlen_firstn, zlen_app, zlen_firstn. pose proof (zlen_nonneg (skipn (Z.to_nat m) buf)). lia.
  - right. rewrite Z.min_r by lia. apply skipn_all2. unfold zlen. lia.
Qed.
Lemma fill_nil ch bufs : 0 < ch -> flat_map (whole ch) (map reported (fill_all ch [] bufs)) = [].
Proof.
  intros Hc. induction bufs as [|b bufs IH]; cbn [fill_all map flat_map]; [reflexivity|].
  assert (E : fill ch [] b = ([], (b, None))).
  { unfold fill. change (zlen (@nil f32)) with 0. pose proof (zlen_nonneg b). pose proof (Z.div_pos (zlen b) ch ltac:(lia) Hc).
    rewrite Z.min_r by nia. reflexivity. }
  rewrite E. cbn [map flat_map reported snd]. now rewrite whole_nil.
Qed.
(** Whatever the buffers, the whole blocks of what they took are the whole blocks of the signal. *)
Lemma whole_of_fill ch : 0 < ch -> forall bufs rest, flat_map reported (fill_all ch rest bufs) = rest ->
  flat_map (whole ch) (map reported (fill_all ch rest bufs)) = whole ch rest.
Proof.
  intros Hc. induction bufs as [|b bufs IH]; intros rest Hr.
  - cbn [fill_all flat_map map] in *. subst rest. now rewrite whole_nil.
  - cbn [fill_all] in *. destruct (fill_split ch rest b Hc) as (k & Hk & Hs).
    destruct (fill ch rest b) as [rest' r] eqn:E. cbn [fst snd flat_map map] in *.
    assert (R : reported r ++ rest' = rest).
    { clear - E Hc. unfold fill in E. injection E as <- <-. unfold reported. cbn [fst snd].
      set (n := Z.min _ _). destruct (Z.eqb_spec n 0) as [->|]; [reflexivity|]. cbn [fst snd].
      assert (Hn : 0 <= n <= zlen rest). { subst n. pose proof (zlen_nonneg rest). pose proof (zlen_nonneg b). pose proof (Z.div_pos (zlen b) ch). nia. }
      rewrite firstn_app, firstn_firstn, firstn_length. replace (Z.to_nat n - Nat.min (Z.to_nat n) (length rest))%nat with 0%nat by (unfold zlen in *; lia).
      cbn [firstn]. rewrite app_nil_r, Nat.min_id. apply firstn_skipn. }
    assert (Hr' : flat_map reported (fill_all ch rest' bufs) = rest').
    { rewrite <- R in Hr. now apply app_inv_head in Hr. }
    destruct Hs as [Hs| ->].
    + rewrite (whole_all ch _ k Hc Hs), IH by exact Hr'. rewrite <- R. now rewrite (whole_app ch _ _ k).
    + rewrite fill_nil, app_nil_r by exact Hc. now rewrite <- R, app_nil_r.
Qed.
