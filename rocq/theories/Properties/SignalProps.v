(** * Property C52: the two convolutions *)
From Coq Require Import ZArith List Bool Lia.
From Flocq Require Import IEEE754.BinarySingleNaN.
From Verif Require Import Model.Base Model.F32 Model.Signal Proofs.BaseFacts Proofs.ConvolveFacts.
Import ListNotations.
Open Scope Z_scope.

(** The signal at a position, silent outside. *)
Definition signal_at (samples : list f32) (i : Z) : f32 := if i <? 0 then f0 else nth (Z.to_nat i) samples f0.
(** The kernel, centred at [i], applied to the signal; summed from left to right. *)
Definition weighted_sum (samples kernel : list f32) (i : Z) : f32 :=
  fold_left (fun sum j => fadd sum (fmul (signal_at samples (i + j - zlen kernel / 2)) (nth (Z.to_nat j) kernel f0)))
            (range (zlen kernel)) f0.

Lemma convolve_at_sum samples kernel i : convolve_at samples kernel i = Ok (weighted_sum samples kernel i).
Proof.
  assert (G : forall l acc, (forall j, In j l -> 0 <= j < zlen kernel) ->
    foldM (fun sum j => s <- tap samples (j + i - Z.quot (zlen kernel) 2) ;; k <- index kernel j ;; Ok (fadd sum (fmul s k))) l acc
    = Ok (fold_left (fun sum j => fadd sum (fmul (signal_at samples (i + j - zlen kernel / 2)) (nth (Z.to_nat j) kernel f0))) l acc));
  [|apply G; intros j; apply in_range].
  induction l as [|j l IH]; intros acc H; [reflexivity|].
  cbn [foldM fold_left]. rewrite tap_ok, (index_ok kernel j f0) by (apply H; now left). cbn [bind].
  rewrite IH by (intros j' Hj; apply H; now right). pose proof (zlen_nonneg kernel). rewrite Z.quot_div_nonneg by lia.
  unfold signal_at. replace (j + i - zlen kernel / 2) with (i + j - zlen kernel / 2) by lia. reflexivity.
Qed.
Lemma write_front {A} (f : Z -> outcome A) (g : Z -> A) n : (forall i, f i = Ok (g i)) -> forall l : list A, 0 <= n <= zlen l ->
  foldM (fun l i => v <- f i ;; store l i v) (range n) l = Ok (map g (range n) ++ skipn (Z.to_nat n) l).
Proof.
  intros H l Hn. replace n with (Z.of_nat (Z.to_nat n)) in * by lia. set (k := Z.to_nat n) in *. clearbody k. clear n. rewrite Nat2Z.id.
  revert Hn. induction k as [|k IH]; intros Hn; [reflexivity|].
  replace (Z.of_nat (S k)) with (Z.of_nat k + 1) by lia. rewrite range_succ by lia. rewrite foldM_app, IH by lia. cbn [bind foldM]. rewrite H. cbn [bind].
  assert (LL : length (map g (range (Z.of_nat k))) = k) by (rewrite map_length, length_range; lia).
  rewrite store_ok by (rewrite zlen_app, zlen_skipn, zlen_map, zlen_range by lia; lia). cbn [bind]. f_equal.
  rewrite map_app, <- app_assoc. cbn [map app]. rewrite Nat2Z.id. rewrite replace_nth_app_r by lia. rewrite LL, Nat.sub_diag. f_equal.
  assert (SK : exists x, skipn k l = x :: skipn (S k) l).
  { clear - Hn. assert (K : (k < length l)%nat) by (unfold zlen in Hn; lia). clear Hn. revert k K. induction l as [|x l IH]; intros k K; cbn [length] in K; [lia|]. destruct k as [|k]; [exists x; reflexivity|]. apply IH. lia. }
  destruct SK as [x ->]. reflexivity.
Qed.

(** Both compute the weighted sums; what is in [result] beyond the signal's length is kept. *)
Theorem C52_convolve : forall samples kernel result, zlen samples <= zlen result ->
  convolve_1d samples kernel result
  = Ok (map (weighted_sum samples kernel) (range (zlen samples)) ++ skipn (length samples) result).
Proof.
  intros samples kernel result H. unfold convolve_1d. pose proof (zlen_nonneg samples).
  rewrite (write_front (convolve_at samples kernel) (weighted_sum samples kernel)) by (auto using convolve_at_sum; lia).
  unfold zlen at 2. now rewrite Nat2Z.id.
Qed.
(** They agree always, also on whether they panic (on a result slice that is too short). *)
Theorem C52_variants_agree : forall samples kernel result,
  convolve_1d_branchless samples kernel result = convolve_1d samples kernel result.
Proof. exact convolve_same. Qed.
Print Assumptions C52_convolve.
Print Assumptions C52_variants_agree.
Example C52_concrete :
  let s := map f32_of_Z [1; 2; 3; 4] in let k := map f32_of_Z [1; 10; 100] in
  match convolve_1d_branchless s k (repeat f0 5) with
  | Ok r => map B2SF r = map B2SF (map f32_of_Z [210; 321; 432; 43; 0]) | _ => False end.
Proof. vm_compute. reflexivity. Qed.
