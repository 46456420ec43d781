(** * Property C34, continued: the dither noise repeats *)
From Coq Require Import ZArith List Bool Reals Lra Lia.
From Flocq Require Import IEEE754.BinarySingleNaN.
From Verif Require Import Model.Base Model.F32 Model.Noise Proofs.BaseFacts Proofs.SignalFacts Properties.NoiseProps.
Import ListNotations.
Open Scope Z_scope.

(** [n] steps are one affine map modulo 507961. *)
Definition affine (n : nat) (f : Z * Z) : Prop := forall s, lcg n s mod 507961 = (fst f * s + snd f) mod 507961.
Definition after (f g : Z * Z) : Z * Z := ((fst f * fst g) mod 507961, (fst f * snd g + snd f) mod 507961).
Fixpoint steps (n : positive) : Z * Z :=
  match n with
  | xH => (1000003, 314159)
  | xO n => let h := steps n in after h h
  | xI n => let h := steps n in after (1000003, 314159) (after h h)
  end.
Lemma affine_after m n f g : affine m f -> affine n g -> affine (m + n) (after f g).
Proof.
  intros F G s. rewrite lcg_plus, F. unfold after. cbn [fst snd]. specialize (G s). revert G. generalize (lcg n s). intros x G.
  rewrite <- (Z.add_mod_idemp_l (fst f * x)), <- (Z.mul_mod_idemp_r (fst f) x), G, Z.mul_mod_idemp_r, Z.add_mod_idemp_l by lia.
  rewrite Z.add_mod_idemp_r by lia. rewrite <- (Z.add_mod_idemp_l ((fst f * fst g) mod 507961 * s)), Z.mul_mod_idemp_l, Z.add_mod_idemp_l by lia.
  f_equal. ring.
Qed.
Lemma affine_steps n : affine (Pos.to_nat n) (steps n).
Proof.
  assert (S : affine 1 (1000003, 314159)) by (intros s; cbn [lcg fst snd]; apply Z.mod_mod; lia).
  induction n as [n IH|n IH|]; cbn [steps]; cbv zeta.
  - replace (Pos.to_nat n~1) with (1 + (Pos.to_nat n + Pos.to_nat n))%nat by lia. now repeat apply affine_after.
  - replace (Pos.to_nat n~0) with (Pos.to_nat n + Pos.to_nat n)%nat by lia. now apply affine_after.
  - exact S.
Qed.
Lemma lcg_steps n s : lcg (Pos.to_nat n) s = (fst (steps n) * s + snd (steps n)) mod 507961.
Proof. rewrite <- affine_steps. destruct (Pos2Nat.is_succ n) as [k ->]. cbn [lcg]. now rewrite Z.mod_mod by lia. Qed.
Lemma lcg_cycle n s : 0 <= s < 507961 -> lcg (n + Z.to_nat 253980) s = lcg n s.
Proof.
  intros H. rewrite lcg_plus. apply (f_equal (lcg n)). rewrite Z2Nat.inj_pos, lcg_steps.
  replace (steps 253980) with (1, 0) by (vm_compute; reflexivity). cbn [fst snd]. rewrite Z.mod_small; lia.
Qed.
(** The [i]-th value of the dither sequence of every new or loaded codec, times 16384. *)
Definition dither_value (i : nat) : Z := lcg (2 * i + 2) 314 mod 16384 - lcg (2 * i + 1) 314 mod 16384.
Definition dither_period : nat := Z.to_nat 126990.
(** Two periods of a sequence have their greatest common divisor as a period. *)
Lemma period_mul (f : nat -> Z) d k : (forall i, f (i + d)%nat = f i) -> forall i, f (i + k * d)%nat = f i.
Proof. intros H. induction k; intros i; [now rewrite Nat.add_0_r|]. cbn [Nat.mul]. now rewrite Nat.add_assoc, IHk, H. Qed.
Lemma period_gcd (f : nat -> Z) a b : (0 < a)%nat -> (forall i, f (i + a)%nat = f i) -> (forall i, f (i + b)%nat = f i) ->
  forall i, f (i + Nat.gcd a b)%nat = f i.
Proof.
  intros Ha H1 H2 i. destruct (Nat.gcd_bezout_pos a b Ha) as (u & v & E).
  rewrite <- (period_mul f b v H2 (i + Nat.gcd a b)). rewrite <- Nat.add_assoc, <- E. now apply period_mul.
Qed.
Lemma period_divisor (f : nat -> Z) T d : (0 < d < T)%nat -> (forall i, f (i + T)%nat = f i) -> (forall i, f (i + d)%nat = f i) ->
  exists g k, (0 < g < T)%nat /\ T = (k * g)%nat /\ forall i, f (i + g)%nat = f i.
Proof.
  intros Hd P Q. pose proof (period_gcd f d T ltac:(lia) Q P) as G. destruct (Nat.gcd_divide_l d T) as [a Ea]. destruct (Nat.gcd_divide_r d T) as [k Ek].
  exists (Nat.gcd d T), k. revert Ea Ek G. generalize (Nat.gcd d T). intros g Ea Ek G. split; [|auto].
  assert (g <> 0)%nat by (intros ->; lia). assert (a <> 0)%nat by (intros ->; lia). nia.
Qed.
Lemma period_or_not (f : nat -> Z) T d : (0 < T)%nat -> (forall i, f (i + T)%nat = f i) ->
  (forall i, f (i + d)%nat = f i) \/ exists i, f (i + d)%nat <> f i.
Proof.
  intros HT P. destruct (existsb (fun i => negb (f (i + d)%nat =? f i)) (seq 0 T)) eqn:EX; [right|left].
  { apply existsb_exists in EX. destruct EX as (i & _ & N). exists i. intros X. rewrite X, Z.eqb_refl in N. discriminate. }
  assert (B : forall i, (i < T)%nat -> f (i + d)%nat = f i).
  { intros i Hi. destruct (Z.eqb_spec (f (i + d)%nat) (f i)) as [X|X]; [exact X|]. exfalso.
    rewrite <- not_true_iff_false, existsb_exists in EX. apply EX. exists i. split; [apply in_seq; lia|].
    apply negb_true_iff, Z.eqb_neq, X. }
  intros i. assert (W : exists j k, i = (j + k * T)%nat /\ (j < T)%nat).
  { exists (i mod T)%nat, (i / T)%nat. pose proof (Nat.div_mod i T). pose proof (Nat.mod_upper_bound i T). split; lia. }
  destruct W as (j & k & -> & Hj). replace (j + k * T + d)%nat with (j + d + k * T)%nat by lia.
  rewrite !(period_mul _ _ k P). now apply B.
Qed.
(** A proper divisor of 126990 divides one of five. *)
Definition below (d : Z) : bool := existsb (fun q => (126990 / q) mod d =? 0) [2; 3; 5; 17; 83].
Lemma divisors d k : 0 <= k -> 0 < d < 126990 -> k * d = 126990 -> below d = true.
Proof.
  intros Hk Hd E.
  assert (C : forallb (fun x => (x =? 0) || negb (126990 mod x =? 0) || (below x && ((x =? 1) || below (126990 / x)))) (range 357) = true)
    by (vm_compute; reflexivity).
  rewrite forallb_forall in C. assert (d < 357 \/ k < 357) as [L|L] by nia.
  - specialize (C d (proj2 (in_range 357 d) ltac:(lia))). apply orb_prop in C. destruct C as [C|C]; [|now apply andb_prop in C].
    exfalso. assert (M : 126990 mod d = 0) by (rewrite <- E; apply Z.mod_mul; lia). rewrite M in C.
    destruct (Z.eqb_spec d 0); [lia|discriminate].
  - specialize (C k (proj2 (in_range 357 k) ltac:(lia))). assert (k <> 0 /\ k <> 1) as [K0 K1] by lia. apply orb_prop in C. destruct C as [C|C].
    + exfalso. assert (M : 126990 mod k = 0) by (rewrite <- E, Z.mul_comm; apply Z.mod_mul; lia). rewrite M in C.
      destruct (Z.eqb_spec k 0); [lia|discriminate].
    + apply andb_prop in C. destruct C as [_ C]. destruct (Z.eqb_spec k 1); [lia|]. cbn [orb] in C.
      replace d with (126990 / k) by (rewrite <- E, Z.mul_comm, Z.div_mul; lia). exact C.
Qed.
(** The dither sequence repeats after 126990 samples -- 2.6 seconds of one channel at 48 kHz -- and not sooner. *)
Theorem C34_period : forall p n, exists s vs, items (triangle_next p) n 314 = Ok (s, vs) /\
  (forall i, (i < n)%nat -> B2R (nth i vs f0) = (IZR (dither_value i) / 16384)%R) /\
  (forall i, dither_value (i + dither_period) = dither_value i) /\
  (forall d, (0 < d < dither_period)%nat -> exists i, dither_value (i + d) <> dither_value i).
Proof.
  intros p n. destruct (C34_triangle p 314 n) as (vs & E & _ & V); [cbn; lia|]. exists (lcg (2 * n) 314), vs. split; [exact E|]. clear E.
  split. { intros i Hi. destruct (V i Hi) as (_ & -> & _). unfold dither_value. now rewrite minus_IZR. }
  assert (P : forall i, dither_value (i + dither_period) = dither_value i).
  { intros i. unfold dither_value. f_equal; f_equal.
    - rewrite <- (lcg_cycle (2 * i + 2) 314) by lia. f_equal. unfold dither_period. lia.
    - rewrite <- (lcg_cycle (2 * i + 1) 314) by lia. f_equal. unfold dither_period. lia. }
  split; [exact P|]. intros d Hd.
  assert (D : forall q, In q [2; 3; 5; 17; 83] -> dither_value (0 + Z.to_nat (126990 / q)) <> dither_value 0).
  { assert (X : forall m, dither_value (0 + Pos.to_nat m) = (fst (steps (2 * m + 2)) * 314 + snd (steps (2 * m + 2))) mod 507961 mod 16384
       - (fst (steps (2 * m + 1)) * 314 + snd (steps (2 * m + 1))) mod 507961 mod 16384).
    { intros m. rewrite <- !lcg_steps. unfold dither_value. f_equal; do 2 f_equal; lia. }
    intros q Hq. replace (dither_value 0) with 8760 by (vm_compute; reflexivity).
    destruct Hq as [<-|[<-|[<-|[<-|[<-|[]]]]]];
    match goal with |- context [Z.to_nat ?x] => let y := eval vm_compute in x in change x with y end;
    rewrite Z2Nat.inj_pos, X; vm_compute; discriminate. }
  destruct (period_or_not dither_value dither_period d ltac:(lia) P) as [Q|Q]; [exfalso|exact Q].
  destruct (period_divisor dither_value dither_period d Hd P Q) as (g & k & Hg & Ek & G). clear Q P.
  assert (Zd : Z.of_nat dither_period = 126990) by (unfold dither_period; apply Z2Nat.id; lia).
  assert (Eg : Z.of_nat k * Z.of_nat g = 126990) by (rewrite <- Zd, Ek; lia).
  pose proof (divisors (Z.of_nat g) (Z.of_nat k) ltac:(lia) ltac:(lia) Eg) as X.
  unfold below in X. apply existsb_exists in X. destruct X as (q & Hq & X).
  apply Z.eqb_eq in X. apply Z.mod_divide in X; [|lia]. destruct X as [m Em]. apply (D q Hq). rewrite Em.
  assert (0 <= m). { assert (0 < 126990 / q) by (destruct Hq as [<-|[<-|[<-|[<-|[<-|[]]]]]]; reflexivity). nia. }
  rewrite Z2Nat.inj_mul, Nat2Z.id by lia. exact (period_mul dither_value g (Z.to_nat m) G 0%nat).
Qed.
Print Assumptions C34_period.
