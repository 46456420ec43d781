(** * Properties C33 (level), C34 and C49: level, dither noise, PCM to float and back *)
From Coq Require Import ZArith List Bool Permutation Reals Lra Lia.
From Flocq Require Import IEEE754.BinarySingleNaN.
From Verif Require Import Model.Base Model.F32 Model.Noise Model.Sample Model.Frame Model.Adhoc
  Proofs.BaseFacts Proofs.FloatFacts Proofs.SignalFacts.
Import ListNotations.
Open Scope Z_scope.

(** ** C33: the compression level *)
Definition same (a b : f32) : bool :=
  match B2SF a, B2SF b with
  | SpecFloat.S754_finite s m e, SpecFloat.S754_finite s' m' e' => Bool.eqb s s' && (m =? m')%positive && (e =? e')
  | _, _ => false
  end.
Lemma same_eq a b : same a b = true -> a = b.
Proof.
  unfold same. intros H. apply B2SF_inj. destruct (B2SF a), (B2SF b); try discriminate.
  apply andb_prop in H. destruct H as [H H3]. apply andb_prop in H. destruct H as [H1 H2].
  apply Bool.eqb_prop in H1. apply Pos.eqb_eq in H2. apply Z.eqb_eq in H3. now subst.
Qed.
(** The level is limited to 10, the stored scale is two to the level, its reciprocal is
    exact, and nothing else changes. *)
Theorem C33_level : forall c level, 0 <= level < 2 ^ 32 ->
  let c' := ad_with_level c level in
  ad_level c' = Z.min level 10 /\
  is_finite (ad_scale c') = true /\ B2R (ad_scale c') = IZR (2 ^ Z.min level 10) /\
  is_finite (ad_inv_scale c') = true /\ (B2R (ad_inv_scale c') * IZR (2 ^ Z.min level 10) = 1)%R /\
  fmul (ad_scale c') (ad_inv_scale c') = f32_of_Z 1 /\
  ad_headers c' = ad_headers c /\ ad_channels c' = ad_channels c /\ ad_stream c' = ad_stream c /\ ad_seq c' = ad_seq c.
Proof.
  intros c level Hl c'.
  assert (E : c' = ad_with_level c (Z.min level 10)).
  { unfold c', ad_with_level, zclamp. 
    destruct (Z.ltb_spec level 0); [lia|]. destruct (Z.ltb_spec (Z.min level 10) 0); [lia|].
    destruct (Z.ltb_spec 10 level), (Z.ltb_spec 10 (Z.min level 10)); try lia.
    - now replace (Z.min level 10) with 10 by lia.
    - now replace (Z.min level 10) with level by lia. }
  rewrite E. assert (Hk : 0 <= Z.min level 10 <= 10) by lia. clearbody c'. clear E c'.
  revert Hk. generalize (Z.min level 10). clear level Hl. intros level Hk.
  assert (L : ad_level (ad_with_level c level) = level).
  { unfold ad_with_level, zclamp. cbn [ad_level].
    destruct (Z.ltb_spec level 0); [lia|]. destruct (Z.ltb_spec 10 level); lia. }
  assert (S : ad_scale (ad_with_level c level) = f32_of_Z (2 ^ level)).
  { change (f32_of_Z (Z.shiftl 1 (ad_level (ad_with_level c level))) = f32_of_Z (2 ^ level)).
    now rewrite L, Z.shiftl_1_l. }
  assert (I : ad_inv_scale (ad_with_level c level) = fdiv (f32_of_Z 1) (f32_of_Z (2 ^ level))).
  { change (ad_inv_scale (ad_with_level c level)) with (fdiv f1 (ad_scale (ad_with_level c level))). now rewrite S. }
  assert (P : 1 <= 2 ^ level <= 2 ^ 10).
  { split; [|apply Z.pow_le_mono_r; lia]. change 1 with (2 ^ 0). apply Z.pow_le_mono_r; lia. }
  destruct (f32_of_Z_R (2 ^ level)) as [FS VS]; [change (2 ^ 10) with 1024 in P; lia|].
  destruct (exact_div level 1) as [FI VI]; [lia|cbn; lia|].
  split; [exact L|]. rewrite S, I. split; [exact FS|]. split; [exact VS|]. split; [exact FI|].
  assert (B : IZR (2 ^ level) = Raux.bpow Zaux.radix2 level).
  { rewrite <- (Raux.IZR_Zpower Zaux.radix2) by lia. reflexivity. }
  split. { unfold val in VI. rewrite VI, B, Rmult_1_l, <- Raux.bpow_plus. now replace (- level + level) with 0 by lia. }
  split; [|auto].
  assert (C : forallb (fun k => same (fmul (f32_of_Z (2 ^ k)) (fdiv (f32_of_Z 1) (f32_of_Z (2 ^ k)))) (f32_of_Z 1)) (range 11) = true)
    by (vm_compute; reflexivity).
  rewrite forallb_forall in C. specialize (C level (proj2 (in_range 11 level) ltac:(lia))).
  now apply same_eq.
Qed.
Print Assumptions C33_level.
Example C33_applies : ad_level (ad_with_level ad_new 7) = 7 /\ ad_level (ad_with_level ad_new 4000000000) = 10.
Proof. vm_compute. auto. Qed.

(** ** C34: dither noise *)
(** The generator: [x -> (1000003 x + 314159) mod 507961]. *)
Fixpoint lcg (n : nat) (seed : Z) : Z :=
  match n with O => seed | S n => (1000003 * lcg n seed + 314159) mod 507961 end.
(** The first [n] items of one of the iterators of a generator with state [seed], and the
    state it leaves. *)
Fixpoint items (next : Z -> outcome (Z * f32)) (n : nat) (seed : Z) : outcome (Z * list f32) :=
  match n with
  | O => Ok (seed, [])
  | S n => '(seed, v) <- next seed ;; '(seed, vs) <- items next n seed ;; Ok (seed, v :: vs)
  end.

Lemma rand_ok p s : 0 <= s <= 2 ^ 44 -> rand p s = Ok ((1000003 * s + 314159) mod 507961).
Proof.
  intros H. change (2 ^ 44) with 17592186044416 in H. unfold rand, RAND_A, RAND_B, RAND_M.
  rewrite uchk_ok by (change (2 ^ 64) with 18446744073709551616; lia). cbn [bind].
  rewrite uchk_ok by (change (2 ^ 64) with 18446744073709551616; lia). reflexivity.
Qed.
Lemma lcg_range n s : 0 <= s <= 2 ^ 44 -> 0 <= lcg n s <= 2 ^ 44.
Proof.
  intros H. destruct n; cbn [lcg]; [exact H|].
  pose proof (Z.mod_pos_bound (1000003 * lcg n s + 314159) 507961 ltac:(lia)).
  change (2 ^ 44) with 17592186044416. lia.
Qed.
Lemma lcg_plus m n s : lcg (m + n) s = lcg m (lcg n s).
Proof. induction m; cbn [lcg Nat.add]; [reflexivity|]. now rewrite IHm. Qed.

Lemma items_spec next (k : nat) (v : Z -> f32) n : (0 < k)%nat ->
  (forall s, 0 <= s <= 2 ^ 44 -> next s = Ok (lcg k s, v s)) ->
  forall s, 0 <= s <= 2 ^ 44 ->
  items next n s = Ok (lcg (k * n) s, map (fun i => v (lcg (k * i) s)) (seq 0 n)).
Proof.
  intros Hk Hn. induction n as [|n IH]; intros s Hs.
  - rewrite Nat.mul_0_r. reflexivity.
  - cbn [items]. rewrite Hn by exact Hs. cbn [bind]. rewrite IH by now apply lcg_range. cbn [bind].
    rewrite <- lcg_plus. replace (k * n + k)%nat with (k * S n)%nat by lia. do 2 f_equal.
    cbn [seq map]. rewrite Nat.mul_0_r. cbn [lcg]. f_equal. rewrite <- seq_shift, map_map.
    apply map_ext. intros i. rewrite <- lcg_plus. do 2 f_equal. lia.
Qed.

(** From every seed up to 2^44 (the codec uses 314 and what follows from it), in both
    builds: no overflow, the next state and every value determined by the recurrence,
    values strictly between -1 and 1. *)
Theorem C34_triangle : forall p seed n, 0 <= seed <= 2 ^ 44 ->
  exists vs, items (triangle_next p) n seed = Ok (lcg (2 * n) seed, vs) /\ length vs = n /\
  forall i, (i < n)%nat ->
    is_finite (nth i vs f0) = true /\
    B2R (nth i vs f0) = ((IZR (lcg (2 * i + 2) seed mod 16384) - IZR (lcg (2 * i + 1) seed mod 16384)) / 16384)%R /\
    (-1 < B2R (nth i vs f0) < 1)%R.
Proof.
  intros p seed n Hs.
  assert (H : forall s, 0 <= s <= 2 ^ 44 -> triangle_next p s = Ok (lcg 2 s, triangle_of (lcg 1 s) (lcg 2 s))).
  { intros s H. unfold triangle_next. rewrite rand_ok by exact H. cbn [bind].
    rewrite rand_ok by apply (lcg_range 1 s H). cbn [bind lcg]. reflexivity. }
  pose proof (items_spec _ 2 (fun s => triangle_of (lcg 1 s) (lcg 2 s)) n ltac:(lia) H seed Hs) as E.
  eexists. split; [exact E|]. split; [now rewrite map_length, seq_length|].
  intros i Hi. set (F := fun i => triangle_of (lcg 1 (lcg (2 * i) seed)) (lcg 2 (lcg (2 * i) seed))).
  rewrite (nth_indep _ f0 (F 0%nat)) by now rewrite map_length, seq_length.
  rewrite (map_nth F), seq_nth by exact Hi. unfold F. cbn [Nat.add]. rewrite <- !lcg_plus.
  replace (1 + 2 * i)%nat with (2 * i + 1)%nat by lia. replace (2 + 2 * i)%nat with (2 * i + 2)%nat by lia.
  destruct (triangle_R (lcg (2 * i + 1) seed) (lcg (2 * i + 2) seed)) as [F1 V1].
  destruct (triangle_bound (lcg (2 * i + 1) seed) (lcg (2 * i + 2) seed)) as [_ B1].
  split; [exact F1|]. split; [|exact B1]. change 16383 with (Z.ones 14) in V1. rewrite !Z.land_ones in V1 by lia. exact V1.
Qed.
Print Assumptions C34_triangle.

Lemma uniform_R r : is_finite (uniform_of r) = true /\ B2R (uniform_of r) = (IZR (r mod 1024) / 512 - 1)%R.
Proof.
  assert (H : forallb (fun k => match B2SF (uniform_of k) with
     | SpecFloat.S754_zero _ => k =? 512
     | SpecFloat.S754_finite s m e =>
        (0 <=? - e) && (Zaux.cond_Zopp s (Zpos m) * 512 =? (k - 512) * 2 ^ (- e))
     | _ => false end) (range 1024) = true) by (vm_compute; reflexivity).
  assert (E : uniform_of r = uniform_of (r mod 1024)).
  { unfold uniform_of. do 4 f_equal. change 1023 with (Z.ones 10). rewrite !Z.land_ones by lia.
    change (2 ^ 10) with 1024. now rewrite Z.mod_mod by lia. }
  rewrite E. pose proof (Z.mod_pos_bound r 1024 ltac:(lia)) as B. revert B. generalize (r mod 1024). intros k B.
  rewrite forallb_forall in H. specialize (H k (proj2 (in_range 1024 k) B)).
  destruct (uniform_of k) as [s|s| |s m e Hb]; cbn [B2SF] in H; try discriminate.
  - split; [reflexivity|]. cbn [B2R]. replace k with 512 by lia. lra.
  - split; [reflexivity|]. cbn [B2R]. apply andb_prop in H. destruct H as [He H]. apply Z.eqb_eq in H.
    apply Z.leb_le in He. unfold Defs.F2R. cbn [Defs.Fnum Defs.Fexp].
    apply (f_equal IZR) in H. rewrite !mult_IZR, minus_IZR in H.
    assert (P : IZR (2 ^ (- e)) = Raux.bpow Zaux.radix2 (- e)) by (rewrite <- (Raux.IZR_Zpower Zaux.radix2) by lia; reflexivity).
    rewrite P in H. replace (IZR k / 512 - 1)%R with ((IZR k - 512) / 512)%R by lra.
    assert (P2 : (Raux.bpow Zaux.radix2 (- e) * Raux.bpow Zaux.radix2 e = 1)%R)
      by (rewrite <- Raux.bpow_plus; now replace (- e + e) with 0 by lia).
    replace (IZR (Zaux.cond_Zopp s (Z.pos m))) with ((IZR k - 512) * Raux.bpow Zaux.radix2 (- e) / 512)%R by lra.
    transitivity ((IZR k - 512) / 512 * (Raux.bpow Zaux.radix2 (- e) * Raux.bpow Zaux.radix2 e))%R; [unfold Rdiv; ring|].
    rewrite P2. ring.
Qed.
Theorem C34_uniform : forall p seed n, 0 <= seed <= 2 ^ 44 ->
  exists vs, items (uniform_next p) n seed = Ok (lcg n seed, vs) /\ length vs = n /\
  forall i, (i < n)%nat ->
    is_finite (nth i vs f0) = true /\
    B2R (nth i vs f0) = (IZR (lcg (i + 1) seed mod 1024) / 512 - 1)%R /\
    (-1 <= B2R (nth i vs f0) < 1)%R.
Proof.
  intros p seed n Hs.
  assert (H : forall s, 0 <= s <= 2 ^ 44 -> uniform_next p s = Ok (lcg 1 s, uniform_of (lcg 1 s))).
  { intros s H. unfold uniform_next. rewrite rand_ok by exact H. reflexivity. }
  pose proof (items_spec _ 1 (fun s => uniform_of (lcg 1 s)) n ltac:(lia) H seed Hs) as E. rewrite Nat.mul_1_l in E.
  eexists. split; [exact E|]. split; [now rewrite map_length, seq_length|].
  intros i Hi. set (F := fun i => uniform_of (lcg 1 (lcg (1 * i) seed))).
  rewrite (nth_indep _ f0 (F 0%nat)) by now rewrite map_length, seq_length.
  rewrite (map_nth F), seq_nth by exact Hi. unfold F. rewrite Nat.mul_1_l, <- lcg_plus. cbn [Nat.add].
  replace (i + 1)%nat with (S i) by lia. destruct (uniform_R (lcg (S i) seed)) as [F1 V1].
  split; [exact F1|]. split; [exact V1|]. rewrite V1.
  pose proof (Z.mod_pos_bound (lcg (S i) seed) 1024 ltac:(lia)) as B.
  assert (0 <= IZR (lcg (S i) seed mod 1024) <= 1023)%R by (split; apply IZR_le; lia). lra.
Qed.
Print Assumptions C34_uniform.
(** Beyond the range the multiplication overflows: a debug build panics. *)
Example C34_big_seed : triangle_next Debug (2 ^ 45) = Panic ArithmeticOverflow.
Proof. reflexivity. Qed.
Example C34_first : lcg 1 314 = 395203 /\ 395203 mod 16384 = 1987.
Proof. vm_compute. auto. Qed.

(** ** C49: PCM to float and back *)
Definition back (q : Z) : Z := truncate_sample (normalize_sample q).
(** Magnitudes 1..32767: [up]/[down] say whether the last one came back unchanged. *)
Fixpoint sweep (n : nat) (q : Z) (up down : bool) (changed : Z) : option Z :=
  match n with
  | O => Some changed
  | S n =>
      let a := back q in
      let b := back (- q) in
      let up' := a =? q in
      let down' := b =? - q in
      if (up' || (a =? q - 1) && up) && (down' || (b =? 1 - q) && down)
      then sweep n (q + 1) up' down' (changed + (if up' then 0 else 1) + (if down' then 0 else 1))
      else None
  end.
Definition fair (q : Z) : Prop :=
  (back q = q \/ back q = q - Z.sgn q /\ q <> 0) /\ back (back q) = back q.
Definition changes (l : list Z) : Z := zlen (filter (fun q => negb (back q =? q)) l).
Lemma sweep_spec n : forall q up down changed r, 0 < q ->
  (up = true -> back (q - 1) = q - 1) -> (down = true -> back (1 - q) = 1 - q) ->
  sweep n q up down changed = Some r ->
  (forall x, q <= Z.abs x < q + Z.of_nat n -> fair x) /\
  r = changed + changes (map (fun i => q + Z.of_nat i) (seq 0 n)) + changes (map (fun i => - (q + Z.of_nat i)) (seq 0 n)).
Proof.
  induction n as [|n IH]; intros q up down changed r Hq Hu Hd H.
  - cbn [sweep] in H. injection H as <-. split; [intros; lia|]. cbn. lia.
  - cbn [sweep] in H. cbv zeta in H.
    destruct (_ && _) eqn:C in H; [|discriminate]. apply andb_prop in C. destruct C as [C1 C2].
    apply IH in H; [|lia|intros U|intros U].
    2:{ apply Z.eqb_eq in U. now replace (q + 1 - 1) with q by lia. }
    2:{ apply Z.eqb_eq in U. now replace (1 - (q + 1)) with (- q) by lia. }
    destruct H as [H E]. split.
    + intros x Hx. destruct (Z.eq_dec (Z.abs x) q) as [Ex|Ex]; [|apply H; lia].
      assert (Hs : x = q \/ x = - q) by lia. destruct Hs as [-> | ->]; unfold fair.
      * apply orb_prop in C1. rewrite Z.sgn_pos by lia. destruct C1 as [C1|C1].
        -- apply Z.eqb_eq in C1. rewrite !C1. auto.
        -- apply andb_prop in C1. destruct C1 as [C1 U]. apply Z.eqb_eq in C1. rewrite C1.
           split; [right; split; lia|now apply Hu].
      * apply orb_prop in C2. rewrite Z.sgn_neg by lia. destruct C2 as [C2|C2].
        -- apply Z.eqb_eq in C2. rewrite !C2. auto.
        -- apply andb_prop in C2. destruct C2 as [C2 U]. apply Z.eqb_eq in C2. rewrite C2.
           split; [right; split; lia|now apply Hd].
    + rewrite E. cbn [seq map]. unfold changes. cbn [filter]. rewrite Z.add_0_r.
      rewrite <- seq_shift, !map_map.
      rewrite (map_ext (fun x => q + Z.of_nat (S x)) (fun i => q + 1 + Z.of_nat i)) by (intros; lia).
      rewrite (map_ext (fun x => - (q + Z.of_nat (S x))) (fun i => - (q + 1 + Z.of_nat i))) by (intros; lia).
      destruct (back q =? q), (back (- q) =? - q); cbn [negb]; rewrite ?zlen_cons; lia.
Qed.
Lemma sweep_all : sweep (Z.to_nat 32767) 1 true true 0 = Some 1536.
Proof. vm_cast_no_check (eq_refl (Some 1536)). Qed.
(** Every 16-bit sample comes back as itself or one step closer to zero, and a second
    conversion changes nothing more; 1537 of the 65536 samples change. *)
Theorem C49_pcm_float : forall q, -32768 <= q <= 32767 ->
  let q' := truncate_sample (normalize_sample q) in
  (q' = q \/ q' = q - Z.sgn q /\ q <> 0) /\ truncate_sample (normalize_sample q') = q'.
Proof.
  intros q Hq. change (fair q).
  destruct (Z.eq_dec q (-32768)) as [->|N1].
  { split; [right; vm_compute; split; [reflexivity|discriminate]|vm_compute; reflexivity]. }
  destruct (Z.eq_dec q 0) as [->|N0]; [split; [left|]; vm_compute; reflexivity|].
  destruct (sweep_spec _ _ _ _ _ _ Z.lt_0_1 ltac:(intros; vm_compute; reflexivity) ltac:(intros; vm_compute; reflexivity) sweep_all) as [H _].
  apply H. rewrite Z2Nat.id by lia. lia.
Qed.
Print Assumptions C49_pcm_float.
Theorem C49_changed : changes (map (fun k => k - 32768) (range 65536)) = 1537.
Proof.
  destruct (sweep_spec _ _ _ _ _ _ Z.lt_0_1 ltac:(intros; vm_compute; reflexivity) ltac:(intros; vm_compute; reflexivity) sweep_all) as [_ H].
  assert (EN : Z.of_nat (Z.to_nat 32767) = 32767) by (apply Z2Nat.id; lia).
  assert (EN2 : Z.to_nat 65536 = (1 + (Z.to_nat 32767 + (1 + Z.to_nat 32767)))%nat) by lia.
  revert H EN EN2. generalize (Z.to_nat 32767) as N. intros N H EN EN2.
  set (ups := map (fun i => 1 + Z.of_nat i) (seq 0 N)) in H.
  set (downs := map (fun i => - (1 + Z.of_nat i)) (seq 0 N)) in H.
  assert (P : map (fun k => k - 32768) (range 65536) = -32768 :: rev downs ++ 0 :: ups).
  { clear H. unfold range. rewrite map_map.
    rewrite EN2.
    rewrite !seq_app, !map_app. cbn [Nat.add seq map app]. f_equal.
    subst ups downs. 
    assert (G : forall n a b : nat, Z.of_nat a - 32768 = - Z.of_nat n - Z.of_nat b ->
      map (fun x : nat => Z.of_nat x - 32768) (seq a n) = rev (map (fun i => - (1 + Z.of_nat i)) (seq b n))).
    { induction n as [|n IH]; intros a b E; [reflexivity|]. 
      rewrite (seq_S n b), map_app, rev_app_distr. cbn [map rev app seq].
      f_equal; [lia|]. apply IH. lia. }
    f_equal; [apply G; lia|]. f_equal; [lia|].
    assert (G2 : forall n a b : nat, Z.of_nat a - 32768 = 1 + Z.of_nat b ->
      map (fun x : nat => Z.of_nat x - 32768) (seq a n) = map (fun i => 1 + Z.of_nat i) (seq b n)).
    { induction n as [|n IH]; intros a b E; [reflexivity|]. cbn [seq map]. f_equal; [lia|]. apply IH. lia. }
    apply G2. lia. }
  unfold changes in *.
  assert (L : forall a b, Permutation a b -> forall f : Z -> bool, zlen (filter f a) = zlen (filter f b)).
  { intros a b Q f. induction Q as [|x a b Q IH|x y a|a b c Q1 IH1 Q2 IH2]; cbn [filter].
    - reflexivity.
    - destruct (f x); rewrite ?zlen_cons; lia.
    - destruct (f x), (f y); rewrite ?zlen_cons; lia.
    - lia. }
  rewrite P. cbn [filter]. replace (back (-32768) =? -32768) with false by (vm_compute; reflexivity).
  cbn [negb]. rewrite zlen_cons, filter_app, zlen_app. cbn [filter].
  replace (back 0 =? 0) with true by (vm_compute; reflexivity). cbn [negb].
  rewrite (L _ _ (Permutation_sym (Permutation_rev downs))). lia.
Qed.
Print Assumptions C49_changed.
Example C49_cases : back 512 = 512 /\ back 513 = 512 /\ back (-513) = -512 /\ back 514 = 514.
Proof. vm_compute. auto. Qed.
