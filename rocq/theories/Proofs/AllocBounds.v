(** * How much the vectors are asked for, and how often that makes the allocator work *)
From Coq Require Import ZArith List Bool Lia.
From Verif Require Import Model.Base Model.F32 Model.Noise Model.Sample Model.BitStream Model.NibbleList Model.BitVec Model.CircularStack Model.Frame Model.Adhoc
  Model.Wav Model.Allocs Spec.Allocation Proofs.BaseFacts Proofs.BitStreamFacts Proofs.EncodeFacts Proofs.AnyState Proofs.Memory Proofs.Oversize Proofs.Terminates Proofs.StepFacts Proofs.AllocFacts.
Import ListNotations.
Open Scope Z_scope.

(** ** One vector *)
Definition requests (v : vector) (rs : list (vector * Z)) : list Z := map snd (filter (fun r => if vector_eq_dec (fst r) v then true else false) rs).
Fixpoint count (g : Z -> Z -> Z) (cap : Z) (ns : list Z) : Z :=
  match ns with [] => 0 | n :: ns => if n <=? cap then count g cap ns else 1 + count g (g cap n) ns end.
Fixpoint carry (g : Z -> Z -> Z) (cap : Z) (ns : list Z) : Z :=
  match ns with [] => 0 | n :: ns => if n <=? cap then carry g cap ns else cap + carry g (g cap n) ns end.
Fixpoint finally (g : Z -> Z -> Z) (cap : Z) (ns : list Z) : Z :=
  match ns with [] => cap | n :: ns => if n <=? cap then finally g cap ns else finally g (g cap n) ns end.
Lemma requests_same v n rs : requests v ((v, n) :: rs) = n :: requests v rs.
Proof. unfold requests. cbn [filter fst]. destruct (vector_eq_dec v v); [reflexivity|congruence]. Qed.
Lemma requests_other v u n rs : u <> v -> requests v ((u, n) :: rs) = requests v rs.
Proof. intros H. unfold requests. cbn [filter fst]. destruct (vector_eq_dec u v); [congruence|reflexivity]. Qed.
Lemma requests_in v n rs : In n (requests v rs) <-> In (v, n) rs.
Proof.
  unfold requests. rewrite in_map_iff. split.
  - intros ([u m] & E & H). cbn [snd] in E. subst m. apply filter_In in H. destruct H as [H1 H2]. cbn [fst] in H2. destruct (vector_eq_dec u v); [subst; auto|discriminate].
  - intros H. exists (v, n). split; auto. apply filter_In. split; auto. cbn [fst]. destruct (vector_eq_dec v v); congruence.
Qed.
Lemma set_same caps v n : set_capacity caps v n v = n.
Proof. unfold set_capacity. destruct (vector_eq_dec v v); congruence. Qed.
Lemma set_other caps v u n : u <> v -> set_capacity caps v n u = caps u.
Proof. intros H. unfold set_capacity. destruct (vector_eq_dec u v); congruence. Qed.
Lemma capacities_one g caps rs v : capacities g caps rs v = finally (g v) (caps v) (requests v rs).
Proof.
  revert caps; induction rs as [|[u n] rs IH]; intros caps; [reflexivity|]. cbn [capacities]. destruct (vector_eq_dec u v) as [->|N].
  - rewrite requests_same. cbn [finally]. destruct (n <=? caps v); rewrite IH; rewrite ?set_same; reflexivity.
  - rewrite requests_other by auto. destruct (n <=? caps u); rewrite IH; [reflexivity|]. rewrite set_other by auto. reflexivity.
Qed.

(** ** Several vectors *)
Definition total (F : vector -> Z) (vs : list vector) : Z := fold_right (fun v b => F v + b) 0 vs.
Lemma total_ext F G vs : (forall v, In v vs -> F v = G v) -> total F vs = total G vs.
Proof. induction vs as [|v vs IH]; intros H; cbn [total fold_right]; [reflexivity|]. fold (total F vs) (total G vs). rewrite IH, H; auto; [now left|]. intros u Hu. apply H. now right. Qed.
Lemma total_le F G vs : (forall v, In v vs -> F v <= G v) -> total F vs <= total G vs.
Proof. induction vs as [|v vs IH]; intros H; cbn [total fold_right]; [lia|]. fold (total F vs) (total G vs). specialize (IH (fun u Hu => H u (or_intror Hu))). specialize (H v (or_introl eq_refl)). lia. Qed.
Lemma total_one F G vs v d : NoDup vs -> In v vs -> G v = F v + d -> (forall u, u <> v -> G u = F u) -> total G vs = total F vs + d.
Proof.
  intros ND HI HV HO. induction ND as [|u vs NI ND IH]; [destruct HI|]. cbn [total fold_right]. fold (total F vs) (total G vs). destruct HI as [->|HI].
  - rewrite HV. rewrite (total_ext G F vs); [lia|]. intros w Hw. apply HO. intros ->. auto.
  - rewrite IH by auto. rewrite (HO u); [lia|]. intros ->. auto.
Qed.
Lemma total_const b vs : total (fun _ => b) vs = b * zlen vs.
Proof. induction vs as [|v vs IH]; [cbn; change (zlen (@nil vector)) with 0; lia|]. cbn [total fold_right]. fold (total (fun _ => b) vs). rewrite zlen_cons, IH. lia. Qed.
Lemma total_app F vs ws : total F (vs ++ ws) = total F vs + total F ws.
Proof. induction vs as [|v vs IH]; [reflexivity|]. cbn [app total fold_right]. fold (total F (vs ++ ws)) (total F vs). lia. Qed.
Lemma total_count g caps rs vs : NoDup vs -> (forall v n, In (v, n) rs -> In v vs) ->
  allocations g caps rs = total (fun v => count (g v) (caps v) (requests v rs)) vs.
Proof.
  intros ND. revert caps; induction rs as [|[v n] rs IH]; intros caps H; cbn [allocations].
  { symmetry. rewrite (total_ext _ (fun _ => 0)) by reflexivity. rewrite total_const. lia. }
  assert (HV : In v vs) by (eapply H; now left). assert (H' : forall u m, In (u, m) rs -> In u vs) by (intros; eapply H; right; eauto).
  destruct (n <=? caps v) eqn:E; rewrite IH by auto.
  - apply total_ext. intros u _. destruct (vector_eq_dec v u) as [<-|N]; [|now rewrite requests_other by auto].
    rewrite requests_same. cbn [count]. now rewrite E.
  - symmetry. rewrite Z.add_comm. apply total_one with (v := v); auto.
    + rewrite requests_same, set_same. cbn [count]. rewrite E. lia.
    + intros u N. rewrite requests_other, set_other by auto. reflexivity.
Qed.
Lemma total_carry g caps rs vs : NoDup vs -> (forall v n, In (v, n) rs -> In v vs) ->
  moved g caps rs = total (fun v => carry (g v) (caps v) (requests v rs)) vs.
Proof.
  intros ND. revert caps; induction rs as [|[v n] rs IH]; intros caps H; cbn [moved].
  { symmetry. rewrite (total_ext _ (fun _ => 0)) by reflexivity. rewrite total_const. lia. }
  assert (HV : In v vs) by (eapply H; now left). assert (H' : forall u m, In (u, m) rs -> In u vs) by (intros; eapply H; right; eauto).
  destruct (n <=? caps v) eqn:E; rewrite IH by auto.
  - apply total_ext. intros u _. destruct (vector_eq_dec v u) as [<-|N]; [|now rewrite requests_other by auto].
    rewrite requests_same. cbn [carry]. now rewrite E.
  - symmetry. rewrite Z.add_comm. apply total_one with (v := v); auto.
    + rewrite requests_same, set_same. cbn [carry]. rewrite E. lia.
    + intros u N. rewrite requests_other, set_other by auto. reflexivity.
Qed.

(** ** Doubling *)
Definition doubles (g : Z -> Z -> Z) : Prop := forall cap n, 0 <= cap < n -> 2 * cap <= g cap n /\ n <= g cap n.
Definition modest (g : Z -> Z -> Z) : Prop := forall cap n, 0 <= cap < n -> g cap n <= Z.max 8 (Z.max (2 * cap) n).
Lemma count_nonneg g cap ns : 0 <= count g cap ns.
Proof. revert cap; induction ns as [|n ns IH]; intros cap; cbn [count]; [lia|]. destruct (_ <=? _); [apply IH|]. specialize (IH (g cap n)). lia. Qed.
Lemma count_pow g cap ns N : doubles g -> 0 <= cap -> Forall (fun n => n <= N) ns -> let k := count g cap ns in
  (1 <= k -> cap * 2 ^ (k - 1) < N) /\ (2 <= k -> 2 ^ (k - 2) < N).
Proof.
  intros HG HC HF. revert cap HC. induction HF as [|n ns Hn HF IH]; intros cap HC; cbn [count]; [cbv zeta; lia|].
  destruct (Z.leb_spec n cap) as [Q|Q]; [now apply IH|]. destruct (HG cap n ltac:(lia)) as [G1 G2]. destruct (IH (g cap n) ltac:(lia)) as [I1 I2].
  pose proof (count_nonneg g (g cap n) ns) as K0. set (k := count g (g cap n) ns) in *. clearbody k. set (c' := g cap n) in *. clearbody c'. cbv zeta in *.
  destruct (Z.eq_dec k 0) as [->|K]; [cbn; lia|]. specialize (I1 ltac:(lia)).
  assert (E : 2 ^ (1 + k - 1) = 2 * 2 ^ (k - 1)) by (rewrite <- Z.pow_succ_r by lia; f_equal; lia).
  assert (P : 0 < 2 ^ (k - 1)) by (apply Z.pow_pos_nonneg; lia). replace (1 + k - 2) with (k - 1) by lia. rewrite E. set (e := 2 ^ (k - 1)) in *. clearbody e. split; intros _; nia.
Qed.
Lemma count_bound g cap ns N : doubles g -> 0 <= cap -> Forall (fun n => n <= N) ns -> count g cap ns <= 1 + Z.log2_up N.
Proof.
  intros HG HC HF. destruct (count_pow g cap ns N HG HC HF) as [_ H2]. pose proof (count_nonneg g cap ns). set (k := count g cap ns) in *. clearbody k.
  pose proof (Z.log2_up_nonneg N). destruct (Z.le_gt_cases 2 k) as [K|K]; [|lia]. specialize (H2 K).
  assert (k - 2 < Z.log2_up N); [|lia]. apply Z.log2_up_lt_pow2; [|exact H2]. assert (0 < 2 ^ (k - 2)) by (apply Z.pow_pos_nonneg; lia). lia.
Qed.
Lemma carry_bound g cap ns N : doubles g -> 0 <= cap -> Forall (fun n => n <= N) ns -> carry g cap ns <= Z.max 0 (2 * (N - 1) - cap).
Proof.
  intros HG HC HF. revert cap HC. induction HF as [|n ns Hn HF IH]; intros cap HC; cbn [carry]; [lia|].
  destruct (Z.leb_spec n cap) as [Q|Q]; [now apply IH|]. destruct (HG cap n ltac:(lia)) as [G1 G2]. specialize (IH (g cap n) ltac:(lia)). lia.
Qed.
Lemma finally_bound g cap ns N : modest g -> doubles g -> 0 <= cap -> Forall (fun n => n <= N) ns -> 0 <= finally g cap ns <= Z.max cap (Z.max 8 (2 * N)).
Proof.
  intros HM HG HC HF. revert cap HC. induction HF as [|n ns Hn HF IH]; intros cap HC; cbn [finally]; [lia|].
  destruct (Z.leb_spec n cap) as [Q|Q]; [now apply IH|]. destruct (HG cap n ltac:(lia)) as [G1 G2]. specialize (HM cap n ltac:(lia)). specialize (IH (g cap n) ltac:(lia)). lia.
Qed.
Lemma finally_enough g cap ns n : doubles g -> 0 <= cap -> In n ns -> n <= finally g cap ns.
Proof.
  intros HG. assert (MONO : forall ns cap, 0 <= cap -> cap <= finally g cap ns).
  { clear -HG. induction ns as [|m ns IH]; intros cap HC; cbn [finally]; [lia|]. destruct (Z.leb_spec m cap); [auto|].
    destruct (HG cap m ltac:(lia)). specialize (IH (g cap m) ltac:(lia)). lia. }
  revert cap; induction ns as [|m ns IH]; intros cap HC HI; [destruct HI|]. cbn [finally]. destruct (Z.leb_spec m cap) as [Q|Q].
  - destruct HI as [->|HI]; [specialize (MONO ns cap HC); lia|auto].
  - destruct (HG cap m ltac:(lia)). destruct HI as [->|HI]; [specialize (MONO ns (g cap n) ltac:(lia)); lia|apply IH; auto; lia].
Qed.
(** What a log costs if no vector is asked for more than [most]. *)
Section Cost.
  Variables (g : vector -> Z -> Z -> Z) (caps : vector -> Z) (rs : list (vector * Z)) (vs : list vector) (most : vector -> Z).
  Hypotheses (HG : doubling g) (HC : forall v, 0 <= caps v) (ND : NoDup vs) (HR : forall v n, In (v, n) rs -> In v vs /\ n <= most v).
  Lemma request_most v : Forall (fun n => n <= most v) (requests v rs).
  Proof. apply Forall_forall. intros n Hn. apply requests_in in Hn. now apply HR. Qed.
  Lemma cost_allocations : allocations g caps rs <= total (fun v => 1 + Z.log2_up (most v)) vs.
  Proof.
    rewrite (total_count g caps rs vs ND) by (intros v n H; apply (HR v n H)). apply total_le. intros v _.
    apply count_bound; [exact (HG v)|apply HC|apply request_most].
  Qed.
  Lemma cost_moved : moved g caps rs <= total (fun v => Z.max 0 (2 * (most v - 1))) vs.
  Proof.
    rewrite (total_carry g caps rs vs ND) by (intros v n H; apply (HR v n H)). apply total_le. intros v _.
    pose proof (carry_bound (g v) (caps v) (requests v rs) (most v) (HG v) (HC v) (request_most v)). specialize (HC v). lia.
  Qed.
  Lemma cost_capacity v : moderate g -> 0 <= capacities g caps rs v <= Z.max (caps v) (Z.max 8 (2 * most v)).
  Proof. intros HM. rewrite capacities_one. apply finally_bound; [exact (HM v)|exact (HG v)|apply HC|apply request_most]. Qed.
  Lemma capacity_enough v n : In (v, n) rs -> n <= capacities g caps rs v.
  Proof. intros H. rewrite capacities_one. apply finally_enough; [exact (HG v)|apply HC|now apply requests_in]. Qed.
End Cost.

(** ** Requests of a piece of code, whatever its outcome *)
Definition asks {A} (P : vector -> Z -> Prop) (m : logged A) : Prop := forall v n, In (v, n) (log m) -> P v n.
Lemma asks_bind {A B} P (m : logged A) (k : A -> logged B) : asks P m -> (forall a, outcome_of m = Ok a -> asks P (k a)) -> asks P (lbind m k).
Proof.
  unfold asks, log, outcome_of, lbind. intros H1 H2 v n. destruct (snd m) as [a| |]; cbn [fst]; auto. intros H. apply in_app_or in H.
  destruct H as [H|H]; [auto|]. eapply H2; eauto.
Qed.
Lemma asks_quiet {A} P (m : outcome A) : asks P (quiet m).
Proof. intros v n []. Qed.
Lemma asks_then {A B} P (m : outcome A) (k : A -> logged B) : (forall a, m = Ok a -> asks P (k a)) -> asks P (lbind (quiet m) k).
Proof. intros H. apply asks_bind; [apply asks_quiet|exact H]. Qed.
Lemma asks_push {A} (P : vector -> Z -> Prop) v (l : list A) a : P v (zlen l + 1) -> asks P (pushL v l a).
Proof. intros H u n [[= <- <-]|[]]. exact H. Qed.
Lemma asks_foldM {S X} P (I : list X -> S -> Prop) (f : S -> X -> logged S) l s : I l s ->
  (forall s x l, I (x :: l) s -> asks P (f s x) /\ forall s', outcome_of (f s x) = Ok s' -> I l s') -> asks P (lfoldM f l s).
Proof.
  intros H0 H. revert s H0; induction l as [|x l IH]; intros s H0; cbn [lfoldM]; [apply asks_quiet|]. destruct (H _ _ _ H0) as [H1 H2].
  apply asks_bind; auto.
Qed.

(** ** Decoding *)
Section Decode.
  Variables X ch : Z.
  Hypothesis X_small : X <= 2 ^ 70.
  Definition roomy (v : vector) (n : Z) : Prop :=
    match v with Table Chunks => n <= X / 128 + 2 | Buffer j => 0 <= j < ch /\ n <= 65535 | _ => False end.
  Lemma asks_allocate s i : 0 <= i -> i <= X / 128 + 1 -> asks roomy (allocateL s i).
  Proof.
    intros H0 H. unfold allocateL. destruct (Z.leb_spec (zlen (bs_binary s)) i); [|apply asks_quiet].
    apply asks_bind; [apply asks_push; cbn; lia|]. intros; apply asks_quiet.
  Qed.
  Lemma asks_peek p s n : 0 <= bs_cursor s < X -> asks roomy (peek_bitsL p s n).
  Proof.
    intros [C0 C1]. assert (Q : 0 <= bs_cursor s / 128 <= X / 128) by (split; [apply Z.div_pos; lia|apply Z.div_le_mono; lia]).
    assert (K : chunk_index s = bs_cursor s / 128).
    { apply uwrap_small. split; [lia|]. assert (X / 128 <= 2 ^ 70 / 128) by (apply Z.div_le_mono; lia). change (2 ^ 70 / 128) with 9223372036854775808 in H.
      change (2 ^ 64) with 18446744073709551616. lia. }
    unfold peek_bitsL. rewrite K. apply asks_then. intros nxt E. apply uchk_below in E; [|lia].
    apply asks_bind; [apply asks_allocate; lia|]. intros s1 _. apply asks_bind; [apply asks_allocate; lia|]. intros s2 _. apply asks_quiet.
  Qed.
  Lemma asks_read_bits p s n : 0 <= bs_cursor s < X -> asks roomy (read_bitsL p s n).
  Proof. intros H. unfold read_bitsL. apply asks_bind; [now apply asks_peek|]. intros [s1 v] _. apply asks_then. intros; apply asks_quiet. Qed.
  Lemma asks_skip p L fuel s q : tail0 L s -> far X L 0 s -> asks roomy (skip_onesL p fuel s q).
  Proof.
    revert s q; induction fuel as [|fuel IH]; intros s q HT HF; cbn [skip_onesL]; [apply asks_quiet|]. pose proof HF as [F1 F2].
    apply asks_bind; [apply asks_peek; lia|]. intros [s1 v] E1. rewrite out_peek in E1. destruct (Z.eqb_spec v (2 ^ 128 - 1)) as [EC|EC]; [|apply asks_quiet].
    apply asks_then. intros s2 E2. apply asks_then. intros q' _.
    assert (C : bs_cursor s < 128 * L) by (eapply chunk_lt; [exact X_small|exact HF|lia|]; eapply peek_one; [exact HT|exact E1|rewrite EC; apply ones_odd]).
    pose proof (peek_stays _ _ _ _ _ E1) as S1. pose proof (offset_moves p s1 128 s2 ltac:(lia) ltac:(lia) ltac:(lia) E2) as M. apply IH.
    - eapply tail0_kept; [|eapply offset_kept; eauto]. eapply tail0_kept; [exact HT|eapply peek_kept; eauto].
    - split; lia.
  Qed.
  Lemma asks_read p L k s e : tail0 L s -> far X L (k + 1) s -> 0 <= k -> asks roomy (read_compressedL p s e).
  Proof.
    intros HT HF Hk. pose proof HF as [F1 F2]. unfold read_compressedL. apply asks_then. intros [s1 b] E1.
    pose proof (read_bit_moves _ _ _ _ F1 ltac:(lia) E1) as M1. assert (T1 : tail0 L s1) by (eapply tail0_kept; [exact HT|eapply read_bit_kept; eauto]).
    assert (G1 : far X L 0 s1) by (split; lia). apply asks_then. intros dv _. apply asks_bind; [eapply asks_skip; eauto|].
    intros [[s2 q] ck] E2. rewrite out_skip_ones in E2. destruct (cost_skip X X_small p L (S (S (length (bs_binary s1)))) s1 0 T1 G1) as [_ SK]. destruct (SK _ _ _ E2) as (M2 & M3 & M4).
    destruct (trailing_bound 128 ck) as [B1 B2]. change (Z.of_nat 128) with 128 in B1. apply asks_then. intros s3 E3.
    pose proof (offset_moves p s2 (trailing_ones 128 ck + 1) s3 ltac:(lia) ltac:(lia) ltac:(lia) E3) as M5. apply asks_then. intros q' _.
    apply asks_bind; [apply asks_read_bits; lia|]. intros [s4 r] _. do 7 (apply asks_then; intros ? _). apply asks_quiet.
  Qed.
  Lemma asks_decode_samples p L n k j s h b e : 0 <= j < ch -> tail0 L s -> far X L (k + Z.of_nat n) s -> 0 <= k -> 0 <= e < 16 ->
    zlen b + Z.of_nat n <= 65535 -> asks roomy (decode_samplesL p j s h b e n).
  Proof.
    intros Hj HT HF Hk He. revert s h b HT HF; induction n as [|n IH]; intros s h b HT HF HZ; cbn [decode_samplesL]; [apply asks_quiet|].
    rewrite Nat2Z.inj_succ in *. assert (HF' : far X L (k + Z.of_nat n + 1) s) by (eapply far_less; [exact HF|lia]).
    apply asks_bind; [eapply asks_read; [exact HT|exact HF'|lia]|]. intros [s1 v] E1. rewrite out_read_compressed in E1.
    destruct (proj2 (cost_read X X_small p L (k + Z.of_nat n) s e HT HF' ltac:(lia) He) _ _ E1) as [T1 G1].
    apply asks_bind; [apply asks_push; split; lia|]. intros b1 E2. rewrite out_push in E2. injection E2 as <-. apply IH; auto.
    rewrite zlen_app. change (zlen [_]) with 1. lia.
  Qed.
  Lemma asks_decode_raw p L n k s h : tail0 L s -> far X L (k + Z.of_nat n) s -> 0 <= k -> asks roomy (decode_rawL p s h n).
  Proof.
    intros HT HF Hk. revert s h HT HF; induction n as [|n IH]; intros s h HT HF; cbn [decode_rawL]; [apply asks_quiet|].
    rewrite Nat2Z.inj_succ in *. pose proof HF as [F1 F2]. apply asks_bind; [apply asks_read_bits; lia|]. intros [s1 v] E. rewrite out_read_bits in E.
    pose proof E as E'. apply read_bits_moves in E'; [|lia|lia|lia]. apply IH; [eapply tail0_kept; [exact HT|eapply read_bits_kept; eauto]|split; lia].
  Qed.
  Definition short (hs : frame_headers) : Prop := Forall (fun x => 0 <= x < 2 ^ 16) (fhs_sizes hs).
  Lemma next_short p hs hs' oh : short hs -> fhs_next p hs = Ok (hs', oh) ->
    short hs' /\ match oh with Some hd => 0 <= fh_size hd <= 65535 | None => True end.
  Proof.
    intros HS H. unfold fhs_next in H. destruct (_ <? _); [|injection H as <- <-; auto]. inv_bind H. do 3 inv_bind H. injection H as <- <-. split; [exact HS|].
    cbn [fh_size]. apply index_inv in Ha. destruct Ha as [_ Ha]. apply nth_error_In in Ha. unfold short in HS. rewrite Forall_forall in HS. specialize (HS _ Ha). change (2 ^ 16) with 65536 in HS. lia.
  Qed.
  Lemma asks_decode_frame p L j c s hs : 0 <= j < ch -> fit X L s hs -> short hs -> fc_buffer c = [] -> asks roomy (decode_frameL p j c s hs) /\
    forall c' s' hs', decode_frame p c s hs = Ok (c', s', hs') -> fit X L s' hs' /\ short hs'.
  Proof.
    intros Hj HX HS HB. split.
    - destruct HX as (HT & HO & HF). unfold decode_frameL. apply asks_then. intros [hs1 oh] E1. destruct oh as [hd|]; [|apply asks_quiet].
      destruct (next_short _ _ _ _ HS E1) as [_ SZ]. destruct (next_rest _ _ _ _ HO E1) as [O1 [S1 R1]]. pose proof (next_exponent _ _ _ _ E1) as X1. pose proof (rest_nonneg _ O1) as P1.
      rewrite HB. destruct (fc_state c).
      + assert (HF3 : far X L (rest hs1 + fh_size hd + Z.of_nat 3) s) by (eapply far_less; [exact HF|lia]).
        apply asks_bind; [eapply asks_decode_raw; [exact HT|exact HF3|lia]|]. intros [s1 h1] E2. rewrite out_decode_raw in E2.
        destruct (proj2 (cost_decode_raw X X_small p L 3 (rest hs1 + fh_size hd) s (fc_history c) HT HF3 ltac:(lia)) _ _ E2) as [T1 F1].
        do 3 (apply asks_bind; [apply asks_push; cbn [app]; change (zlen (@nil f32)) with 0; rewrite ?zlen_cons; change (zlen (@nil f32)) with 0; split; lia|];
              intros ? E; rewrite out_push in E; injection E as <-). cbn [app].
        apply asks_bind; [|intros [[s2 h2] b2] _; apply asks_quiet].
        apply (asks_decode_samples p L _ (rest hs1)); auto; [eapply far_less; [exact F1|lia]|rewrite !zlen_cons; change (zlen (@nil f32)) with 0; lia].
      + apply asks_quiet.
      + apply asks_bind; [|intros [[s2 h2] b2] _; apply asks_quiet].
        apply (asks_decode_samples p L _ (rest hs1)); auto; [eapply far_less; [exact HF|lia]|change (zlen (@nil f32)) with 0; lia].
    - intros c' s' hs' E. split; [eapply cost_decode_frame; eauto|]. unfold decode_frame in E. inv_bind E. destruct a as [hs1 oh].
      destruct (next_short _ _ _ _ HS Ha) as [S1 _]. destruct oh as [hd|]; [|now injection E as _ _ <-]. destruct (fc_state c); [|discriminate|].
      + inv_bind E. destruct a as [s1 h1]. inv_bind E. destruct a as [[s2 h2] b2]. now injection E as _ _ <-.
      + inv_bind E. destruct a as [[s2 h2] b2]. now injection E as _ _ <-.
  Qed.
  Definition dgood (L : Z) (d : dstate) : Prop := dfit X L ch d /\ short (snd d).
  Definition todo (L : Z) (l : list Z) (d : dstate) : Prop := dgood L d /\ NoDup l /\ forall j, In j l -> 0 <= j < ch /\
    forall fc, nth_error (fst (fst d)) (Z.to_nat j) = Some fc -> fc_buffer fc = [].
  Lemma nth_replace_other {A} (l : list A) i j a : i <> j -> nth_error (replace_nth i l a) j = nth_error l j.
  Proof. revert i j; induction l as [|x l IH]; intros [|i] [|j] H; cbn; auto; congruence. Qed.
  Lemma asks_decode_channel p L j l d : todo L (j :: l) d -> asks roomy (decode_channelL p d j) /\
    forall d', outcome_of (decode_channelL p d j) = Ok d' -> todo L l d'.
  Proof.
    intros ([HD HS] & ND & HB). destruct d as [[chs s] hs]. cbn [fst snd] in *. inversion ND as [|? ? NI ND']; subst.
    destruct (HB j (or_introl eq_refl)) as [Hj Hb]. split.
    - unfold decode_channelL. apply asks_then. intros fc E. apply index_inv in E. destruct E as [_ E]. destruct HD as [HZ HX]. cbn [fst snd] in *.
      apply asks_bind; [eapply asks_decode_frame; eauto|]. intros [[c1 s1] hs1] _. apply asks_then. intros; apply asks_quiet.
    - intros d' E. rewrite out_decode_channel in E. pose proof (proj2 (cost_decode_channel X X_small p L ch _ j HD) _ E) as D'.
      split; [split; [exact D'|]|split; [exact ND'|]].
      + unfold decode_channel in E. inv_bind E. inv_bind E. destruct a0 as [[c1 s1] hs1]. inv_bind E. injection E as <-. cbn [snd].
        apply index_inv in Ha. destruct Ha as [_ Ha]. destruct HD as [HZ HX]. cbn [fst snd] in *.
        now apply (proj2 (asks_decode_frame p L j a s hs Hj HX HS (Hb _ Ha)) _ _ _ Ha0).
      + intros i Hi. destruct (HB i (or_intror Hi)) as [Hi0 Hib]. split; [exact Hi0|]. unfold decode_channel in E. inv_bind E. inv_bind E.
        destruct a0 as [[c1 s1] hs1]. inv_bind E. injection E as <-. cbn [fst]. apply store_inv in Ha1. destruct Ha1 as [_ ->].
        rewrite nth_replace_other; [exact Hib|]. intros E. apply NI. replace j with i by lia. exact Hi.
  Qed.
  Lemma empty_all chs fc i : buffers_empty chs = true -> nth_error chs i = Some fc -> fc_buffer fc = [].
  Proof. intros H E. apply nth_error_In in E. unfold buffers_empty in H. rewrite forallb_forall in H. specialize (H _ E). destruct (fc_buffer fc); [reflexivity|discriminate]. Qed.
  Lemma todo_foldM p L l d d' : todo L l d -> foldM (decode_channel p) l d = Ok d' -> dgood L d'.
  Proof.
    revert d; induction l as [|j l IH]; intros d HT H; cbn [foldM] in H; [injection H as <-; apply HT|]. inv_bind H.
    eapply IH; [|exact H]. eapply (proj2 (asks_decode_channel p L j l d HT)). rewrite out_decode_channel. exact Ha.
  Qed.
  Lemma asks_buffer p L fuel d : dgood L d -> asks roomy (buffer_audioL p ch fuel d) /\ forall d' k, buffer_audio p ch fuel d = Ok (d', k) -> dgood L d'.
  Proof.
    revert d; induction fuel as [|fuel IH]; intros d HD; cbn [buffer_audioL buffer_audio]; [split; [apply asks_quiet|now intros d' k [= <- _]]|].
    destruct d as [[chs s] hs]. destruct (buffers_empty chs) eqn:EB; [|split; [apply asks_quiet|now intros d' k [= <- _]]].
    assert (HT : todo L (range ch) (chs, s, hs)).
    { split; [exact HD|]. split; [apply range_nodup|]. intros j Hj. apply in_range in Hj. split; [exact Hj|]. cbn [fst]. intros fc E. eapply empty_all; eauto. }
    split.
    - apply asks_bind; [apply (asks_foldM _ (todo L)); [exact HT|]; intros; now apply asks_decode_channel|]. intros d1 E1.
      rewrite (out_foldM _ (decode_channel p)) in E1 by (intros; apply out_decode_channel). pose proof (todo_foldM _ _ _ _ _ HT E1) as D1.
      apply asks_bind; [apply (IH _ D1)|]. intros [d2 k] _. apply asks_quiet.
    - intros d' k E. inv_bind E. pose proof (todo_foldM _ _ _ _ _ HT Ha) as D1. inv_bind E. destruct a0 as [d2 k2]. injection E as <- _.
      eapply (proj2 (IH _ D1)); eauto.
  Qed.
  Lemma asks_loop p L fuel room d : dgood L d -> asks roomy (decode_loopL p ch fuel room d) /\ forall d' o, decode_loop p ch fuel room d = Ok (d', o) -> dgood L d'.
  Proof.
    revert room d; induction fuel as [|fuel IH]; intros room d HD; cbn [decode_loopL decode_loop]; [split; [apply asks_quiet|discriminate]|].
    destruct (0 <? room); [|split; [apply asks_quiet|now intros d' k [= <- _]]]. destruct (asks_buffer p L MAX_DECODE_ATTEMPTS d HD) as [B1 B2].
    assert (NEXT : forall chs s hs chs1 out, dgood L (chs, s, hs) -> pop_block chs ch 0 (Z.to_nat ch) room = Ok (chs1, out) -> dgood L (chs1, s, hs)).
    { intros chs s hs chs1 out [[D1 D2] D3] E. pose proof (pop_block_keeps _ _ _ _ _ _ _ E) as [K _]. split; [split; [cbn [fst] in *; lia|exact D2]|exact D3]. }
    split.
    - apply asks_bind; [exact B1|]. intros [d1 k] E1. rewrite out_buffer_audio in E1. pose proof (B2 _ _ E1) as D1. destruct (_ <=? _)%nat; [apply asks_quiet|].
      destruct d1 as [[chs s] hs]. apply asks_then. intros [chs1 o] E2. apply asks_bind; [apply IH; eauto|]. intros [d3 o3] _. apply asks_quiet.
    - intros d' o E. inv_bind E. destruct a as [d1 k]. pose proof (B2 _ _ Ha) as D1. destruct (_ <=? _)%nat; [now injection E as <- _|].
      destruct d1 as [[chs s] hs]. inv_bind E. destruct a as [chs1 o1]. inv_bind E. destruct a as [d3 o3]. injection E as <- _.
      eapply (proj2 (IH _ _ (NEXT _ _ _ _ _ D1 Ha0))); eauto.
  Qed.
  Lemma asks_decode p L c buf info : ad_info c = Ok info -> si_channels info = ch -> dgood L (codec_state c) ->
    asks roomy (ad_decodeL p c buf) /\ forall c' out k, ad_decode p c buf = Ok (c', out, k) -> dgood L (codec_state c').
  Proof.
    intros EI HC HD. split.
    - unfold ad_decodeL. apply asks_then. intros i Ei. rewrite EI in Ei. injection Ei as <-. rewrite HC. apply asks_then. intros q _.
      apply asks_bind; [apply (asks_loop p L _ _ _ HD)|]. intros [[[chs s] hs] o] _. apply asks_quiet.
    - intros c' out k E. unfold ad_decode in E. rewrite EI in E. cbn [bind] in E. rewrite HC in E. inv_bind E. inv_bind E. destruct a0 as [d1 o].
      pose proof (proj2 (asks_loop p L _ _ _ HD) _ _ Ha0) as D1. destruct d1 as [[chs s] hs]. injection E as <- _ _. exact D1.
  Qed.
  Lemma asks_decodes p L info bufs c : ad_info c = Ok info -> si_channels info = ch -> dgood L (codec_state c) ->
    forall v n, In (v, n) (decode_log p c bufs) -> roomy v n.
  Proof.
    intros EI HC. revert c EI; induction bufs as [|buf bufs IH]; intros c EI HD v n H; [destruct H|]. cbn [decode_log] in H.
    destruct (asks_decode p L c buf info EI HC HD) as [A1 A2]. apply in_app_or in H. destruct H as [H|H]; [exact (A1 _ _ H)|].
    destruct (ad_decode p c buf) as [[[c' out] k]| |] eqn:E; [|destruct H|destruct H]. apply (IH c'); auto; [|eapply A2; reflexivity].
    unfold ad_decode in E. rewrite EI in E. cbn [bind] in E. inv_bind E. inv_bind E. destruct a0 as [[[chs s] hs] o]. injection E as <- _ _. exact EI.
  Qed.
End Decode.

(** ** Encoding: the tables only ever get longer, every growth is in the log, and nothing is asked for that is not used *)
Definition upd (b : table -> Z) (t : table) (n : Z) : table -> Z := fun u =>
  match t, u with
  | Chunks, Chunks | Exponents, Exponents | Flags, Flags | Sizes, Sizes | Positions, Positions | Histories, Histories => n
  | _, _ => b u
  end.
Lemma upd_same b t n : upd b t n t = n.
Proof. destruct t; reflexivity. Qed.
Lemma upd_id b t u : upd b t (b t) u = b u.
Proof. destruct t, u; reflexivity. Qed.
Lemma upd_upd b t n m u : upd (upd b t n) t m u = upd b t m u.
Proof. destruct t, u; reflexivity. Qed.
Section Grow.
  Variable P : vector -> Z -> Prop.
  Definition within (b : table -> Z) (v : vector) (n : Z) : Prop := match v with Table t => n <= b t | _ => P v n end.
  Definition grows {A} (b : table -> Z) (m : logged A) (get : A -> table -> Z) : Prop := forall a, outcome_of m = Ok a ->
    (forall t, b t <= get a t /\ (get a t = b t \/ In (Table t, get a t) (log m))) /\ asks (within (get a)) m.
  Lemma grows_bind {A B} b (m : logged A) (k : A -> logged B) get get' : grows b m get -> (forall a, outcome_of m = Ok a -> grows (get a) (k a) get') ->
    grows b (lbind m k) get'.
  Proof.
    intros H1 H2 c E. rewrite out_bind in E. inv_bind E. destruct (H1 _ Ha) as [G1 A1]. destruct (H2 _ Ha _ E) as [G2 A2].
    assert (L : log (lbind m k) = log m ++ log (k a)).
    { unfold log, lbind. unfold outcome_of in Ha. rewrite Ha. reflexivity. }
    split.
    - intros t. destruct (G1 t) as [M1 I1], (G2 t) as [M2 I2]. split; [lia|]. rewrite L. destruct I2 as [I2|I2]; [|right; apply in_or_app; now right].
      rewrite I2. destruct I1 as [I1|I1]; [left; exact I1|right; apply in_or_app; now left].
    - intros v n H. rewrite L in H. apply in_app_or in H. destruct H as [H|H]; [|exact (A2 _ _ H)].
      specialize (A1 _ _ H). destruct v; cbn [within] in *; auto. destruct (G2 t). lia.
  Qed.
  Lemma grows_quiet {A} b (m : outcome A) get : (forall a, m = Ok a -> forall t, get a t = b t) -> grows b (quiet m) get.
  Proof. intros H a E. rewrite out_quiet in E. split; [|apply asks_quiet]. intros t. rewrite (H _ E t). split; [lia|now left]. Qed.
  Lemma grows_then {A B} b (m : outcome A) (k : A -> logged B) get : (forall a, m = Ok a -> grows b (k a) get) -> grows b (lbind (quiet m) k) get.
  Proof. intros H. apply (grows_bind _ _ _ (fun _ => b)); [apply grows_quiet; auto|exact H]. Qed.
  Lemma grows_ext {A} b b' (m : logged A) get get' : (forall t, b' t = b t) -> (forall a t, outcome_of m = Ok a -> get' a t = get a t) ->
    grows b m get -> grows b' m get'.
  Proof.
    intros HB HE H a E. destruct (H a E) as [G A1]. split.
    - intros t. rewrite HB, (HE a t E). apply G.
    - intros v n I. specialize (A1 _ _ I). destruct v; cbn [within] in *; auto. now rewrite (HE a t E).
  Qed.
  Lemma grows_push {A} b t (l : list A) a : b t = zlen l -> grows b (pushL (Table t) l a) (fun l' => upd b t (zlen l')).
  Proof.
    intros HB l' E. rewrite out_push in E. injection E as <-. rewrite zlen_app. change (zlen [a]) with 1. split.
    - intros u. cbn. destruct t, u; cbn [upd]; try (split; [lia|now left]); rewrite HB; (split; [lia|right; now left]).
    - intros v n [[= <- <-]|[]]. cbn [within]. rewrite upd_same. lia.
  Qed.
  Definition hold (b : table -> Z) (s : bitstream) : Prop := b Chunks = zlen (bs_binary s).
  Definition after (b : table -> Z) (s : bitstream) : table -> Z := upd b Chunks (zlen (bs_binary s)).
  Lemma after_same b s s' t : hold b s -> zlen (bs_binary s') = zlen (bs_binary s) -> after b s' t = b t.
  Proof. unfold hold, after. intros H E. rewrite E, <- H. apply upd_id. Qed.
  Lemma after_hold b s : hold (after b s) s.
  Proof. reflexivity. Qed.
  Lemma after_after b s s' t : after b s' t = after (after b s) s' t.
  Proof. unfold after. symmetry. apply upd_upd. Qed.
  Lemma grows_allocate b s i : hold b s -> grows b (allocateL s i) (after b).
  Proof.
    intros H. unfold allocateL. destruct (_ <=? _); [|apply grows_quiet; intros s' [= <-] t; now apply (after_same b s)].
    eapply grows_bind; [now apply grows_push|]. intros l _. apply grows_quiet. intros s' [= <-] t. reflexivity.
  Qed.
  Lemma store_len {A} (l : list A) i a l' : store l i a = Ok l' -> zlen l' = zlen l.
  Proof. intros E. apply store_inv in E. destruct E as [_ ->]. apply zlen_replace_nth. Qed.
  Lemma offset_len p s n s' : offset_bit_cursor p s n = Ok s' -> zlen (bs_binary s') = zlen (bs_binary s).
  Proof. unfold offset_bit_cursor. intros H. inv_bind H. injection H as <-. reflexivity. Qed.
  (* a step that leaves the next continuation with [after b s] *)
  Lemma grows_next {A} b (m : logged bitstream) (k : bitstream -> logged A) get : grows b m (after b) ->
    (forall s, outcome_of m = Ok s -> grows (after b s) (k s) get) -> grows b (lbind m k) get.
  Proof. apply grows_bind. Qed.
  Lemma grows_write_bits p b s v n : hold b s -> grows b (write_bitsL p s v n) (after b).
  Proof.
    intros H. unfold write_bitsL. apply grows_then. intros nxt _. apply grows_next; [now apply grows_allocate|]. intros s1 _.
    eapply grows_next.
    { eapply (grows_ext _ _ _ (after (after b s1))); [reflexivity| |apply grows_allocate, after_hold]. reflexivity. }
    intros s2 _. apply grows_then. intros c0 _. apply grows_then. intros l E1. apply store_len in E1.
    apply grows_then. intros s3 E3. apply grows_quiet. intros s4 E4 t.
    rewrite (after_after b s2 s4 t), <- (after_after b s1 s2). rewrite (after_after b s1 s2).
    apply offset_len in E4. assert (E5 : zlen (bs_binary s3) = zlen (bs_binary s2)).
    { destruct (_ <? _); [|injection E3 as <-; exact E1]. do 5 inv_bind E3. injection E3 as <-. cbn [set_binary bs_binary] in *.
      repeat match goal with E : store _ _ _ = Ok _ |- _ => apply store_len in E end. cbn [set_binary bs_binary] in *. congruence. }
    rewrite <- after_after. rewrite <- after_after. unfold after. rewrite E4, E5. destruct t; reflexivity.
  Qed.
  Ltac settled := intros; unfold after, hold in *; repeat match goal with t : table |- _ => destruct t end; cbn [upd] in *; congruence.
  Lemma grows_write_bit p b s v : hold b s -> grows b (write_bitL p s v) (after b).
  Proof.
    intros H. unfold write_bitL. apply grows_next; [now apply grows_allocate|]. intros s1 _. apply grows_then. intros c0 _. apply grows_then. intros l E1.
    apply store_len in E1. apply grows_quiet. intros s2 E2 t. apply offset_len in E2. cbn [set_binary bs_binary] in E2. settled.
  Qed.
  Lemma grows_unary p b fuel s q : hold b s -> grows b (write_unaryL p fuel s q) (after b).
  Proof.
    revert b s q; induction fuel as [|fuel IH]; intros b s q H; cbn [write_unaryL]; [apply grows_quiet; discriminate|].
    destruct (0 <? q); [|apply grows_quiet; intros s' [= <-]; settled]. destruct (128 <? q); [|now apply grows_write_bits].
    apply grows_next; [now apply grows_write_bits|]. intros s1 _. eapply grows_ext; [reflexivity| |apply IH, after_hold]. settled.
  Qed.
  Lemma grows_step b m k : grows b m (after b) -> (forall b' s, hold b' s -> grows b' (k s) (after b')) -> grows b (lbind m k) (after b).
  Proof. intros H1 H2. apply grows_next; [exact H1|]. intros s _. eapply grows_ext; [reflexivity| |apply H2, after_hold]. settled. Qed.
  Lemma grows_compressed p b s e v : hold b s -> grows b (write_compressedL p s e v) (after b).
  Proof.
    intros H. unfold write_compressedL. do 5 (apply grows_then; intros ? _). apply grows_step; [now apply grows_write_bit|]. intros b1 s1 H1.
    apply grows_step; [now apply grows_unary|]. intros b2 s2 H2. apply grows_step; [now apply grows_write_bit|]. intros b3 s3 H3. now apply grows_write_bits.
  Qed.
  Definition lens (s : bitstream) (hs : frame_headers) (t : table) : Z :=
    match t with
    | Chunks => zlen (bs_binary s)
    | Exponents => zlen (nl_data (fhs_exps hs))
    | Flags => zlen (bv_binary (fhs_inits hs))
    | Sizes => zlen (fhs_sizes hs)
    | Positions => zlen (fhs_cursors hs)
    | Histories => zlen (fhs_hists hs)
    end.
  Lemma grows_nl p b n v : b Exponents = zlen (nl_data n) -> grows b (nl_pushL p n v) (fun n' => upd b Exponents (zlen (nl_data n'))).
  Proof.
    intros H. unfold nl_pushL. apply (grows_bind _ _ _ (fun l => upd b Exponents (zlen l))).
    { destruct (_ <=? _); [now apply grows_push|]. apply grows_quiet. intros l [= <-] t. rewrite <- H. apply upd_id. }
    intros l _. apply grows_then. intros x _. apply grows_then. intros l2 E. apply store_len in E. apply grows_then. intros k _.
    apply grows_quiet. intros n' [= <-]. cbn [nl_data]. settled.
  Qed.
  Lemma grows_bv p b n v : b Flags = zlen (bv_binary n) -> grows b (bv_pushL p n v) (fun n' => upd b Flags (zlen (bv_binary n'))).
  Proof.
    intros H. unfold bv_pushL. apply (grows_bind _ _ _ (fun l => upd b Flags (zlen l))).
    { destruct (_ <=? _); [now apply grows_push|]. apply grows_quiet. intros l [= <-] t. rewrite <- H. apply upd_id. }
    intros l _. apply grows_then. intros x _. apply grows_then. intros l2 E. apply store_len in E.
    apply grows_quiet. intros n' E2. unfold bv_offset_cursor in E2. inv_bind E2. injection E2 as <-. cbn [bv_binary]. settled.
  Qed.
  Lemma set_len n i v : zlen (nl_data (nl_set n i v)) = zlen (nl_data n).
  Proof. unfold nl_set. destruct (_ <=? _); [reflexivity|]. cbn [nl_data]. apply zlen_replace_nth. Qed.
  Lemma bset_len n i v : zlen (bv_binary (bv_set n i v)) = zlen (bv_binary n).
  Proof. unfold bv_set. repeat match goal with |- context [if ?x then _ else _] => destruct x end; cbn [bv_binary]; rewrite ?zlen_replace_nth; reflexivity. Qed.
  Lemma grows_fhs p s f h : grows (lens s f) (fhs_pushL p f h) (lens s).
  Proof.
    unfold fhs_pushL. apply (grows_bind _ _ _ (lens s)).
    - destruct (_ <=? _).
      + eapply grows_bind; [apply grows_nl; reflexivity|]. intros e _. eapply grows_bind; [apply grows_bv; reflexivity|]. intros v _.
        eapply grows_bind; [apply grows_push; reflexivity|]. intros sz _. eapply grows_bind; [apply grows_push; reflexivity|]. intros cu _.
        eapply grows_bind; [apply grows_push; reflexivity|]. intros hi _. apply grows_quiet. intros f' [= <-] t. destruct t; reflexivity.
      + apply grows_then. intros sz E1. apply grows_then. intros cu E2. apply grows_then. intros hi E3. apply grows_quiet. intros f' [= <-] t.
        apply store_len in E1, E2, E3. destruct t; cbn [lens fhs_exps fhs_inits fhs_sizes fhs_cursors fhs_hists]; rewrite ?set_len, ?bset_len; auto.
    - intros f' _. apply grows_then. intros hc _. apply grows_quiet. intros f2 [= <-] t. destruct t; reflexivity.
  Qed.
  Lemma grows_samples p b s h e l : hold b s -> grows b (encode_samplesL p s h e l) (fun '(s', _) => after b s').
  Proof.
    revert b s h; induction l as [|x l IH]; intros b s h H; cbn [encode_samplesL]; [apply grows_quiet; intros [s' h'] [= <- _]; settled|].
    apply grows_next; [now apply grows_compressed|]. intros s1 _. eapply grows_ext; [reflexivity| |apply IH, after_hold]. intros [s2 h2]. settled.
  Qed.
  Lemma grows_raw p b s h pcm ks : hold b s -> grows b (encode_rawL p s h pcm ks) (fun '(s', _) => after b s').
  Proof.
    revert b s h; induction ks as [|k ks IH]; intros b s h H; cbn [encode_rawL]; [apply grows_quiet; intros [s' h'] [= <- _]; settled|].
    apply grows_then. intros x _. apply grows_next; [now apply grows_write_bits|]. intros s1 _. eapply grows_ext; [reflexivity| |apply IH, after_hold]. intros [s2 h2]. settled.
  Qed.
  Lemma after_lens s hs s' t : after (lens s hs) s' t = lens s' hs t.
  Proof. destruct t; reflexivity. Qed.
  Lemma grows_frame p c s hs pcm : grows (lens s hs) (encode_frameL p c s hs pcm) (fun '(_, s', hs') => lens s' hs').
  Proof.
    unfold encode_frameL. destruct (fc_state c).
    - eapply grows_bind; [apply (grows_raw p (lens s hs)); reflexivity|]. intros [s1 h1] _. apply (grows_ext (lens s1 hs) _ _ (fun '(_, s', hs') => lens s' hs')); [intros; apply after_lens|reflexivity|].
      apply grows_then. intros rest _. apply grows_then. intros e _. eapply grows_bind; [apply grows_fhs|]. intros hs1 _.
      eapply grows_bind; [apply (grows_samples p (lens s1 hs1)); reflexivity|]. intros [s2 h2] _. apply grows_quiet. intros [[c3 s3] hs3] [= _ <- <-] t. symmetry. apply after_lens.
    - apply grows_then. intros e _. eapply grows_bind; [apply grows_fhs|]. intros hs1 _.
      eapply grows_bind; [apply (grows_samples p (lens s hs1)); reflexivity|]. intros [s2 h2] _. apply grows_quiet. intros [[c3 s3] hs3] [= _ <- <-] t. symmetry. apply after_lens.
    - apply grows_quiet. discriminate.
  Qed.
  (** The entries of the tables of a codec. *)
  Definition entries (c : adhoc) : table -> Z := lens (as_stream (ad_stream c)) (ad_headers c).
  Lemma grows_channel p pcm n k c j : grows (entries c) (encode_channelL p pcm n k c j) entries.
  Proof.
    unfold encode_channelL. apply grows_then. intros l _. apply grows_then. intros [seq l2] _. apply grows_then. intros fc _.
    eapply grows_bind; [apply grows_frame|]. intros [[c1 s1] hs1] _. apply grows_then. intros chs _. apply grows_quiet. intros c' [= <-] t. reflexivity.
  Qed.
  Lemma grows_foldM {S X} get (f : S -> X -> logged S) l s : (forall s x, grows (get s) (f s x) get) -> grows (get s) (lfoldM f l s) get.
  Proof.
    intros H. revert s; induction l as [|x l IH]; intros s; cbn [lfoldM]; [apply grows_quiet; intros a [= <-]; reflexivity|].
    eapply grows_bind; [apply H|]. intros s1 _. apply IH.
  Qed.
  Lemma grows_encode p c pcm info : ad_info c = Ok info -> P Scratch (zlen pcm / si_channels info) ->
    grows (entries c) (ad_encodeL p c pcm) (fun '(c', _) => entries c').
  Proof.
    intros EI HP. unfold ad_encodeL. apply grows_then. intros i Ei. rewrite EI in Ei. injection Ei as <-. apply grows_then. intros q Eq. apply udiv_val in Eq. subst q.
    apply (grows_bind _ _ _ (fun _ => entries c)).
    { intros [] _. split; [intros t; split; [lia|now left]|]. intros v n [[= <- <-]|[]]. exact HP. }
    intros _ _. eapply grows_bind; [apply grows_foldM; intros; apply grows_channel|]. intros c1 _. apply grows_quiet. intros [c2 r] [= <- _] t. reflexivity.
  Qed.
End Grow.

(** ** Every growth is in the log *)
Definition covers {A} (b : vector -> Z) (m : logged A) (get : A -> vector -> Z) : Prop := forall a, outcome_of m = Ok a ->
  forall v, get a v <= b v \/ exists n, In (v, n) (log m) /\ get a v <= n.
Lemma covers_bind {A B} b (m : logged A) (k : A -> logged B) get get' : covers b m get -> (forall a, outcome_of m = Ok a -> covers (get a) (k a) get') ->
  covers b (lbind m k) get'.
Proof.
  intros H1 H2 c E v. rewrite out_bind in E. inv_bind E.
  assert (L : log (lbind m k) = log m ++ log (k a)) by (unfold log, lbind; unfold outcome_of in Ha; rewrite Ha; reflexivity). rewrite L.
  destruct (H2 _ Ha _ E v) as [I|(n & I & Q)]; [|right; exists n; split; [apply in_or_app; now right|exact Q]].
  destruct (H1 _ Ha v) as [J|(n & J & Q)]; [left; lia|right; exists n; split; [apply in_or_app; now left|lia]].
Qed.
Lemma covers_quiet {A} b (m : outcome A) get : (forall a, m = Ok a -> forall v, get a v <= b v) -> covers b (quiet m) get.
Proof. intros H a E v. left. exact (H _ E v). Qed.
Lemma covers_then {A B} b (m : outcome A) (k : A -> logged B) get : (forall a, m = Ok a -> covers b (k a) get) -> covers b (lbind (quiet m) k) get.
Proof. intros H. apply (covers_bind _ _ _ (fun _ => b)); [apply covers_quiet; intros; lia|exact H]. Qed.
Lemma covers_ext {A} b b' (m : logged A) get get' : (forall v, b v <= b' v) -> (forall a v, outcome_of m = Ok a -> get' a v <= get a v) ->
  covers b m get -> covers b' m get'.
Proof.
  intros HB HE H a E v. specialize (HE a v E). specialize (HB v). destruct (H a E v) as [I|(n & I & Q)]; [left; lia|right; exists n; split; [exact I|lia]].
Qed.
Definition put (b : vector -> Z) (v : vector) (n : Z) : vector -> Z := set_capacity b v n.
Lemma put_same b v n : put b v n v = n.
Proof. apply set_same. Qed.
Lemma put_other b v n u : u <> v -> put b v n u = b u.
Proof. apply set_other. Qed.
Lemma put_le b v n u : n <= b v -> put b v n u <= b u.
Proof. intros H. unfold put, set_capacity. destruct (vector_eq_dec u v) as [->|N]; lia. Qed.
Lemma covers_push {A} b v (l : list A) a : covers b (pushL v l a) (fun l' => put b v (zlen l')).
Proof.
  intros l' E u. rewrite out_push in E. injection E as <-. destruct (vector_eq_dec u v) as [->|N]; [right|left; rewrite put_other by auto; lia].
  exists (zlen l + 1). split; [now left|]. rewrite put_same, zlen_app. change (zlen [a]) with 1. lia.
Qed.
Definition ch_after (b : vector -> Z) (s : bitstream) : vector -> Z := put b (Table Chunks) (zlen (bs_binary s)).
Definition held (b : vector -> Z) (s : bitstream) : Prop := zlen (bs_binary s) <= b (Table Chunks).
Lemma ch_held b s : held (ch_after b s) s.
Proof. unfold held, ch_after. rewrite put_same. lia. Qed.
Lemma ch_le b s s' v : held b s -> zlen (bs_binary s') <= zlen (bs_binary s) -> ch_after b s' v <= b v.
Proof. unfold held. intros H E. apply put_le. lia. Qed.
Lemma ch_ch b s s' v : ch_after b s' v <= ch_after (ch_after b s) s' v.
Proof. unfold ch_after, put, set_capacity. destruct (vector_eq_dec v (Table Chunks)); lia. Qed.
Lemma covers_allocate b s i : held b s -> covers b (allocateL s i) (ch_after b).
Proof.
  intros H. unfold allocateL. destruct (_ <=? _); [|apply covers_quiet; intros s' [= <-] t; eapply ch_le; [exact H|lia]].
  eapply covers_bind; [apply covers_push|]. intros l _. apply covers_quiet. intros s' [= <-] t. unfold ch_after. cbn [bs_binary]. lia.
Qed.
Lemma covers_allocates {A} b s i j (k : bitstream -> logged A) get : held b s -> (forall s', covers (ch_after b s') (k s') get) ->
  covers b (s <+ allocateL s i ;; s <+ allocateL s j ;; k s) get.
Proof.
  intros H HK. eapply covers_bind; [now apply covers_allocate|]. intros s1 _.
  apply (covers_bind _ _ _ (ch_after b)); [|intros; apply HK]. eapply covers_ext; [reflexivity| |apply covers_allocate, ch_held]. intros; apply ch_ch.
Qed.
Lemma covers_peek p b s n : held b s -> covers b (peek_bitsL p s n) (fun '(s', _) => ch_after b s').
Proof.
  intros H. unfold peek_bitsL. apply covers_then. intros nxt _. apply covers_allocates; [exact H|]. intros s2. apply covers_quiet. intros [s3 v] E u.
  assert (s3 = s2) as ->; [|lia]. destruct (_ <=? _); [now injection E|]. inv_bind E. inv_bind E. now injection E.
Qed.
Lemma covers_read_bits p b s n : held b s -> covers b (read_bitsL p s n) (fun '(s', _) => ch_after b s').
Proof.
  intros H. unfold read_bitsL. eapply covers_bind; [now apply covers_peek|]. intros [s1 v] _. apply covers_then. intros s2 E. apply offset_len in E.
  apply covers_quiet. intros [s3 w] [= <- _] u. unfold ch_after. rewrite E. lia.
Qed.
Lemma covers_skip p b fuel s q : held b s -> covers b (skip_onesL p fuel s q) (fun '(s', _, _) => ch_after b s').
Proof.
  revert b s q; induction fuel as [|fuel IH]; intros b s q H; cbn [skip_onesL]; [apply covers_quiet; discriminate|].
  eapply covers_bind; [now apply covers_peek|]. intros [s1 v] _. destruct (_ =? _); [|apply covers_quiet; intros [[s2 q2] v2] [= <- _ _] u; lia].
  apply covers_then. intros s2 E. apply offset_len in E. apply covers_then. intros q' _.
  eapply covers_ext; [reflexivity| |apply IH; unfold held, ch_after; rewrite put_same; lia]. intros [[s3 q3] v3] u _. apply ch_ch.
Qed.
Lemma read_bit_len p s s' v : read_bit p s = Ok (s', v) -> zlen (bs_binary s') = zlen (bs_binary s).
Proof. unfold read_bit. destruct (_ <=? _); intros H; [now injection H as <- _|]. inv_bind H. inv_bind H. injection H as <- _. now apply offset_len in Ha. Qed.
Lemma covers_read p b s e : held b s -> covers b (read_compressedL p s e) (fun '(s', _) => ch_after b s').
Proof.
  intros H. unfold read_compressedL. apply covers_then. intros [s1 v] E1. apply read_bit_len in E1. apply covers_then. intros dv _.
  eapply covers_bind; [apply (covers_skip p b); unfold held in *; lia|]. intros [[s2 q] ck] _. apply covers_then. intros s3 E3. apply offset_len in E3.
  apply covers_then. intros q' _. eapply covers_bind; [eapply (covers_read_bits p (ch_after b s2)); unfold held, ch_after; rewrite put_same; lia|].
  intros [s4 r] _. do 7 (apply covers_then; intros ? _). apply covers_quiet. intros [s5 w] [= <- _] u. apply ch_ch.
Qed.
Definition pair_after (b : vector -> Z) (j : Z) (s : bitstream) (buf : list f32) : vector -> Z := put (ch_after b s) (Buffer j) (zlen buf).
Lemma pair_le b j s buf v : held b s -> zlen buf <= b (Buffer j) -> pair_after b j s buf v <= b v.
Proof.
  intros H1 H2. unfold pair_after, put, set_capacity. destruct (vector_eq_dec v (Buffer j)) as [->|N]; [exact H2|]. now apply (ch_le b s).
Qed.
Lemma pair_pair b j s buf s' buf' v : pair_after b j s' buf' v <= pair_after (pair_after b j s buf) j s' buf' v.
Proof. unfold pair_after, ch_after, put, set_capacity. destruct (vector_eq_dec v (Buffer j)), (vector_eq_dec v (Table Chunks)); lia. Qed.
Lemma covers_samples p j b s h buf e n : held b s -> zlen buf <= b (Buffer j) -> covers b (decode_samplesL p j s h buf e n) (fun '(s', _, buf') => pair_after b j s' buf').
Proof.
  revert b s h buf; induction n as [|n IH]; intros b s h buf H1 H2; cbn [decode_samplesL]; [apply covers_quiet; intros [[s' h'] b'] [= <- _ <-] v; now apply pair_le|].
  eapply covers_bind; [now apply (covers_read p b)|]. intros [s1 v] _. eapply covers_bind; [apply covers_push|]. intros buf1 _.
  eapply covers_ext; [reflexivity| |apply (IH (pair_after b j s1 buf1)); unfold held, pair_after; [rewrite put_other by congruence; apply ch_held|rewrite put_same; lia]].
  intros [[s2 h2] b2] u _. apply pair_pair.
Qed.
Lemma covers_raw p b s h n : held b s -> covers b (decode_rawL p s h n) (fun '(s', _) => ch_after b s').
Proof.
  revert b s h; induction n as [|n IH]; intros b s h H; cbn [decode_rawL]; [apply covers_quiet; intros [s' h'] [= <- _] v; eapply ch_le; [exact H|lia]|].
  eapply covers_bind; [now apply (covers_read_bits p b)|]. intros [s1 v] _. eapply covers_ext; [reflexivity| |apply IH, ch_held]. intros [s2 h2] u _. apply ch_ch.
Qed.
Lemma next_same p hs hs' oh s t : fhs_next p hs = Ok (hs', oh) -> lens s hs' t = lens s hs t.
Proof. intros H. unfold fhs_next in H. destruct (_ <? _); [|now injection H as <- _]. do 4 inv_bind H. injection H as <- _. destruct t; reflexivity. Qed.
Definition dlen (d : dstate) (v : vector) : Z :=
  match v with
  | Table t => lens (snd (fst d)) (snd d) t
  | Buffer j => match nth_error (fst (fst d)) (Z.to_nat j) with Some fc => if 0 <=? j then zlen (fc_buffer fc) else 0 | None => 0 end
  | _ => 0
  end.
(** One frame, for the codec at place [j]. *)
Definition flen (b : vector -> Z) (j : Z) (c : frame_codec) (s : bitstream) (hs : frame_headers) (v : vector) : Z :=
  match v with Table t => lens s hs t | Buffer i => if i =? j then zlen (fc_buffer c) else b (Buffer i) | _ => b v end.
Lemma flen_pair b j c s hs s' v : flen b j c s' hs v <= pair_after (flen b j c s hs) j s' (fc_buffer c) v.
Proof.
  unfold pair_after, ch_after, put, set_capacity. destruct (vector_eq_dec v (Buffer j)) as [->|N]; [cbn [flen]; rewrite Z.eqb_refl; lia|].
  destruct (vector_eq_dec v (Table Chunks)) as [->|M]; [cbn; lia|]. destruct v as [t| |i|]; cbn [flen]; try lia. destruct t; cbn [lens]; try lia. congruence.
Qed.
Lemma flen_buffer b j c c' s hs v : fc_buffer c' = fc_buffer c -> flen b j c' s hs v = flen b j c s hs v.
Proof. intros H. destruct v; cbn [flen]; rewrite ?H; reflexivity. Qed.
Lemma flen_held b j c s hs : held (flen b j c s hs) s.
Proof. unfold held. cbn. lia. Qed.
Lemma covers_frame p b j c s hs : covers (flen b j c s hs) (decode_frameL p j c s hs) (fun '(c', s', hs') => flen b j c' s' hs').
Proof.
  unfold decode_frameL. apply covers_then. intros [hs1 oh] E1.
  assert (N : forall v, flen b j c s hs1 v <= flen b j c s hs v).
  { intros v. destruct v as [t| |i|]; cbn [flen]; try lia. rewrite (next_same _ _ _ _ s t E1). lia. }
  eapply (covers_ext (flen b j c s hs1)); [exact N|intros a v _; apply Z.le_refl|]. clear N E1.
  assert (FIN : forall s1 h2 s2 buf2 st v, pair_after (pair_after (flen b j c s hs1) j s1 buf2) j s2 buf2 v >= flen b j (mkFC st h2 buf2) s2 hs1 v).
  { intros. unfold pair_after, ch_after, put, set_capacity. destruct (vector_eq_dec v (Buffer j)) as [->|M]; [cbn [flen fc_buffer]; rewrite Z.eqb_refl; lia|].
    destruct (vector_eq_dec v (Table Chunks)) as [->|M2]; [cbn; lia|]. destruct v as [t| |i|]; cbn [flen]; try lia; [destruct t; cbn [lens]; try lia; congruence|].
    destruct (Z.eqb_spec i j); [congruence|lia]. }
  assert (B0 : zlen (fc_buffer c) <= flen b j c s hs1 (Buffer j)) by (cbn [flen]; rewrite Z.eqb_refl; lia).
  destruct oh as [hd|]; [|apply covers_quiet; intros [[c' s'] hs'] [= <- <- <-] v; lia]. destruct (fc_state c); [| |].
  - eapply covers_bind; [apply (covers_raw p (flen b j c s hs1)), flen_held|]. intros [s1 h1] _.
    eapply covers_bind; [apply covers_push|]. intros b1 _. eapply covers_bind; [apply covers_push|]. intros b2 _. eapply covers_bind; [apply covers_push|]. intros b3 _.
    match goal with |- covers ?b0 _ _ => set (B := b0) end.
    eapply covers_bind; [apply (covers_samples p j B)|].
    + unfold held, B. rewrite !put_other by congruence. apply ch_held.
    + unfold B. rewrite put_same. lia.
    + intros [[s2 h2] b4] _. apply covers_quiet. intros [[c' s'] hs'] [= <- <- <-] v. eapply Z.le_trans; [apply Z.ge_le, (FIN s1)|].
      unfold B, pair_after, ch_after, put, set_capacity. destruct (vector_eq_dec v (Buffer j)), (vector_eq_dec v (Table Chunks)); lia.
  - apply covers_quiet. discriminate.
  - eapply covers_bind; [apply (covers_samples p j (flen b j c s hs1)); [apply flen_held|exact B0]|].
    intros [[s2 h2] b4] _. apply covers_quiet. intros [[c' s'] hs'] [= <- <- <-] v. eapply Z.le_trans; [apply Z.ge_le, (FIN s)|].
    unfold pair_after, ch_after, put, set_capacity. destruct (vector_eq_dec v (Buffer j)), (vector_eq_dec v (Table Chunks)); lia.
Qed.
Lemma nth_replace_same {A} (l : list A) i a : (i < length l)%nat -> nth_error (replace_nth i l a) i = Some a.
Proof. revert i; induction l as [|x l IH]; intros [|i] H; cbn in *; try lia; auto. apply IH. lia. Qed.
Lemma covers_channel p d j : covers (dlen d) (decode_channelL p d j) dlen.
Proof.
  destruct d as [[chs s] hs]. unfold decode_channelL. apply covers_then. intros fc E. apply index_inv in E. destruct E as [R E].
  eapply (covers_ext (flen (dlen (chs, s, hs)) j fc s hs)); [|intros a v _; apply Z.le_refl|].
  - intros v. destruct v as [t| |i|]; cbn [flen dlen fst snd]; try lia. destruct (Z.eqb_spec i j) as [->|N]; [|lia]. rewrite E. destruct (Z.leb_spec 0 j); lia.
  - eapply covers_bind; [apply covers_frame|]. intros [[c1 s1] hs1] _. apply covers_then. intros chs1 E1. apply store_inv in E1. destruct E1 as [_ ->].
    apply covers_quiet. intros d' [= <-] v. destruct v as [t| |i|]; cbn [flen dlen fst snd]; try lia.
    destruct (Z.eqb_spec i j) as [->|N].
    + rewrite nth_replace_same by (unfold zlen in R; lia). destruct (0 <=? j); [lia|apply zlen_nonneg].
    + destruct (Z.leb_spec 0 i) as [Q|Q]; [rewrite nth_replace_other by lia; destruct (nth_error chs (Z.to_nat i)); lia|].
      replace (Z.to_nat i) with 0%nat by lia. destruct (nth_error (replace_nth (Z.to_nat j) chs c1) 0), (nth_error chs 0); lia.
Qed.
Lemma covers_foldM {S X} get (f : S -> X -> logged S) l s : (forall s x, covers (get s) (f s x) get) -> covers (get s) (lfoldM f l s) get.
Proof.
  intros H. revert s; induction l as [|x l IH]; intros s; cbn [lfoldM]; [apply covers_quiet; intros a [= <-] v; lia|].
  eapply covers_bind; [apply H|]. intros s1 _. apply IH.
Qed.
Lemma covers_buffer p n fuel d : covers (dlen d) (buffer_audioL p n fuel d) (fun '(d', _) => dlen d').
Proof.
  revert d; induction fuel as [|fuel IH]; intros d; cbn [buffer_audioL]; [apply covers_quiet; intros [d' k] [= <- _] v; lia|].
  destruct d as [[chs s] hs]. destruct (buffers_empty chs); [|apply covers_quiet; intros [d' k] [= <- _] v; lia].
  eapply covers_bind; [apply covers_foldM; intros; apply covers_channel|]. intros d1 _. eapply covers_bind; [apply IH|]. intros [d2 k] _.
  apply covers_quiet. intros [d' k'] [= <- _] v. lia.
Qed.
Lemma pop_shrinks chs n c fuel room chs' out i : pop_block chs n c fuel room = Ok (chs', out) ->
  match nth_error chs' i with Some fc => zlen (fc_buffer fc) | None => 0 end <= match nth_error chs i with Some fc => zlen (fc_buffer fc) | None => 0 end.
Proof.
  revert chs c room chs' out; induction fuel as [|fuel IH]; intros chs c room chs' out H; cbn [pop_block] in H; [injection H as <- _; lia|].
  destruct (_ && _); [|injection H as <- _; lia]. inv_bind H. destruct (match fc_buffer a with [] => _ | _ => _ end) as [v rest] eqn:Er. inv_bind H. inv_bind H.
  destruct a1 as [chs2 o2]. injection H as <- _. eapply Z.le_trans; [eapply IH; eauto|]. apply store_inv in Ha0. destruct Ha0 as [R ->].
  apply index_inv in Ha. destruct Ha as [_ Ha]. destruct (Nat.eq_dec i (Z.to_nat c)) as [->|N]; [|now rewrite nth_replace_other by auto].
  rewrite nth_replace_same by (unfold zlen in R; lia). rewrite Ha. cbn [fc_buffer].
  destruct (fc_buffer a); injection Er as _ <-; rewrite ?zlen_cons; lia.
Qed.
Lemma covers_loop p n fuel room d : covers (dlen d) (decode_loopL p n fuel room d) (fun '(d', _) => dlen d').
Proof.
  revert room d; induction fuel as [|fuel IH]; intros room d; cbn [decode_loopL]; [apply covers_quiet; discriminate|].
  destruct (0 <? room); [|apply covers_quiet; intros [d' k] [= <- _] v; lia]. eapply covers_bind; [apply covers_buffer|]. intros [d1 k] _.
  destruct (_ <=? _)%nat; [apply covers_quiet; intros [d' o] [= <- _] v; lia|]. destruct d1 as [[chs s] hs]. apply covers_then. intros [chs1 o] E.
  eapply (covers_ext (dlen (chs1, s, hs))); [|intros a v _; apply Z.le_refl|].
  - intros v. destruct v as [t| |i|]; cbn [dlen fst snd]; try lia. pose proof (pop_shrinks _ _ _ _ _ _ _ (Z.to_nat i) E) as Q.
    destruct (nth_error chs1 (Z.to_nat i)), (nth_error chs (Z.to_nat i)); destruct (0 <=? i); lia.
  - eapply covers_bind; [apply IH|]. intros [d3 o3] _. apply covers_quiet. intros [d' o'] [= <- _] v. lia.
Qed.
Lemma covers_decode p c buf : covers (length_of c) (ad_decodeL p c buf) (fun '(c', _, _) => length_of c').
Proof.
  assert (EQ : forall c v, length_of c v = dlen (codec_state c) v) by (intros c0 v; destruct v as [t| |i|]; [destruct t|..]; reflexivity).
  unfold ad_decodeL. apply covers_then. intros info _. apply covers_then. intros q _.
  eapply (covers_ext (dlen (codec_state c))); [intros v; rewrite EQ; lia|intros a v _; apply Z.le_refl|].
  eapply covers_bind; [apply covers_loop|]. intros [[[chs s] hs] o] _. apply covers_quiet. intros [[c' out] k] E v. injection E as <- _ _. rewrite EQ. apply Z.le_refl.
Qed.

(** ** WAV *)
Definition only_pcm (N : Z) (v : vector) (n : Z) : Prop := v = Pcm /\ n <= N.
Lemma asks_wav_write p N w s : zlen (wav_pcm w) + 2 <= N -> asks (only_pcm N) (wav_write_sampleL p w s) /\
  forall w', wav_write_sample p w s = Ok w' -> zlen (wav_pcm w') <= zlen (wav_pcm w) + 2.
Proof.
  intros H. split.
  - unfold wav_write_sampleL. apply asks_bind; [|intros; apply asks_quiet]. destruct (_ <? _); [apply asks_quiet|].
    apply asks_bind; [apply asks_push; split; [reflexivity|lia]|]. intros l E. rewrite out_push in E. injection E as <-. apply asks_push. split; [reflexivity|].
    rewrite zlen_app. change (zlen [lo_byte s]) with 1. lia.
  - intros w' E. unfold wav_write_sample, wav_offset_cursor in E. inv_bind E. inv_bind E. injection E as <-. cbn [wav_pcm] in *.
    destruct (_ <? _).
    + inv_bind Ha. apply store_len in Ha, Ha1. lia.
    + injection Ha as <-. rewrite zlen_app. change (zlen [lo_byte s; hi_byte s]) with 2. lia.
Qed.
Lemma asks_wav_fold p N l w : zlen (wav_pcm w) + 2 * zlen l <= N ->
  asks (only_pcm N) (lfoldM (fun w s => wav_write_sampleL p w (truncate_sample s)) l w) /\
  forall w', foldM (fun w s => wav_write_sample p w (truncate_sample s)) l w = Ok w' -> zlen (wav_pcm w') <= zlen (wav_pcm w) + 2 * zlen l.
Proof.
  revert w; induction l as [|x l IH]; intros w H; cbn [lfoldM foldM]; [split; [apply asks_quiet|intros w' [= <-]; change (zlen (@nil f32)) with 0; lia]|].
  rewrite zlen_cons in *. pose proof (zlen_nonneg l). destruct (asks_wav_write p N w (truncate_sample x) ltac:(lia)) as [A1 A2]. split.
  - apply asks_bind; [exact A1|]. intros w1 E. rewrite out_wav_write in E. specialize (A2 _ E). apply IH. lia.
  - intros w' E. inv_bind E. specialize (A2 _ Ha). apply (IH a ltac:(lia)) in E. lia.
Qed.
Lemma asks_wav p N w l : zlen (wav_pcm w) + 2 * zlen l <= N -> asks (only_pcm N) (wav_encodeL p w l) /\
  forall w' r, wav_encode p w l = Ok (w', r) -> zlen (wav_pcm w') <= zlen (wav_pcm w) + 2 * zlen l.
Proof.
  intros H. assert (F : forall k, zlen (firstn k l) <= zlen l) by (intros k; unfold zlen; rewrite firstn_length; lia).
  split.
  - unfold wav_encodeL. apply asks_then. intros q _. apply asks_bind; [apply asks_wav_fold; specialize (F (Z.to_nat (q * si_channels (wav_info w)))); lia|].
    intros; apply asks_quiet.
  - intros w' r E. unfold wav_encode in E. inv_bind E. inv_bind E. injection E as <- _. specialize (F (Z.to_nat (a * si_channels (wav_info w)))).
    pose proof (proj2 (asks_wav_fold p N (firstn (Z.to_nat (a * si_channels (wav_info w))) l) w ltac:(lia)) _ Ha0). lia.
Qed.
Definition wlen (w : wav) (v : vector) : Z := match v with Pcm => zlen (wav_pcm w) | _ => 0 end.
Lemma covers_wav p w l : covers (wlen w) (wav_encodeL p w l) (fun '(w', _) => wlen w').
Proof.
  unfold wav_encodeL. apply covers_then. intros q _. eapply covers_bind; [|intros w1 _; apply covers_quiet; intros [w2 r] [= <- _] v; apply Z.le_refl].
  apply covers_foldM. clear. intros w s. unfold wav_write_sampleL.
  apply (covers_bind _ _ _ (fun l v => match v with Pcm => zlen l | _ => 0 end)).
  - destruct (_ <? _).
    + apply covers_quiet. intros l E v. inv_bind E. apply store_len in Ha, E. destruct v; cbn [wlen]; lia.
    + eapply covers_bind; [apply covers_push|]. intros l1 _. eapply covers_ext; [reflexivity| |apply covers_push]. intros l2 v _.
      destruct v; rewrite ?put_same, ?put_other by congruence; cbn [wlen]; lia.
  - intros l _. apply covers_quiet. intros w' E v. unfold wav_offset_cursor in E. inv_bind E. injection E as <-. cbn [wav_pcm] in *. destruct v; cbn [wlen wav_pcm]; lia.
Qed.
