(** * C95: indexing ring buffers and circular stacks *)
From Coq Require Import ZArith List Bool Lia.
From Verif Require Import Model.Base Model.RingBuffer Model.CircularStack Model.RawIndex Spec.Collections Spec.RawIndex
  Proofs.BaseFacts Proofs.RingFacts Proofs.Containers Properties.CollectionProps.
Import ListNotations.
Open Scope Z_scope.

(** A client's operations on a ring buffer, now with [buffer[i] = x]. *)
Definition raw_do {T} (p : profile) (r : ring T) (op : circle_op T) : outcome (ring T * answer T) :=
  match op with Deque op => ring_do p r op | Write i x => r <- rb_index_set r i x ;; Ok (r, ANothing) end.
Fixpoint raw_run {T} (p : profile) (r : ring T) (ops : list (circle_op T)) : outcome (ring T * list (answer T)) :=
  match ops with
  | [] => Ok (r, [])
  | op :: ops => '(r, a) <- raw_do p r op ;; '(r, l) <- raw_run p r ops ;; Ok (r, a :: l)
  end.
(** The writes stay inside the storage. *)
Definition inside {T} (n : Z) (op : circle_op T) : Prop := match op with Write i _ => 0 <= i < n | _ => True end.

(** ** Lemmas *)
Section Ring.
Context {T : Type}.
Implicit Types (r : ring T) (l : list T).
Lemma backing_do p r op r' a : ring_do p r op = Ok (r', a) -> zlen (rb_backing r') = zlen (rb_backing r).
Proof.
  intros E. destruct op; cbn [ring_do] in E; try (injection E as <- <-; reflexivity).
  - inv_bind E. injection E as <- <-. unfold rb_push_front in Ha. destruct (rb_is_full r); [injection Ha as <-; reflexivity|]. inv_bind Ha. inv_bind Ha. inv_bind Ha. injection Ha as <-.
    cbn [rb_backing]. unfold store in Ha1. destruct (_ && _); [|discriminate Ha1]. injection Ha1 as <-. apply zlen_replace_nth.
  - inv_bind E. injection E as <- <-. unfold rb_push_rear in Ha. destruct (rb_is_full r); [injection Ha as <-; reflexivity|]. inv_bind Ha. inv_bind Ha. inv_bind Ha. injection Ha as <-.
    cbn [rb_backing]. unfold store in Ha0. destruct (_ && _); [|discriminate Ha0]. injection Ha0 as <-. apply zlen_replace_nth.
  - inv_bind E. destruct a0 as [r1 x]. injection E as <- <-. unfold rb_pop_front in Ha. destruct (rb_is_empty r); [injection Ha as <- <-; reflexivity|].
    inv_bind Ha. inv_bind Ha. inv_bind Ha. injection Ha as <- <-. reflexivity.
  - inv_bind E. destruct a0 as [r1 x]. injection E as <- <-. unfold rb_pop_rear in Ha. destruct (rb_is_empty r); [injection Ha as <- <-; reflexivity|].
    inv_bind Ha. inv_bind Ha. inv_bind Ha. injection Ha as <- <-. reflexivity.
  - inv_bind E. injection E as <- <-. reflexivity.
Qed.
Lemma front_do p k r l op r' a : ring_rep k r l -> ring_do p r op = Ok (r', a) -> rb_front r' = turn (2 ^ k) (mkCircle l (rb_front r)) op.
Proof.
  intros R E. destruct R as [Hk Hc Hb Hf Hl Hr Hrear Hit]. pose proof (pow_k k Hk).
  destruct op; cbn [ring_do turn items first] in *; try (injection E as <- <-; reflexivity).
  - inv_bind E. injection E as <- <-. unfold rb_push_front, rb_is_full in Ha. rewrite Hl, Hc in Ha.
    destruct (Z.leb_spec (2 ^ k) (zlen l)), (Z.ltb_spec (zlen l) (2 ^ k)); try lia; [injection Ha as <-; reflexivity|].
    rewrite (before_spec p k) in Ha by auto. cbn [bind] in Ha. inv_bind Ha. inv_bind Ha. injection Ha as <-. reflexivity.
  - inv_bind E. injection E as <- <-. unfold rb_push_rear in Ha. destruct (rb_is_full r); [injection Ha as <-; reflexivity|]. inv_bind Ha. inv_bind Ha. inv_bind Ha. injection Ha as <-. reflexivity.
  - inv_bind E. destruct a0 as [r1 x]. injection E as <- <-. unfold rb_pop_front, rb_is_empty in Ha. rewrite Hl in Ha.
    destruct l as [|y l]; [injection Ha as <- <-; reflexivity|]. rewrite zlen_cons in Ha. pose proof (zlen_nonneg l). destruct (Z.eqb_spec (1 + zlen l) 0); [lia|].
    rewrite (after_spec p k) in Ha by auto. cbn [bind] in Ha. inv_bind Ha. inv_bind Ha. injection Ha as <- <-. reflexivity.
  - inv_bind E. destruct a0 as [r1 x]. injection E as <- <-. unfold rb_pop_rear in Ha. destruct (rb_is_empty r); [injection Ha as <- <-; reflexivity|].
    inv_bind Ha. inv_bind Ha. inv_bind Ha. injection Ha as <- <-. reflexivity.
  - inv_bind E. injection E as <- <-. reflexivity.
Qed.
Lemma ring_step p k r l op : ring_rep k r l -> exists r', ring_do p r op = Ok (r', snd (deque_do (2 ^ k) l op)) /\ ring_rep k r' (fst (deque_do (2 ^ k) l op)).
Proof.
  intros R. pose proof R as [_ Hc _ _ Hl Hr _ _]. destruct op; cbn [ring_do deque_do fst snd].
  - destruct (RingFacts.push_front_spec p k r l x R) as (r' & -> & R'). cbn [bind]. eauto.
  - destruct (RingFacts.push_rear_spec p k r l x R) as (r' & -> & R'). cbn [bind]. eauto.
  - destruct (RingFacts.pop_front_spec p k r l R) as (r' & -> & R'). cbn [bind]. exists r'. destruct l; auto.
  - destruct (RingFacts.pop_rear_spec p k r l R) as (r' & -> & R'). cbn [bind]. exists r'. destruct (split_last l); auto.
  - eexists. split; [reflexivity|]. eapply clear_spec; eauto.
  - exists r. rewrite Hl. auto.
  - exists r. unfold rb_is_full. rewrite Hl, Hc. split; auto. do 3 f_equal. destruct (Z.leb_spec (2 ^ k) (zlen l)), (Z.eqb_spec (zlen l) (2 ^ k)); auto; lia.
  - exists r. unfold rb_is_empty. rewrite Hl. auto.
  - rewrite (iter_spec p k r l R). cbn [bind]. eauto.
Qed.
Lemma change_replace n l x : change n l x = replace_nth n l x.
Proof.
  unfold change. revert n. induction l as [|y l IH]; intros n; [now destruct n|]. destruct n as [|n]; [reflexivity|].
  cbn [length replace_nth]. rewrite <- IH. change (S n <? S (length l))%nat with (n <? length l)%nat. destruct (n <? length l)%nat; reflexivity.
Qed.
Lemma item_inj c f j i : 0 < c -> 0 <= j < c -> 0 <= i < c -> ((f + j) mod c = i <-> j = (i - f) mod c).
Proof.
  intros Hc Hj Hi. split.
  - intros <-. rewrite Zminus_mod_idemp_l. replace (f + j - f) with j by ring. now rewrite Z.mod_small.
  - intros ->. rewrite Zplus_mod_idemp_r. replace (f + (i - f)) with i by ring. now rewrite Z.mod_small.
Qed.
Lemma write_rep k r l i x : ring_rep k r l -> 0 <= i < zlen (rb_backing r) -> exists r', rb_index_set r i x = Ok r' /\ rb_front r' = rb_front r /\
  zlen (rb_backing r') = zlen (rb_backing r) /\ ring_rep k r' (if i <? 2 ^ k then change (Z.to_nat ((i - rb_front r) mod 2 ^ k)) l x else l).
Proof.
  intros [Hk Hc Hb Hf Hl Hr Hrear Hit] Hi. pose proof (pow_k k Hk). unfold rb_index_set. rewrite store_ok by auto. cbn [bind]. eexists. split; [reflexivity|].
  cbn [rb_front rb_backing]. split; [reflexivity|]. split; [apply zlen_replace_nth|].
  set (l' := if i <? 2 ^ k then change (Z.to_nat ((i - rb_front r) mod 2 ^ k)) l x else l).
  assert (L : zlen l' = zlen l) by (unfold l'; destruct (i <? 2 ^ k); rewrite ?change_replace, ?zlen_replace_nth; reflexivity).
  constructor; cbn [rb_capacity rb_backing rb_front rb_rear rb_len]; rewrite ?zlen_replace_nth, ?L; auto.
  intros j Hj. pose proof (Z.mod_pos_bound (rb_front r + j) (2 ^ k) ltac:(lia)) as B. unfold l'.
  destruct (Z.ltb_spec i (2 ^ k)) as [I|I].
  - rewrite change_replace. pose proof (Z.mod_pos_bound (i - rb_front r) (2 ^ k) ltac:(lia)) as B'.
    destruct (Z.eq_dec ((rb_front r + j) mod 2 ^ k) i) as [E|N].
    + rewrite E. apply item_inj in E; [|lia|lia|lia]. rewrite <- E. rewrite !nth_error_replace_same; [reflexivity|unfold zlen in Hj; lia|unfold zlen in Hi; lia].
    + rewrite nth_error_replace_other by lia. assert (M : j <> (i - rb_front r) mod 2 ^ k) by (intros M; apply N, item_inj; lia).
      rewrite nth_error_replace_other by lia. auto.
  - rewrite nth_error_replace_other by lia. auto.
Qed.
End Ring.

Lemma raw_runs {T} p k : forall (ops : list (circle_op T)) (r : ring T) (l : list T), ring_rep k r l -> Forall (inside (zlen (rb_backing r))) ops -> forall c answers, circle_run (2 ^ k) (mkCircle l (rb_front r)) ops = (c, answers) ->
    exists r', raw_run p r ops = Ok (r', answers) /\ ring_rep k r' (items c) /\ first c = rb_front r'.
Proof.
induction ops as [|op ops IH]; intros r l R HI c answers E.
    - injection E as <- <-. exists r. auto.
    - inversion HI as [|? ? H1 H2]; subst. cbn [circle_run raw_run] in *.
      assert (St : exists r1, raw_do p r op = Ok (r1, snd (circle_do (2 ^ k) (mkCircle l (rb_front r)) op)) /\
        ring_rep k r1 (items (fst (circle_do (2 ^ k) (mkCircle l (rb_front r)) op))) /\ rb_front r1 = first (fst (circle_do (2 ^ k) (mkCircle l (rb_front r)) op)) /\
        zlen (rb_backing r1) = zlen (rb_backing r)).
      { destruct op as [op|i x]; cbn [raw_do circle_do items].
        - destruct (ring_step p k r l op R) as (r1 & E1 & R1). exists r1. pose proof (front_do p k r l op r1 _ R E1) as F. pose proof (backing_do p r op r1 _ E1) as Bk.
          destruct (deque_do (2 ^ k) l op) as [l1 a]. cbn [fst snd items first] in *. auto.
        - cbn [inside] in H1. destruct (write_rep k r l i x R H1) as (r1 & E1 & F & Bk & R1). exists r1. rewrite E1. cbn [bind fst snd].
          split; [reflexivity|]. unfold item_at. cbn [first]. destruct (i <? 2 ^ k); cbn [items first]; auto. }
      destruct St as (r1 & E1 & R1 & F1 & B1). rewrite E1. cbn [bind].
      destruct (circle_do (2 ^ k) (mkCircle l (rb_front r)) op) as [[l1 f1] a1]. cbn [fst snd items first] in *.
      destruct (circle_run (2 ^ k) (mkCircle l1 f1) ops) as [c2 as2] eqn:E2. injection E as <- <-. subst f1. rewrite <- B1 in H2.
      destruct (IH r1 l1 R1 H2 c2 as2 E2) as (r' & E' & R' & F'). exists r'. rewrite E'. auto.
Qed.

Lemma new_state {T} (backing : list T) c r : rb_new backing c = Ok r -> zlen (rb_backing r) = zlen backing /\ rb_front r = 0.
Proof. unfold rb_new. intros E. destruct (count_ones32 c =? 1); [|discriminate E]. injection E as <-. auto. Qed.

(** ** Ring buffers *)
(** Whatever is done to a new buffer, with writes by index among it, every answer is that of a circle of items, and [buffer[i]] is the item
    lying at place [i]: the place, not the position in the queue. *)
Theorem C95_ring : forall (T : Type) p (backing : list T) k ops,
  0 <= k <= 31 -> 2 ^ k <= zlen backing -> Forall (inside (zlen backing)) ops ->
  exists r, rb_new backing (2 ^ k) = Ok r /\ forall c answers, circle_run (2 ^ k) (mkCircle [] 0) ops = (c, answers) ->
  exists r', raw_run p r ops = Ok (r', answers) /\
    (forall i x, 0 <= i < 2 ^ k -> nth_error (items c) (Z.to_nat (item_at (2 ^ k) c i)) = Some x -> rb_index r' i = Ok x) /\
    (forall j x, nth_error (items c) j = Some x -> rb_index r' ((first c + Z.of_nat j) mod 2 ^ k) = Ok x).
Proof.
  intros T p backing k ops Hk Hb HI. destruct (new_spec backing k Hk Hb) as (r & E & R). exists r. split; [exact E|].
  pose proof (new_state _ _ _ E) as Hz.
  destruct Hz as [Hz Hf0]. rewrite <- Hz in HI. clear E Hb Hz backing. intros c answers. replace (mkCircle (@nil T) 0) with (mkCircle (@nil T) (rb_front r)) by now rewrite Hf0. clear Hf0.
  intros E. destruct (raw_runs p k ops r [] R HI c answers E) as (r' & E' & R' & F). exists r'. split; [exact E'|].
  destruct R' as [_ Hc Hb Hf Hl Hr Hrear Hit]. pose proof (pow_k k Hk).
  assert (A : forall j x, nth_error (items c) j = Some x -> rb_index r' ((first c + Z.of_nat j) mod 2 ^ k) = Ok x).
  { intros j x N. assert (J : (j < length (items c))%nat) by (apply nth_error_Some; congruence).
    specialize (Hit (Z.of_nat j) ltac:(unfold zlen; lia)). rewrite Nat2Z.id, N in Hit. rewrite F. unfold rb_index.
    pose proof (Z.mod_pos_bound (rb_front r' + Z.of_nat j) (2 ^ k) ltac:(lia)). rewrite (index_ok _ _ x) by lia. f_equal. now apply nth_error_nth. }
  split; [|exact A]. intros i x Hi N. specialize (A _ _ N). unfold item_at in A. pose proof (Z.mod_pos_bound (i - first c) (2 ^ k) ltac:(lia)).
  rewrite Z2Nat.id in A by lia. rewrite Zplus_mod_idemp_r in A. replace (first c + (i - first c)) with i in A by ring. now rewrite Z.mod_small in A.
Qed.
Print Assumptions C95_ring.
(** So long as nothing is taken from the front or put there, index and position agree. *)
Theorem C95_ring_filled : forall (T : Type) p (backing : list T) k xs, 0 <= k <= 31 -> 2 ^ k <= zlen backing -> zlen xs <= 2 ^ k ->
  exists r r' answers, rb_new backing (2 ^ k) = Ok r /\ raw_run p r (map (fun x => Deque (PushRear x)) xs) = Ok (r', answers) /\
    forall j x, nth_error xs j = Some x -> rb_index r' (Z.of_nat j) = Ok x.
Proof.
  intros T p backing k xs Hk Hb Hx. destruct (C95_ring T p backing k (map (fun x => Deque (PushRear x)) xs) Hk Hb) as (r & E & H).
  { apply Forall_forall. intros op Ho. apply in_map_iff in Ho. destruct Ho as (x & <- & _). exact I. }
  destruct (circle_run (2 ^ k) (mkCircle [] 0) (map (fun x => Deque (PushRear x)) xs)) as [c answers] eqn:Ec. destruct (H c answers eq_refl) as (r' & E' & _ & H2).
  exists r, r', answers. split; [exact E|]. split; [exact E'|].
  assert (K : items c = xs /\ first c = 0).
  { assert (G : forall ys (l : list T), zlen (l ++ ys) <= 2 ^ k -> forall (c : circle T) a, circle_run (2 ^ k) (mkCircle l 0) (map (fun x => Deque (PushRear x)) ys) = (c, a) -> items c = l ++ ys /\ first c = 0).
    { clear. induction ys as [|y ys IH]; intros l Hl c a E; cbn [map circle_run] in E.
      - injection E as <- <-. cbn. now rewrite app_nil_r.
      - cbn [circle_do deque_do items turn first] in E. rewrite zlen_app, zlen_cons in Hl. pose proof (zlen_nonneg ys). destruct (Z.ltb_spec (zlen l) (2 ^ k)); [|lia].
        destruct (circle_run (2 ^ k) (mkCircle (l ++ [y]) 0) (map (fun x => Deque (PushRear x)) ys)) as [c1 a1] eqn:E1. injection E as <- <-.
        destruct (IH (l ++ [y])) with (2 := E1) as [I1 I2]; [rewrite !zlen_app, zlen_cons; change (zlen (@nil T)) with 0; lia|]. rewrite <- app_assoc in I1. auto. }
    apply (G xs [] Hx c answers Ec). }
  destruct K as [K1 K2]. intros j x N. rewrite K1, K2 in H2. specialize (H2 j x N). assert (J : (j < length xs)%nat) by (apply nth_error_Some; congruence).
  rewrite Z.add_0_l, Z.mod_small in H2; [exact H2|]. unfold zlen in Hx. lia.
Qed.
Print Assumptions C95_ring_filled.
(** Outside the storage both panic; a place that holds no item can be read and written as well, and what was taken out can still be read there. *)
Theorem C95_ring_outside : forall (T : Type) (r : ring T) i x, zlen (rb_backing r) <= i -> rb_index r i = Panic IndexOutOfBounds /\ rb_index_set r i x = Panic IndexOutOfBounds.
Proof.
  intros T r i x H. unfold rb_index, rb_index_set, index, store. destruct (Z.ltb_spec i (zlen (rb_backing r))); [lia|]. rewrite andb_false_r. auto.
Qed.
Print Assumptions C95_ring_outside.
Theorem C95_ring_taken : forall (T : Type) p (r r' : ring T) x,
  (rb_pop_front p r = Ok (r', Some x) -> rb_index r' (rb_front r) = Ok x) /\ (rb_pop_rear p r = Ok (r', Some x) -> rb_index r' (rb_rear r') = Ok x).
Proof.
  intros T p r r' x. split; intros E.
  - unfold rb_pop_front in E. destruct (rb_is_empty r); [discriminate E|]. inv_bind E. inv_bind E. inv_bind E. injection E as <- <-. exact Ha1.
  - unfold rb_pop_rear in E. destruct (rb_is_empty r); [discriminate E|]. inv_bind E. inv_bind E. inv_bind E. injection E as <- <-. exact Ha1.
Qed.
Print Assumptions C95_ring_taken.

(** ** Circular stacks *)
Lemma land3 x : Z.land x 3 = x mod 4.
Proof. change 3 with (Z.ones 2). now rewrite Z.land_ones by lia. Qed.
Lemma pushed {T} (d : T) xs : let s := fold_left cs_push xs (cs_new d) in
  length (cs_data s) = 4%nat /\ cs_cursor s = zlen xs mod 4 /\ cs_len s = Z.min 4 (zlen xs) /\
  forall n x, nth_error xs n = Some x -> (length xs <= n + 4)%nat -> nth_error (cs_data s) (Z.to_nat (Z.of_nat n mod 4)) = Some x.
Proof.
  induction xs as [|y xs IH] using rev_ind; cbn zeta in *.
  - cbn [fold_left cs_new cs_data cs_cursor cs_len]. repeat split; auto. intros [|n] x E; discriminate E.
  - rewrite fold_left_app. cbn [fold_left]. set (s := fold_left cs_push xs (cs_new d)) in *. destruct IH as (L & C & N & H).
    unfold cs_push. cbn [cs_data cs_cursor cs_len]. rewrite !land3, C, N. pose proof (zlen_nonneg xs).
    pose proof (Z.mod_pos_bound (zlen xs) 4 ltac:(lia)) as B. rewrite (Z.mod_small (zlen xs mod 4) 4) by lia.
    rewrite zlen_app. change (zlen [y]) with 1. split; [|split; [|split]].
    + rewrite length_replace_nth. exact L.
    + now rewrite Zplus_mod_idemp_l.
    + lia.
    + intros n x E Hn. rewrite app_length in Hn. cbn [length] in Hn.
      destruct (Nat.eq_dec n (length xs)) as [->|Ne].
      * rewrite nth_error_app2, Nat.sub_diag in E by lia. injection E as <-. unfold zlen. apply nth_error_replace_same. unfold zlen in B. lia.
      * assert (n < length xs)%nat.
        { assert (n < length (xs ++ [y]))%nat by (apply nth_error_Some; congruence). rewrite app_length in *. cbn [length] in *. lia. }
        rewrite nth_error_app1 in E by lia. rewrite nth_error_replace_other; [apply H; [exact E|lia]|].
        pose proof (Z.mod_pos_bound (Z.of_nat n) 4 ltac:(lia)). intros K. assert (K' : zlen xs mod 4 = Z.of_nat n mod 4) by lia. unfold zlen in K'.
        pose proof (Z.div_mod (Z.of_nat (length xs)) 4). pose proof (Z.div_mod (Z.of_nat n) 4). lia.
Qed.
(** The n-th value pushed (counting from 0) is [stack[n mod 4]] until four more are pushed. *)
Theorem C95_stack : forall (T : Type) (d : T) xs n x, nth_error xs n = Some x -> (length xs <= n + 4)%nat ->
  cs_index (fold_left cs_push xs (cs_new d)) (Z.of_nat n mod 4) = Ok x.
Proof.
  intros T d xs n x E Hn. destruct (pushed d xs) as (L & _ & _ & H). unfold cs_index. pose proof (Z.mod_pos_bound (Z.of_nat n) 4 ltac:(lia)).
  rewrite (index_ok _ _ d) by (unfold zlen; rewrite L; lia). f_equal. apply nth_error_nth. auto.
Qed.
Print Assumptions C95_stack.
(** Writing [stack[i] = y] changes what [prev] gives for the one value at that place, and nothing else. *)
Theorem C95_stack_write : forall (T : Type) (d : T) xs i y, 0 <= i < 4 ->
  exists s, cs_index_set (fold_left cs_push xs (cs_new d)) i y = Ok s /\ cs_len s = Z.min 4 (zlen xs) /\
    forall k, 1 <= k <= Z.min 4 (zlen xs) -> cs_prev d s k = if (zlen xs - k) mod 4 =? i then y else cs_prev d (fold_left cs_push xs (cs_new d)) k.
Proof.
  intros T d xs i y Hi. destruct (pushed d xs) as (L & C & N & _). set (s := fold_left cs_push xs (cs_new d)) in *. unfold cs_index_set.
  rewrite store_ok by (unfold zlen; rewrite L; lia). cbn [bind]. eexists. split; [reflexivity|]. cbn [cs_len]. split; [exact N|].
  intros k Hk. unfold cs_prev. cbn [cs_data cs_cursor cs_len]. rewrite N.
  assert (CL : zclamp k 0 (Z.min 4 (zlen xs)) = k) by (unfold zclamp; destruct (Z.ltb_spec k 0); [lia|]; destruct (Z.ltb_spec (Z.min 4 (zlen xs)) k); [lia|reflexivity]). rewrite CL.
  rewrite land3, C. replace (zlen xs mod 4 + 4 - k) with (zlen xs mod 4 - k + 1 * 4) by ring. rewrite Z.mod_add by lia. rewrite Zminus_mod_idemp_l.
  pose proof (Z.mod_pos_bound (zlen xs - k) 4 ltac:(lia)). destruct (Z.eqb_spec ((zlen xs - k) mod 4) i) as [->|Ne].
  - apply nth_error_nth. apply nth_error_replace_same. lia.
  - apply nth_replace_other. lia.
Qed.
Print Assumptions C95_stack_write.
(** The index is not masked as the cursor is: from 4 on it panics. *)
Theorem C95_stack_outside : forall (T : Type) (d : T) xs i y, 4 <= i ->
  cs_index (fold_left cs_push xs (cs_new d)) i = Panic IndexOutOfBounds /\ cs_index_set (fold_left cs_push xs (cs_new d)) i y = Panic IndexOutOfBounds.
Proof.
  intros T d xs i y Hi. destruct (pushed d xs) as (L & _). unfold cs_index, cs_index_set, index, store, zlen. rewrite L.
  destruct (Z.ltb_spec i (Z.of_nat 4)); [lia|]. rewrite andb_false_r. auto.
Qed.
Print Assumptions C95_stack_outside.

(** ** Examples *)
(** A buffer that has turned: the first item of [4; 3; 2; 5] lies at place 3, and writing there changes it. *)
Example C95_applies :
  let ops := [Deque (PushRear 1); Deque (PushRear 2); Deque PopFront; Deque (PushFront 3); Deque (PushFront 4); Deque (PushRear 5); Write 3 9; Deque Iter] in
  circle_run 4 (mkCircle [] 0) ops =
    (mkCircle [9; 3; 2; 5] 3, [ANothing; ANothing; AItem (Some 1); ANothing; ANothing; ANothing; ANothing; AList [9; 3; 2; 5]]) /\
  Forall (inside (zlen (repeat 0 4))) ops /\ nth_error [1; 2; 3; 4; 5; 6] 4 = Some 5 /\ cs_index (fold_left cs_push [1; 2; 3; 4; 5; 6] (cs_new 0)) 0 = Ok 5.
Proof. cbn zeta. split; [vm_compute; reflexivity|]. split; [repeat constructor; discriminate|]. split; reflexivity. Qed.
