(** * Properties C39, C40, C41: the ring buffer, the linked list and the cache

    The client's view is defined in Spec/Collections.v. *)
From Coq Require Import ZArith List Bool Lia.
From Verif Require Import Model.Base Model.RingBuffer Model.LinkedList Model.LruCache Spec.Collections
  Proofs.BaseFacts Proofs.RingFacts Proofs.ListFacts Proofs.LruFacts.
Import ListNotations.
Open Scope Z_scope.

(** ** C39: FixedRingBuffer is a bounded deque *)
(** A client's operations on a ring buffer. *)
Definition ring_do {T} (p : profile) (r : ring T) (op : deque_op T) : outcome (ring T * answer T) :=
  match op with
  | PushFront x => r <- rb_push_front p r x ;; Ok (r, ANothing)
  | PushRear x => r <- rb_push_rear p r x ;; Ok (r, ANothing)
  | PopFront => '(r, x) <- rb_pop_front p r ;; Ok (r, AItem x)
  | PopRear => '(r, x) <- rb_pop_rear p r ;; Ok (r, AItem x)
  | Clear => Ok (rb_clear r, ANothing)
  | Len => Ok (r, ANumber (rb_len r))
  | IsFull => Ok (r, ABool (rb_is_full r))
  | IsEmpty => Ok (r, ABool (rb_is_empty r))
  | Iter => l <- rb_iter p r ;; Ok (r, AList l)
  end.
Fixpoint ring_run {T} (p : profile) (r : ring T) (ops : list (deque_op T)) : outcome (list (answer T)) :=
  match ops with
  | [] => Ok []
  | op :: ops => '(r, a) <- ring_do p r op ;; l <- ring_run p r ops ;; Ok (a :: l)
  end.

(** Every sequence of operations on a new buffer of any power-of-two capacity (with enough
    backing storage) returns what a bounded deque returns. *)
Theorem C39_deque : forall (T : Type) p (backing : list T) k ops,
  0 <= k <= 31 -> 2 ^ k <= zlen backing ->
  exists r, rb_new backing (2 ^ k) = Ok r /\ ring_run p r ops = Ok (deque_run (2 ^ k) [] ops).
Proof.
  intros T p backing k ops Hk Hb. destruct (new_spec backing k Hk Hb) as (r & E & R).
  exists r. split; [exact E|]. clear E Hb backing. revert r R. generalize (@nil T) as l.
  induction ops as [|op ops IH]; intros l r R; [reflexivity|]. cbn [ring_run deque_run].
  assert (S : exists r', ring_do p r op = Ok (r', snd (deque_do (2 ^ k) l op)) /\ ring_rep k r' (fst (deque_do (2 ^ k) l op))).
  { pose proof R as [_ Hc _ _ Hl Hr _ _]. destruct op; cbn [ring_do deque_do fst snd].
    - destruct (RingFacts.push_front_spec p k r l x R) as (r' & -> & R'). cbn [bind]. eauto.
    - destruct (RingFacts.push_rear_spec p k r l x R) as (r' & -> & R'). cbn [bind]. eauto.
    - destruct (RingFacts.pop_front_spec p k r l R) as (r' & -> & R'). cbn [bind]. exists r'. destruct l; auto.
    - destruct (RingFacts.pop_rear_spec p k r l R) as (r' & -> & R'). cbn [bind]. exists r'. destruct (split_last l); auto.
    - eexists. split; [reflexivity|]. eapply clear_spec; eauto.
    - exists r. rewrite Hl. auto.
    - exists r. unfold rb_is_full. rewrite Hl, Hc. split; auto. do 3 f_equal. destruct (Z.leb_spec (2 ^ k) (zlen l)), (Z.eqb_spec (zlen l) (2 ^ k)); auto; lia.
    - exists r. unfold rb_is_empty. rewrite Hl. auto.
    - rewrite (iter_spec p k r l R). cbn [bind]. eauto. }
  destruct S as (r' & -> & R'). cbn [bind]. destruct (deque_do (2 ^ k) l op) as [l' a]. cbn [fst snd] in *.
  now rewrite (IH l' r' R').
Qed.
Print Assumptions C39_deque.
(** Other capacities are refused. *)
Theorem C39_capacity : forall (T : Type) (backing : list T) c, 0 <= c < 2 ^ 32 ->
  (~ exists k, c = 2 ^ k) -> rb_new backing c = Panic InvalidState.
Proof.
  intros T backing c Hc HN. unfold rb_new. destruct (Z.eqb_spec (count_ones32 c) 1) as [E|E]; [|reflexivity].
  exfalso. apply HN. destruct (count_ones_pow c Hc E) as (k & _ & H). eauto.
Qed.
Print Assumptions C39_capacity.
(** A buffer of capacity 4 driven around its end. *)
Example C39_applies : 0 <= 2 <= 31 /\ 2 ^ 2 <= zlen (repeat 0 4) /\
  deque_run (2 ^ 2) [] [PushRear 1; PushRear 2; PopFront; PushFront 3; PushFront 4; PushRear 5; PushRear 6; IsFull; Iter; PopRear; Clear; PopFront] =
  [ANothing; ANothing; AItem (Some 1); ANothing; ANothing; ANothing; ANothing; ABool true; AList [4; 3; 2; 5]; AItem (Some 5); ANothing; AItem None] /\
  ~ exists k, 12 = 2 ^ k.
Proof.
  split; [lia|]. split; [vm_compute; discriminate|]. split; [vm_compute; reflexivity|].
  intros [k H]. assert (k < 0 \/ 0 <= k <= 3 \/ 4 <= k) as [C|[C|C]] by lia.
  - rewrite Z.pow_neg_r in H by lia. lia.
  - assert (k = 0 \/ k = 1 \/ k = 2 \/ k = 3) as [->|[->|[->| ->]]] by lia; discriminate H.
  - pose proof (Z.pow_le_mono_r 2 4 k ltac:(lia) C). lia.
Qed.

(** ** C40: LinkedList is a sequence with stable pointers *)
(** A client's operations on a linked list. *)
Definition list_do {T} (p : profile) (l : llist T) (op : seq_op T) : outcome (llist T * option T) :=
  match op with
  | AddFront x => l <- ll_push_front p l x ;; Ok (l, None)
  | AddRear x => l <- ll_push_rear p l x ;; Ok (l, None)
  | TakeFront => ll_pop_front p l
  | TakeRear => ll_pop_rear p l
  | AddBefore i x => l <- ll_insert_at p l i DLeft x ;; Ok (l, None)
  | AddAfter i x => l <- ll_insert_at p l i DRight x ;; Ok (l, None)
  | TakeAt i => ll_remove_at p l i
  end.
(** The entries of a list with their pointers, from the front: follow the right-hand
    neighbours and read each node through its pointer. *)
Definition entries {T} (l : llist T) : outcome (list (Z * T)) :=
  ptrs <- ll_walk l (Z.to_nat (ll_len l)) (ll_front l) ;;
  mapM (fun i => n <- ll_at l i ;; x <- expect (nd_data n) ;; Ok (i, x)) ptrs.
(** [used p n l]: [l] is what [n] operations make of a new list, every pointer passed in
    being the pointer of an entry at that time. *)
Inductive used {T} (p : profile) : nat -> llist T -> Prop :=
| UsedNew : used p 0 ll_new
| UsedOp n l v op l' a : used p n l -> entries l = Ok v -> seq_allowed v op ->
    list_do p l op = Ok (l', a) -> used p (S n) l'.

Lemma rep_entries {T} (l : llist T) es free : ll_rep l es free -> entries l = Ok es.
Proof.
  intros HR. unfold entries. rewrite (rep_walk _ _ _ HR). cbn [bind].
  assert (G : forall s, incl s es -> mapM (fun i => n <- ll_at l i ;; x <- expect (nd_data n) ;; Ok (i, x)) (ptrs s) = Ok s).
  { induction s as [|[i x] s IH]; intros Hs; [reflexivity|]. cbn [ptrs map mapM fst snd].
    destruct (rep_entry _ _ _ i x HR (Hs _ (or_introl eq_refl))) as (nd & -> & E). cbn [bind]. rewrite E. cbn [expect bind].
    fold (ptrs s). rewrite IH; [reflexivity|]. intros e He. apply Hs. now right. }
  apply G, incl_refl.
Qed.
Lemma in_ptrs_split {T} (es : list (Z * T)) i : In i (map fst es) -> exists a y b, es = a ++ (i, y) :: b.
Proof. intros H. apply in_map_iff in H. destruct H as ([j y] & <- & H). apply in_split in H. destruct H as (a & b & ->). eauto. Qed.
(** One step. *)
Lemma list_do_spec {T} p (l : llist T) es free op : ll_rep l es free -> zlen es < NULL -> seq_allowed es op ->
  exists l' a es' free', list_do p l op = Ok (l', a) /\ seq_step es op es' a /\ ll_rep l' es' free' /\
    zlen es' <= zlen es + 1 /\ zlen (ll_memory l') = Z.max (zlen (ll_memory l)) (zlen es').
Proof.
  intros HR Hs HA. pose proof (rep_size _ _ _ HR) as SZ. pose proof (zlen_nonneg free) as FN.
  destruct op as [x|x| | |i x|i x|i]; cbn [list_do seq_allowed] in *.
  - destruct (push_front_spec p l es free x HR Hs) as (l' & n & f' & -> & N & R' & Z'). cbn [bind].
    eexists _, _, _, _. split; [reflexivity|]. split; [constructor; exact N|]. split; [exact R'|]. rewrite zlen_cons. lia.
  - destruct (push_rear_spec p l es free x HR Hs) as (l' & n & f' & -> & N & R' & Z'). cbn [bind].
    eexists _, _, _, _. split; [reflexivity|]. split; [constructor; exact N|]. split; [exact R'|]. rewrite zlen_app. change (zlen [(n, x)]) with 1. lia.
  - destruct es as [|[i y] b].
    + unfold ll_pop_front. rewrite (remove_empty_spec p l free _ HR). eexists _, _, _, _. split; [reflexivity|]. split; [constructor|]. split; [exact HR|]. lia.
    + destruct (pop_front_spec p l i y b free HR) as (l' & -> & R' & Z'). eexists _, _, _, _. split; [reflexivity|]. split; [constructor|]. split; [exact R'|].
      rewrite zlen_cons in *. lia.
  - destruct es as [|[i y] a _] using rev_ind.
    + unfold ll_pop_rear. rewrite (remove_empty_spec p l free _ HR). eexists _, _, _, _. split; [reflexivity|]. split; [constructor|]. split; [exact HR|]. lia.
    + destruct (pop_rear_spec p l a i y free HR) as (l' & -> & R' & Z'). eexists _, _, _, _. split; [reflexivity|]. split; [constructor|]. split; [exact R'|].
      rewrite zlen_app in *. change (zlen [(i, y)]) with 1 in *. lia.
  - destruct (in_ptrs_split es i HA) as (a & y & b & ->).
    destruct (insert_spec p l a i y b free DLeft x HR Hs) as (l' & n & f' & -> & N & R' & Z'). cbn [bind].
    eexists _, _, _, _. split; [reflexivity|]. split; [constructor; exact N|]. split; [exact R'|]. rewrite !zlen_app, !zlen_cons in *. lia.
  - destruct (in_ptrs_split es i HA) as (a & y & b & ->).
    destruct (insert_spec p l a i y b free DRight x HR Hs) as (l' & n & f' & -> & N & R' & Z'). cbn [bind].
    eexists _, _, _, _. split; [reflexivity|]. split; [constructor; exact N|]. split; [exact R'|]. rewrite !zlen_app, !zlen_cons in *. lia.
  - destruct (in_ptrs_split es i HA) as (a & y & b & ->).
    destruct (remove_spec p l a i y b free HR) as (l' & -> & R' & Z').
    eexists _, _, _, _. split; [reflexivity|]. split; [constructor|]. split; [exact R'|]. rewrite !zlen_app, !zlen_cons in *. lia.
Qed.
Lemma used_rep {T} p n (l : llist T) : used p n l -> Z.of_nat n < 2 ^ 32 -> exists es free, ll_rep l es free /\ zlen es <= Z.of_nat n.
Proof.
  induction 1 as [|n l v op l' a U IH HE HA HD]; intros Hn.
  - exists [], []. split; [apply new_rep|change (zlen (@nil (Z * T))) with 0; lia].
  - destruct IH as (es & free & HR & HZ); [lia|]. rewrite (rep_entries _ _ _ HR) in HE. injection HE as <-.
    destruct (list_do_spec p l es free op HR ltac:(unfold NULL; lia) HA) as (l1 & a1 & es' & free' & E & _ & R' & Z1 & _).
    rewrite E in HD. injection HD as <- <-. exists es', free'. split; auto. lia.
Qed.

(** However a list has been used, its entries can be read back, no two of them share a
    pointer, [len] and [iter] agree with them, and every further operation succeeds, changes
    exactly the entry it names, and returns what a plain list would.  The number of nodes ever
    allocated only grows when there are more entries than nodes: removed nodes are recycled. *)
Theorem C40_sequence : forall (T : Type) p n (l : llist T), used p n l -> Z.of_nat n < 2 ^ 32 - 1 ->
  exists v, entries l = Ok v /\ NoDup (map fst v) /\ ll_len l = zlen v /\ ll_iter l = Ok (map snd v) /\
    forall op, seq_allowed v op -> exists l' a v',
      list_do p l op = Ok (l', a) /\ entries l' = Ok v' /\ seq_step v op v' a /\
      zlen (ll_memory l') = Z.max (zlen (ll_memory l)) (zlen v').
Proof.
  intros T p n l U Hn. destruct (used_rep p n l U) as (es & free & HR & HZ); [lia|].
  exists es. split; [exact (rep_entries _ _ _ HR)|]. split; [exact (nodup_app_l _ _ (lr_nodup _ _ _ HR))|].
  split; [exact (lr_len _ _ _ HR)|]. split; [exact (rep_iter _ _ _ HR)|]. intros op HA.
  destruct (list_do_spec p l es free op HR ltac:(unfold NULL; lia) HA) as (l' & a & es' & free' & E & S & R' & _ & Z').
  exists l', a, es'. split; [exact E|]. split; [exact (rep_entries _ _ _ R')|]. auto.
Qed.
Print Assumptions C40_sequence.
(** The specification leaves no freedom but the choice of the new pointer: with unique
    pointers the values after a step and the answer are determined. *)
Theorem C40_spec_determined : forall (T : Type) (v : list (Z * T)) op v1 a1 v2 a2, NoDup (map fst v) ->
  seq_step v op v1 a1 -> seq_step v op v2 a2 -> map snd v1 = map snd v2 /\ a1 = a2.
Proof.
  assert (Q : forall (T : Type) (a : list (Z * T)) i y b a' y' b', NoDup (map fst (a ++ (i, y) :: b)) ->
    a ++ (i, y) :: b = a' ++ (i, y') :: b' -> a = a' /\ y = y' /\ b = b').
  { intros T a. induction a as [|[j z] a IH]; intros i y b a' y' b' ND E.
    - destruct a' as [|[j' z'] a']; cbn [app] in E; [injection E as -> ->; auto|]. injection E as -> -> ->.
      exfalso. cbn [app map fst] in ND. inversion ND as [|? ? N _]; subst. apply N. rewrite map_app. apply in_or_app. right. now left.
    - cbn [app map fst] in ND. inversion ND as [|? ? N ND']; subst. destruct a' as [|[j' z'] a']; cbn [app] in E.
      + injection E as -> _ _. exfalso. apply N. rewrite map_app. apply in_or_app. right. now left.
      + injection E as -> -> E. destruct (IH i y b a' y' b' ND' E) as (-> & -> & ->). auto. }
  intros T v op v1 a1 v2 a2 ND H1 H2. destruct H1; inversion H2; subst; auto.
  - split; auto. now rewrite !map_app.
  - match goal with E : _ ++ [_] = _ ++ [_] |- _ => apply app_inj_tail in E; destruct E as [-> E]; now injection E as _ -> end.
  - exfalso. match goal with E : [] = _ ++ [_] |- _ => now apply app_cons_not_nil in E end.
  - exfalso. match goal with E : _ ++ [_] = [] |- _ => symmetry in E; now apply app_cons_not_nil in E end.
  - match goal with E : _ ++ _ :: _ = _ ++ _ :: _ |- _ => destruct (Q _ _ _ _ _ _ _ _ ND (eq_sym E)) as (-> & -> & ->) end. split; auto. now rewrite !map_app.
  - match goal with E : _ ++ _ :: _ = _ ++ _ :: _ |- _ => destruct (Q _ _ _ _ _ _ _ _ ND (eq_sym E)) as (-> & -> & ->) end. split; auto. now rewrite !map_app.
  - match goal with E : _ ++ _ :: _ = _ ++ _ :: _ |- _ => destruct (Q _ _ _ _ _ _ _ _ ND (eq_sym E)) as (-> & -> & ->) end. auto.
Qed.
Print Assumptions C40_spec_determined.
(** Two further facts a client may trip over: on a one-entry list [remove_at] ignores its
    argument, and [insert_at] with the null pointer loses the item on a non-empty list. *)
Theorem C40_remove_single : forall (T : Type) p n (l : llist T) i x j, used p n l -> Z.of_nat n < 2 ^ 32 - 1 ->
  entries l = Ok [(i, x)] -> exists l', ll_remove_at p l j = Ok (l', Some x) /\ entries l' = Ok [].
Proof.
  intros T p n l i x j U Hn HE. destruct (used_rep p n l U) as (es & free & HR & HZ); [lia|].
  rewrite (rep_entries _ _ _ HR) in HE. injection HE as ->.
  destruct (remove_single_spec p l i x free j HR) as (l' & E & R' & _). eauto using rep_entries.
Qed.
Theorem C40_insert_null : forall (T : Type) p n (l : llist T) v d x, used p n l -> Z.of_nat n < 2 ^ 32 - 1 ->
  entries l = Ok v -> v <> [] -> ll_insert_at p l NULL d x = Ok l.
Proof.
  intros T p n l v d x U Hn HE Hv. destruct (used_rep p n l U) as (es & free & HR & HZ); [lia|].
  rewrite (rep_entries _ _ _ HR) in HE. injection HE as <-. unfold ll_insert_at. rewrite (lr_len _ _ _ HR).
  destruct (Z.eqb_spec (zlen es) 0) as [E|_]; [|reflexivity]. destruct es; [congruence|]. rewrite zlen_cons in E. pose proof (zlen_nonneg es). lia.
Qed.
Print Assumptions C40_remove_single.
Print Assumptions C40_insert_null.
(** A list used in earnest: 3 entries, the middle one removed, its node reused. *)
Definition list_ops (ops : list (seq_op Z)) : outcome (llist Z) :=
  fold_left (fun o op => l <- o ;; '(l, _) <- list_do Debug l op ;; Ok l) ops (Ok ll_new).
Example C40_applies :
  match list_ops [AddRear 10; AddRear 20; AddFront 5; TakeAt 0; AddAfter 2 7; AddBefore 1 8] with
  | Ok l => entries l = Ok [(2, 5); (0, 7); (3, 8); (1, 20)] /\ zlen (ll_memory l) = 4
  | _ => False end.
Proof. vm_compute. auto. Qed.
Fixpoint list_used (l : llist Z) (ops : list (seq_op Z)) : Prop :=
  match ops with
  | [] => entries l = Ok [(2, 5); (0, 7); (3, 8); (1, 20)]
  | op :: ops => match entries l, list_do Debug l op with
                 | Ok v, Ok (l', _) => seq_allowed v op /\ list_used l' ops
                 | _, _ => False end
  end.
Example C40_used : exists l : llist Z, used Debug 6 l /\ entries l = Ok [(2, 5); (0, 7); (3, 8); (1, 20)].
Proof.
  assert (G : forall ops n l, used Debug n l -> list_used l ops -> exists l', used Debug (length ops + n) l' /\ entries l' = Ok [(2, 5); (0, 7); (3, 8); (1, 20)]).
  { induction ops as [|op ops IH]; intros n l U H; [exists l; auto|]. cbn [list_used] in H.
    destruct (entries l) as [v| |] eqn:E; try contradiction. destruct (list_do Debug l op) as [[l1 a]| |] eqn:E1; try contradiction. destruct H as [HA H].
    destruct (IH (S n) l1 (UsedOp _ _ _ _ _ _ _ U E HA E1) H) as (l' & U' & E'). exists l'. split; auto. cbn [length Nat.add]. now rewrite <- Nat.add_succ_r. }
  apply (G [AddRear 10; AddRear 20; AddFront 5; TakeAt 0; AddAfter 2 7; AddBefore 1 8] 0%nat ll_new); [constructor|]. vm_compute. tauto.
Qed.

(** ** C41: LruCache is a recency list *)
(** A client's operations on a cache. *)
Definition lru_do {K V} (eqb : K -> K -> bool) (p : profile) (c : lru K V) (op : @cache_op K V) : outcome (lru K V * @cache_answer V) :=
  match op with
  | Put k v => c <- lru_put eqb p c k v ;; Ok (c, CNothing)
  | Get k => '(c, v) <- lru_get eqb p c k ;; Ok (c, CValue v)
  | GetMut k v => c <- lru_get_mut_set eqb p c k v ;; Ok (c, CNothing)
  | Lookup k => v <- lru_lookup eqb c k ;; Ok (c, CValue v)
  | Remove k => '(c, v) <- lru_remove eqb p c k ;; Ok (c, CValue v)
  | Count => Ok (c, CNumber (lru_len c))
  end.
Fixpoint lru_run {K V} (eqb : K -> K -> bool) (p : profile) (c : lru K V) (ops : list (@cache_op K V)) : outcome (list (@cache_answer V)) :=
  match ops with
  | [] => Ok []
  | op :: ops => '(c, a) <- lru_do eqb p c op ;; l <- lru_run eqb p c ops ;; Ok (a :: l)
  end.

(** Every sequence of operations on a cache of any capacity from 1 to 2^32 - 1 returns what
    the recency list returns. *)
Theorem C41_recency : forall (K V : Type) (eqb : K -> K -> bool) p cap ops,
  (forall a b, eqb a b = true <-> a = b) -> 1 <= cap < 2 ^ 32 ->
  lru_run eqb p (lru_new cap : lru K V) ops = Ok (cache_run eqb cap [] ops).
Proof.
  intros K V eqb p cap ops He Hc. pose proof (new_lru eqb cap Hc : lru_rep eqb cap (lru_new cap : lru K V) []) as R.
  change (@nil (K * V)) with (map snd (@nil (Z * (K * V)))). revert R.
  generalize (@nil (Z * (K * V))) as es. generalize (lru_new cap : lru K V) as c.
  induction ops as [|op ops IH]; intros c es R; [reflexivity|]. cbn [lru_run cache_run].
  assert (S : exists c' es', lru_do eqb p c op = Ok (c', snd (cache_do eqb cap (map snd es) op)) /\ lru_rep eqb cap c' es' /\
    map snd es' = fst (cache_do eqb cap (map snd es) op)).
  { destruct op; cbn [lru_do].
    - destruct (put_ok eqb He cap c es k v p R) as (c' & es' & -> & R' & E'). cbn [bind]. eauto.
    - destruct (get_ok eqb He cap c es k p R) as (c' & es' & -> & R' & E'). cbn [bind]. eauto.
    - destruct (get_mut_ok eqb He cap c es k v p R) as (c' & es' & -> & R' & E'). cbn [bind]. eauto.
    - rewrite (lookup_ok eqb He cap c es k R). cbn [bind]. eauto.
    - destruct (remove_ok eqb He cap c es k p R) as (c' & es' & -> & R' & E'). cbn [bind]. eauto.
    - exists c, es. split; [|auto]. destruct (lu_list _ _ _ _ R) as [free HR]. unfold lru_len. rewrite (lr_len _ _ _ HR). cbn [cache_do snd].
      do 3 f_equal. unfold zlen. now rewrite map_length. }
  destruct S as (c' & es' & -> & R' & E'). cbn [bind]. destruct (cache_do eqb cap (map snd es) op) as [l' a]. cbn [fst snd] in *.
  rewrite (IH c' es' R'), E'. reflexivity.
Qed.
Print Assumptions C41_recency.
(** The specification's own promises: never more than [cap] entries, one entry per key. *)
Theorem C41_spec_bounded : forall (K V : Type) (eqb : K -> K -> bool) cap (l : list (K * V)) op,
  (forall a b, eqb a b = true <-> a = b) -> 1 <= cap -> zlen l <= cap -> NoDup (map fst l) ->
  zlen (fst (cache_do eqb cap l op)) <= cap /\ NoDup (map fst (fst (cache_do eqb cap l op))).
Proof.
  intros K V eqb cap l op He Hc Hl ND.
  assert (Hd : forall k k', k <> k' -> eqb k k' = false) by (intros k k' N; destruct (eqb k k') eqn:E; auto; apply He in E; contradiction).
  assert (W : forall k (s : list (K * V)), zlen (without eqb k s) <= zlen s).
  { intros k s. unfold without. induction s as [|e s IH]; cbn [filter]; [lia|]. destruct (negb (holds_key eqb k e)); rewrite !zlen_cons; lia. }
  assert (W1 : forall k (s : list (K * V)) v, value_of eqb k s = Some v -> zlen (without eqb k s) < zlen s).
  { intros k s. unfold value_of. induction s as [|[k1 v1] s IH]; intros v E; [discriminate|]. specialize (W k s). revert E W. unfold without, holds_key in *.
    cbn [find filter fst]. destruct (eqb k k1) eqn:Ek; cbn [negb]; intros E W; rewrite !zlen_cons; [lia|]. specialize (IH v E). lia. }
  assert (WN : forall k (s : list (K * V)), NoDup (map fst s) -> NoDup (map fst (without eqb k s)) /\ ~ In k (map fst (without eqb k s))).
  { intros k s N. unfold without, holds_key. induction s as [|[k1 v1] s IH]; cbn [map filter fst] in *; [split; [constructor|auto]|].
    inversion N as [|? ? N1 N2]; subst. destruct (IH N2) as [I1 I2]. destruct (eqb k k1) eqn:Ek; cbn [negb map fst]; [auto|]. split.
    - constructor; auto. intros X. apply N1. apply in_map_iff in X. destruct X as (e & <- & X). apply filter_In in X. apply in_map. tauto.
    - intros [X|X]; [rewrite X, (proj2 (He _ _) eq_refl) in Ek; discriminate|auto]. }
  assert (VN : forall k (s : list (K * V)), value_of eqb k s = None -> ~ In k (map fst s)).
  { intros k s. unfold value_of, holds_key. induction s as [|[k1 v1] s IH]; cbn [find map fst]; intros E; [auto|].
    destruct (eqb k k1) eqn:Ek; [discriminate|]. intros [X|X]; [rewrite X, (proj2 (He _ _) eq_refl) in Ek; discriminate|now apply IH]. }
  destruct op; cbn [cache_do fst]; auto.
  - destruct (value_of eqb k l) as [w|] eqn:E.
    + specialize (W1 k l w E). destruct (WN k l ND). rewrite zlen_cons. split; [lia|]. cbn [map fst]. constructor; auto.
    + specialize (VN k l E). destruct (Z.leb_spec cap (zlen l)) as [Hf|Hf].
      * destruct l as [|e l _] using rev_ind; [change (zlen (@nil (K * V))) with 0 in Hf; lia|]. rewrite removelast_last.
        rewrite zlen_app in Hl, Hf. change (zlen [e]) with 1 in *. rewrite zlen_cons. split; [lia|]. rewrite map_app in ND, VN.
        cbn [map fst]. constructor; [intros X; apply VN, in_or_app; auto|]. now apply nodup_app_l in ND.
      * rewrite zlen_cons. split; [lia|]. cbn [map fst]. constructor; auto.
  - destruct (value_of eqb k l) as [w|] eqn:E; auto. specialize (W1 k l w E). destruct (WN k l ND). rewrite zlen_cons. split; [lia|]. cbn [map fst]. constructor; auto.
  - destruct (value_of eqb k l) as [w|] eqn:E; auto. specialize (W1 k l w E). destruct (WN k l ND). rewrite zlen_cons. split; [lia|]. cbn [map fst]. constructor; auto.
  - specialize (W k l). destruct (WN k l ND). split; [lia|auto].
Qed.
Print Assumptions C41_spec_bounded.
(** With a capacity that is 0, or that becomes 0 as a u32, the first [put] panics. *)
Theorem C41_zero_capacity : forall (K V : Type) (eqb : K -> K -> bool) p cap k v,
  cap mod 2 ^ 32 = 0 -> lru_put eqb p (lru_new cap : lru K V) k v = Panic IndexOutOfBounds.
Proof. intros K V eqb p cap k v H. unfold lru_put, lru_new, uwrap. cbn [lru_table fm_get lru_capacity lru_len lru_list ll_new ll_len ll_rear]. rewrite H. reflexivity. Qed.
Print Assumptions C41_zero_capacity.
(** Capacity 2: the entry used longest ago goes, [lookup] does not count as use. *)
Example C41_applies : (forall a b, Z.eqb a b = true <-> a = b) /\ 1 <= 2 < 2 ^ 32 /\
  cache_run Z.eqb 2 [] [Put 1 10; Put 2 20; Get 1; Put 3 30; Lookup 2; Lookup 1; Put 4 40; Lookup 1; Lookup 3; GetMut 3 31; Put 5 50; Get 4; Get 3; Count; Remove 3; Count] =
  [CNothing; CNothing; CValue (Some 10); CNothing; CValue None; CValue (Some 10); CNothing; CValue None; CValue (Some 30); CNothing; CNothing; CValue None; CValue (Some 31); CNumber 2; CValue (Some 31); CNumber 1].
Proof. split; [apply Z.eqb_eq|]. split; [lia|]. vm_compute. reflexivity. Qed.
