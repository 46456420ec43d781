(** * Properties C36-C38: NibbleList, BitVec, CircularStack against plain lists *)
From Coq Require Import ZArith List Bool Lia.
From Verif Require Import Model.Base Model.NibbleList Model.BitVec Model.CircularStack
  Proofs.BaseFacts Proofs.Containers.
Import ListNotations.
Open Scope Z_scope.

(** ** C36: NibbleList *)
Inductive nl_op := NPush (v : Z) | NSet (i v : Z).
Definition nl_step (p : profile) (n : nibble_list) (o : nl_op) : outcome nibble_list :=
  match o with NPush v => nl_push p n v | NSet i v => Ok (nl_set n i v) end.
(** The same operations on a plain list. *)
Definition nl_list_step (l : list Z) (o : nl_op) : list Z :=
  match o with NPush v => l ++ [v] | NSet i v => replace_nth (Z.to_nat i) l v end.
(** Values are nibbles; [set] is used on an existing index (indices past the end are ignored,
    except the one directly at the end, which may alias the spare half byte). *)
Fixpoint nl_legal (l : list Z) (ops : list nl_op) : Prop :=
  match ops with
  | [] => True
  | o :: ops =>
      match o with
      | NPush v => 0 <= v < 16
      | NSet i v => 0 <= v < 16 /\ 0 <= i /\ i <> zlen l
      end /\ nl_legal (nl_list_step l o) ops
  end.

Lemma nl_run_rep p ops : forall n l0, nl_rep n l0 -> nl_legal l0 ops -> zlen l0 + zlen ops < 2 ^ 32 - 1 ->
    exists n', foldM (nl_step p) ops n = Ok n' /\ nl_rep n' (fold_left nl_list_step ops l0).
Proof.
  induction ops as [|o ops IH]; intros n l0 R HO HB; cbn [foldM fold_left].
  - eauto.
  - cbn [nl_legal] in HO. destruct HO as [Ho HO]. rewrite zlen_cons in HB.
    pose proof (zlen_nonneg ops). pose proof (zlen_nonneg l0).
    destruct o as [v|i v]; cbn [nl_step nl_list_step] in *.
    + destruct (nl_push_rep p n l0 v R Ho ltac:(lia)) as (n' & E & R').
      rewrite E. cbn [bind]. apply IH; auto. rewrite zlen_app. change (zlen [v]) with 1. lia.
    + destruct Ho as (Hv & Hi & Hne). cbn [bind].
      destruct (Z.lt_ge_cases i (zlen l0)).
      * apply IH; auto. { apply nl_set_rep; auto. } rewrite zlen_replace_nth. lia.
      * rewrite (nl_set_far n l0 i v R) by lia.
        assert (E : replace_nth (Z.to_nat i) l0 v = l0).
        { rewrite <- (app_nil_r l0) at 1. rewrite replace_nth_app_r by (unfold zlen in *; lia).
          destruct (Z.to_nat i - length l0)%nat; apply app_nil_r. }
        rewrite E in *. apply IH; auto. lia.
Qed.

Theorem C36_nibble_list_refines_list : forall p ops,
  nl_legal [] ops -> zlen ops < 2 ^ 32 - 1 ->
  let l := fold_left nl_list_step ops [] in
  exists n,
    foldM (nl_step p) ops nl_new = Ok n /\
    nl_len n = zlen l /\
    nl_is_empty n = (zlen l =? 0) /\
    (forall i, 0 <= i < zlen l -> nl_get n i = nth (Z.to_nat i) l 0) /\
    nl_iter n = l.
Proof.
  intros p ops HO HB l.
  destruct (nl_run_rep p ops nl_new [] nl_rep_new HO ltac:(change (zlen (@nil Z)) with 0; lia)) as (n & E & R).
  exists n. fold l in R. split; auto. pose proof (nl_rep_len n l R) as HL.
  split; auto. split; [unfold nl_is_empty; now rewrite HL|].
  split; [intros; now apply nl_get_rep|]. now apply nl_iter_rep.
Qed.
Print Assumptions C36_nibble_list_refines_list.
Example C36_not_vacuous :
  nl_legal [] [NPush 15; NPush 3; NSet 0 7; NPush 9; NSet 7 1] /\
  fold_left nl_list_step [NPush 15; NPush 3; NSet 0 7; NPush 9; NSet 7 1] [] = [7; 3; 9].
Proof. split; [repeat split; cbn; (lia || discriminate)|reflexivity]. Qed.

(** After [clear] a pushed nibble is ORed with the old one. *)
Theorem C36_push_after_clear_refuted : forall p,
  exists n, (n <- nl_push p nl_new 15 ;; nl_push p (nl_clear n) 0) = Ok n /\
            nl_len n = 1 /\ nl_get n 0 = 15.
Proof. destruct p; eexists; (split; [vm_compute; reflexivity|split; reflexivity]). Qed.
Print Assumptions C36_push_after_clear_refuted.

(** The law behind it: whatever the list held, the first push after [clear] yields the OR
    of the old first entry and the new value. *)
Theorem C36_push_after_clear_law : forall p ops v,
  nl_legal [] ops -> zlen ops < 2 ^ 32 - 1 -> 0 <= v < 16 ->
  let l := fold_left nl_list_step ops [] in
  l <> [] ->
  exists n n',
    foldM (nl_step p) ops nl_new = Ok n /\
    nl_push p (nl_clear n) v = Ok n' /\ nl_get n' 0 = Z.lor (nth 0 l 0) v.
Proof.
  intros p ops v HO HB Hv l Hl.
  destruct (nl_run_rep p ops nl_new [] nl_rep_new HO ltac:(change (zlen (@nil Z)) with 0; lia)) as (n & E & R).
  destruct (nl_push_clear p n l v R) as (n' & E' & G); auto.
  { destruct l; [contradiction|]. rewrite zlen_cons. pose proof (zlen_nonneg l). lia. }
  eauto.
Qed.
Print Assumptions C36_push_after_clear_law.

(** A value above 15 spills into the neighbour. *)
Theorem C36_wide_value_refuted : forall p,
  exists n, (n <- nl_push p nl_new 16 ;; nl_push p n 0) = Ok n /\
            nl_get n 0 = 0 /\ nl_get n 1 = 1.
Proof. destruct p; eexists; (split; [vm_compute; reflexivity|split; reflexivity]). Qed.
Print Assumptions C36_wide_value_refuted.

(** ** C37: BitVec *)
Inductive bv_op := BPush (b : Z) | BSet (i b : Z) | BClear.
Definition bv_step (p : profile) (v : bitvec) (o : bv_op) : outcome bitvec :=
  match o with
  | BPush b => bv_push p v b
  | BSet i b => Ok (bv_set v i b)
  | BClear => Ok (bv_clear v)
  end.
(** On a plain list of bits; only the lowest bit of the argument counts. *)
Definition bv_list_step (l : list bool) (o : bv_op) : list bool :=
  match o with
  | BPush b => l ++ [Z.odd b]
  | BSet i b => replace_nth (Z.to_nat i) l (Z.odd b)
  | BClear => []
  end.
Definition bv_legal (o : bv_op) : Prop :=
  match o with BSet i _ => 0 <= i < 2 ^ 64 | _ => True end.
(** The greatest length the list ever had. *)
Fixpoint max_length (l : list bool) (ops : list bv_op) : Z :=
  match ops with
  | [] => zlen l
  | o :: ops => Z.max (zlen l) (max_length (bv_list_step l o) ops)
  end.

Theorem C37_bitvec_refines_list : forall p ops,
  Forall bv_legal ops -> zlen ops < 2 ^ 64 - 1 ->
  let l := fold_left bv_list_step ops [] in
  exists v,
    foldM (bv_step p) ops bv_new = Ok v /\
    bv_len v = zlen l /\
    (forall i, 0 <= i < zlen l -> bv_get v i = Z.b2z (nth (Z.to_nat i) l false)) /\
    bv_iter v = map Z.b2z l /\
    bv_capacity v = bv_bits_required (max_length [] ops).
Proof.
  intros p ops HO HB l.
  assert (G : forall ops v l0 hi, bv_rep v l0 hi -> Forall bv_legal ops ->
    zlen l0 + zlen ops < 2 ^ 64 - 1 ->
    exists v', foldM (bv_step p) ops v = Ok v' /\
      bv_rep v' (fold_left bv_list_step ops l0) (Z.max hi (max_length l0 ops)) /\
      zlen (fold_left bv_list_step ops l0) <= zlen l0 + zlen ops).
  { clear. induction ops as [|o ops IH]; intros v l0 hi R HO HB; cbn [foldM fold_left max_length].
    - exists v. split; auto. pose proof R as (_ & _ & H & _). rewrite Z.max_l by lia.
      split; auto. change (zlen (@nil bv_op)) with 0. lia.
    - inversion HO as [|? ? Ho HO']; subst. rewrite zlen_cons in *.
      pose proof (zlen_nonneg ops). pose proof (zlen_nonneg l0). pose proof R as (_ & _ & HH & _).
      destruct o as [b|i b|]; cbn [bv_step bv_list_step] in *.
      + destruct (bv_push_rep p v l0 hi b R ltac:(lia)) as (v' & E & R').
        assert (L1 : zlen (l0 ++ [Z.odd b]) = zlen l0 + 1) by (rewrite zlen_app; reflexivity).
        rewrite E. cbn [bind]. destruct (IH v' _ _ R' HO' ltac:(lia)) as (v2 & E2 & R2 & L2).
        exists v2. split; auto. split; [|lia].
        replace (Z.max hi (Z.max (zlen l0) (max_length (l0 ++ [Z.odd b]) ops)))
          with (Z.max (Z.max hi (zlen l0 + 1)) (max_length (l0 ++ [Z.odd b]) ops)); auto.
        assert (zlen (l0 ++ [Z.odd b]) <= max_length (l0 ++ [Z.odd b]) ops).
        { destruct ops; cbn [max_length]; lia. }
        lia.
      + cbn [bind]. pose proof (zlen_replace_nth (Z.to_nat i) l0 (Z.odd b)) as L1.
        destruct (IH _ _ _ (bv_set_rep v l0 hi i b R Ho) HO' ltac:(lia)) as (v2 & E2 & R2 & L2).
        exists v2. split; auto. split; [|lia].
        replace (Z.max hi (Z.max (zlen l0) (max_length (replace_nth (Z.to_nat i) l0 (Z.odd b)) ops)))
          with (Z.max hi (max_length (replace_nth (Z.to_nat i) l0 (Z.odd b)) ops)) by lia. auto.
      + cbn [bind]. change (zlen (@nil bool)) with 0 in *.
        destruct (IH _ _ _ (bv_clear_rep v l0 hi R) HO') as (v2 & E2 & R2 & L2).
        { change (zlen (@nil bool)) with 0. lia. }
        change (zlen (@nil bool)) with 0 in L2.
        exists v2. split; auto. split; [|lia].
        replace (Z.max hi (Z.max (zlen l0) (max_length [] ops)))
          with (Z.max hi (max_length [] ops)) by lia. auto. }
  destruct (G ops bv_new [] 0 bv_rep_new HO ltac:(change (zlen (@nil bool)) with 0; lia))
    as (v & E & R & L). fold l in R, L. change (zlen (@nil bool)) with 0 in L.
  exists v. split; auto. split; [apply (bv_rep_len v l _ R); lia|].
  split; [intros; apply (bv_get_rep v l _ i R); lia|].
  split; [apply (bv_iter_rep v l _ R); lia|].
  rewrite (bv_capacity_rep v l _ R). f_equal.
  assert (0 <= max_length [] ops).
  { clear. generalize (@nil bool). induction ops; intros l; cbn [max_length]; pose proof (zlen_nonneg l); [auto|lia]. }
  lia.
Qed.
Print Assumptions C37_bitvec_refines_list.
Example C37_not_vacuous :
  let ops := [BPush 1; BPush 0; BSet 1 3; BClear; BPush 0; BPush 1; BSet 90 1] in
  Forall bv_legal ops /\ fold_left bv_list_step ops [] = [false; true] /\ max_length [] ops = 2.
Proof. split; [repeat constructor; cbn; discriminate|split; reflexivity]. Qed.

(** ** C38: CircularStack *)
Inductive cs_op (T : Type) := CPush (x : T) | CPop.
Arguments CPush {T}. Arguments CPop {T}.
(** The concrete run collects the popped values. *)
Fixpoint cs_run {T} (d : T) (s : cstack T) (ops : list (cs_op T)) : cstack T * list T :=
  match ops with
  | [] => (s, [])
  | CPush x :: ops => cs_run d (cs_push s x) ops
  | CPop :: ops => let '(s, x) := cs_pop d s in
                   let '(s, xs) := cs_run d s ops in (s, x :: xs)
  end.
(** A stack that forgets all but its four top entries (top first). *)
Fixpoint cs_list_run {T} (d : T) (l : list T) (ops : list (cs_op T)) : list T * list T :=
  match ops with
  | [] => (l, [])
  | CPush x :: ops => cs_list_run d (firstn 4 (x :: l)) ops
  | CPop :: ops => let '(l', xs) := cs_list_run d (tl l) ops in (l', hd d l :: xs)
  end.
(** No pop from an empty stack. *)
Fixpoint cs_legal {T} (l : list T) (ops : list (cs_op T)) : Prop :=
  match ops with
  | [] => True
  | CPush x :: ops => cs_legal (firstn 4 (x :: l)) ops
  | CPop :: ops => l <> [] /\ cs_legal (tl l) ops
  end.

Theorem C38_circular_stack_refines_bounded_stack : forall T (d : T) ops,
  cs_legal [] ops ->
  let (s, popped) := cs_run d (cs_new d) ops in
  let (l, popped') := cs_list_run d [] ops in
  popped = popped' /\ cs_len s = zlen l /\ zlen l <= 4 /\
  forall k, 1 <= k <= zlen l -> cs_prev d s k = nth (Z.to_nat (k - 1)) l d.
Proof.
  intros T d ops HO.
  assert (G : forall ops s l, cs_rep d s l -> cs_legal l ops ->
    snd (cs_run d s ops) = snd (cs_list_run d l ops) /\
    cs_rep d (fst (cs_run d s ops)) (fst (cs_list_run d l ops))).
  { clear. induction ops as [|[x|] ops IH]; intros s l R HO; cbn [cs_run cs_list_run cs_legal] in *.
    - auto.
    - apply IH; auto. now apply cs_push_rep.
    - destruct HO as [HN HO]. destruct l as [|x l]; [contradiction|].
      destruct (cs_pop_rep d s x l R) as (s' & E & R'). rewrite E. cbn [tl hd] in *.
      destruct (IH s' l R' HO) as [I1 I2].
      destruct (cs_run d s' ops), (cs_list_run d l ops); cbn [fst snd] in *. subst. auto. }
  destruct (G ops (cs_new d) [] (cs_rep_new d) HO) as [G1 G2].
  destruct (cs_run d (cs_new d) ops) as [s popped], (cs_list_run d [] ops) as [l popped'].
  cbn [fst snd] in *. split; auto. split; [exact (cs_len_rep d s l G2)|].
  split; [apply G2|]. intros; now apply cs_prev_rep.
Qed.
Print Assumptions C38_circular_stack_refines_bounded_stack.
Example C38_not_vacuous :
  let ops := [CPush 1; CPush 2; CPush 3; CPush 4; CPush 5; CPop; CPush 6] in
  cs_legal [] ops /\ cs_list_run 0 [] ops = ([6; 4; 3; 2], [5]).
Proof. split; [repeat split; cbn; (lia || discriminate)|reflexivity]. Qed.

(** After pushes only, [prev k] is the k-th last value pushed. *)
Theorem C38_prev_is_kth_last : forall T (d : T) xs k,
  1 <= k <= Z.min 4 (zlen xs) ->
  cs_prev d (fold_left cs_push xs (cs_new d)) k = nth (Z.to_nat (k - 1)) (rev xs) d.
Proof. exact cs_prev_kth_last. Qed.
Print Assumptions C38_prev_is_kth_last.

(** [is_empty] reports fullness. *)
Theorem C38_is_empty_refuted : forall T (d : T) xs,
  cs_is_empty (fold_left cs_push xs (cs_new d)) = (4 <=? zlen xs).
Proof. exact cs_is_empty_full. Qed.
Print Assumptions C38_is_empty_refuted.
