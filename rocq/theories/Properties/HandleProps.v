(** * Property C93: pointers into a linked list, also after their entry is gone *)
From Coq Require Import ZArith List Bool Lia Permutation.
From Verif Require Import Model.Base Model.LinkedList Model.ListHandles Spec.Collections Proofs.BaseFacts Proofs.ListFacts Proofs.HandleFacts Properties.CollectionProps.
Import ListNotations.
Open Scope Z_scope.

Lemma front_in {T} (l : llist T) es free : ll_rep l es free -> es <> [] -> In (ll_front l) (ptrs es).
Proof. intros HR Ne. rewrite (lr_front _ _ _ HR). destruct es as [|e es]; [congruence|]. now left. Qed.
Lemma rear_in {T} (l : llist T) es free : ll_rep l es free -> es <> [] -> In (ll_rear l) (ptrs es).
Proof.
  intros HR Ne. rewrite (lr_rear _ _ _ HR). apply last_in. destruct es; [congruence|discriminate].
Qed.
Lemma do_clean {T} p (l : llist T) es free op l' a : ll_rep l es free -> clean l (ptrs es) -> zlen es < NULL -> seq_allowed es op ->
  list_do p l op = Ok (l', a) -> exists es' free', ll_rep l' es' free' /\ clean l' (ptrs es') /\ seq_step es op es' a /\ zlen es' <= zlen es + 1.
Proof.
  intros HR HC Hs HA HD.
  destruct (list_do_spec p l es free op HR Hs HA) as (l1 & a1 & es' & free' & E & ST & R' & Z1 & _).
  rewrite E in HD. injection HD as <- <-. exists es', free'. split; [exact R'|]. split; [|split; [exact ST|lia]].
  pose proof (lr_nodup _ _ _ HR) as ND. apply nodup_app_l in ND.
  assert (INS : forall i d x n', (es = [] \/ In i (ptrs es)) -> (l2 <- ll_insert_at p l i d x ;; Ok (l2, @None T)) = Ok (l1, a1) ->
    ~ In n' (map fst es) -> (forall j, In j (ptrs es') <-> j = n' \/ In j (ptrs es)) -> clean l1 (ptrs es')).
  { intros i d x n' Hi EQ Nn IFF. apply bind_ok in EQ. destruct EQ as (l2 & EQ & E2). injection E2 as -> _.
    exact (insert_clean p l es free i d x l1 es' free' n' HR Hs HC Hi EQ R' Nn IFF). }
  assert (EM : forall i, es = [] -> ll_remove_at p l i = Ok (l1, a1) -> es' = es -> clean l1 (ptrs es')).
  { intros i -> EQ ->. rewrite (remove_empty_spec p l free i HR) in EQ. injection EQ as <- _. exact HC. }
  destruct ST; cbn [list_do] in E.
  + apply (INS (ll_front l) DLeft x n); [|exact E|exact H|].
    * destruct v as [|e v]; [now left|right; apply (front_in l _ free HR); discriminate].
    * intros j. cbn [ptrs map fst In]. split; intros [X|X]; auto.
  + apply (INS (ll_rear l) DRight x n); [|exact E|exact H|].
    * destruct v as [|e v]; [now left|right; apply (rear_in l _ free HR); discriminate].
    * intros j. unfold ptrs. rewrite map_app, in_app_iff. cbn [map fst In]. intuition.
  + apply (remove_clean p l _ free (ll_front l) l1 (Some x) (ptrs v) HR HC); [apply (front_in l _ free HR); discriminate|exact E|].
    rewrite (lr_front _ _ _ HR). cbn [ptrs map fst hd] in *. inversion ND as [|? ? N1 N2]; subst.
    intros j. cbn [In]. split; [intros X; split; [auto|intros ->; contradiction]|intros [[X|X] Y]; [congruence|exact X]].
  + exact (EM _ eq_refl E eq_refl).
  + assert (F : ll_rear l = i).
    { rewrite (lr_rear _ _ _ HR). unfold ptrs. rewrite map_app. apply last_last. }
    apply (remove_clean p l _ free i l1 (Some x) (ptrs v) HR HC).
    * unfold ptrs. rewrite map_app. apply in_or_app. right. now left.
    * unfold ll_pop_rear in E. rewrite F in E. exact E.
    * unfold ptrs in *. rewrite map_app in *. cbn [map fst] in *. apply NoDup_remove_2 in ND. rewrite app_nil_r in ND.
      intros j. rewrite in_app_iff. cbn [In]. split; [intros X; split; [auto|intros ->; contradiction]|intros [[X|[X|[]]] Y]; [exact X|congruence]].
  + exact (EM _ eq_refl E eq_refl).
  + apply (INS i DLeft x n); [|exact E|exact H|].
    * right. exact HA.
    * intros j. unfold ptrs. rewrite !map_app, !in_app_iff. cbn [map fst In]. intuition.
  + apply (INS i DRight x n); [|exact E|exact H|].
    * right. exact HA.
    * intros j. unfold ptrs. rewrite !map_app, !in_app_iff. cbn [map fst In]. intuition.
  + apply (remove_clean p l _ free i l1 (Some y) (ptrs (a ++ b)) HR HC).
    * exact HA.
    * exact E.
    * unfold ptrs in *. rewrite !map_app in *. cbn [map fst] in *. apply NoDup_remove_2 in ND. rewrite in_app_iff in ND.
      intros j. rewrite !in_app_iff. cbn [In]. split; [intros X; split; [tauto|intros ->; contradiction]|intros [[X|[X|X]] Y]; [auto|congruence|auto]].
Qed.
Lemma used_clean {T} p n (l : llist T) : used p n l -> Z.of_nat n < 2 ^ 32 ->
  exists es free, ll_rep l es free /\ clean l (ptrs es) /\ zlen es <= Z.of_nat n.
Proof.
  induction 1 as [|n l v op l' a U IH HE HA HD]; intros Hn.
  - exists [], []. split; [apply new_rep|]. split; [|change (zlen (@nil (Z * T))) with 0; lia].
    intros j Hj. change (zlen (ll_memory (@ll_new T))) with 0 in Hj. lia.
  - destruct IH as (es & free & HR & HC & HZ); [lia|]. rewrite (rep_entries _ _ _ HR) in HE. injection HE as <-.
    assert (Hs : zlen es < NULL) by (unfold NULL; lia).
    destruct (do_clean p l es free op l' a HR HC Hs HA HD) as (es' & free' & R' & C' & _ & Z'). exists es', free'. split; [exact R'|]. split; [exact C'|lia].
Qed.

(** ** Reading and writing through a pointer *)
(** [get(h)] finds an item exactly if [h] is at present the pointer of an entry, and then that entry's item: the pointer
    of a removed entry finds nothing until a new entry takes its place.  No pointer makes it panic. *)
Theorem C93_get : forall (T : Type) p n (l : llist T) v h, used p n l -> Z.of_nat n < 2 ^ 32 - 1 ->
  entries l = Ok v -> 0 <= h -> forall x, ll_data l h = Some x <-> In (h, x) v.
Proof.
  intros T p n l v h U Hn HE Hh x. destruct (used_clean p n l U) as (es & free & HR & HC & HZ); [lia|].
  rewrite (rep_entries _ _ _ HR) in HE. injection HE as <-. split.
  - intros H. destruct (in_dec Z.eq_dec h (ptrs es)) as [I|N].
    + unfold ptrs in I. apply in_map_iff in I. destruct I as ([h' y] & E & I). cbn [fst] in E. subst h'.
      destruct (rep_entry _ _ _ h y HR I) as (nd & A & B). apply at_get in A. destruct A as [_ A].
      unfold ll_data in H. rewrite A, B in H. injection H as <-. exact I.
    + exfalso. unfold ll_data in H. destruct (Z.lt_ge_cases h (zlen (ll_memory l))) as [C|C].
      * destruct (HC h ltac:(lia) N) as [r G]. rewrite G in H. discriminate H.
      * rewrite get_oob in H by exact C. discriminate H.
  - intros I. destruct (rep_entry _ _ _ h x HR I) as (nd & A & B). apply at_get in A. destruct A as [_ A].
    unfold ll_data. now rewrite A.
Qed.
Print Assumptions C93_get.
(** Writing through [get_mut(h)] changes the item of the entry [h] points to and nothing else; through a pointer that
    points to no entry it changes no entry. *)
Theorem C93_set : forall (T : Type) p n (l : llist T) v h x, used p n l -> Z.of_nat n < 2 ^ 32 - 1 ->
  entries l = Ok v -> 0 <= h ->
  entries (ll_set_data l h x) = Ok (map (fun e => if fst e =? h then (h, x) else e) v).
Proof.
  intros T p n l v h x U Hn HE Hh. destruct (used_clean p n l U) as (es & free & HR & HC & HZ); [lia|].
  rewrite (rep_entries _ _ _ HR) in HE. injection HE as <-.
  assert (P : ptrs (map (fun e : Z * T => if fst e =? h then (h, x) else e) es) = ptrs es).
  { unfold ptrs. rewrite map_map. apply map_ext. intros [j y]. cbn [fst]. destruct (Z.eqb_spec j h); cbn [fst]; congruence. }
  apply rep_entries with (free := free). unfold ll_set_data.
  destruct (ll_get l h) as [nd|] eqn:G.
  - pose proof (get_at l h nd Hh G) as A. apply at_get in A. destruct A as [B _].
    destruct HR as [HL ND HA Hsm HF HRr (D & L & R & HS & HCy & HD & HCh)].
    assert (Gd : nd = mkNode (D h) (L h) (R h)) by (pose proof (HS h B) as X; unfold ll_get in G; congruence). subst nd. cbn [nd_left nd_right].
    constructor; cbn [set_memory ll_len ll_memory ll_front ll_rear ll_pool]; rewrite ?zlen_replace_nth, ?P; auto.
    + unfold zlen in *. rewrite map_length. exact HL.
    + exists (upd D h (Some x)), L, R. split; [|split; [exact HCy|split; [|exact HCh]]].
      * intros j Hj. rewrite zlen_replace_nth in Hj. destruct (Z.eq_dec j h) as [->|Nj].
        -- rewrite upd_same. apply nth_error_replace_same. unfold zlen in B. lia.
        -- rewrite upd_other by exact Nj. rewrite nth_error_replace_other by lia. now apply HS.
      * intros j y I. apply in_map_iff in I. destruct I as ([j' y'] & E & I). cbn [fst] in E. destruct (Z.eqb_spec j' h) as [->|Nj].
        -- injection E as <- <-. apply upd_same.
        -- injection E as <- <-. rewrite upd_other by exact Nj. now apply HD.
  - replace (map (fun e : Z * T => if fst e =? h then (h, x) else e) es) with es; [exact HR|].
    rewrite <- (map_id es) at 1. apply map_ext_in. intros [j y] I. cbn [fst]. destruct (Z.eqb_spec j h) as [->|]; [|reflexivity].
    exfalso. destruct (rep_entry _ _ _ h y HR I) as (nd & A & _). apply at_get in A. destruct A as [_ A]. congruence.
Qed.
Print Assumptions C93_set.

(** ** Stale pointers *)
(** Removing at a pointer that is not an entry's, from two or more entries, panics. *)
Theorem C93_remove_stale : forall (T : Type) p n (l : llist T) v h, used p n l -> Z.of_nat n < 2 ^ 32 - 1 ->
  entries l = Ok v -> 2 <= zlen v -> 0 <= h -> ~ In h (map fst v) -> ll_remove_at p l h = Panic IndexOutOfBounds.
Proof.
  intros T p n l v h U Hn HE H2 Hh N. destruct (used_clean p n l U) as (es & free & HR & HC & HZ); [lia|].
  rewrite (rep_entries _ _ _ HR) in HE. injection HE as <-. unfold ll_remove_at. rewrite (lr_len _ _ _ HR).
  destruct (Z.eqb_spec (zlen es) 0); [lia|]. destruct (Z.eqb_spec (zlen es) 1); [lia|].
  destruct (Z.lt_ge_cases h (zlen (ll_memory l))) as [C|C]; [|rewrite at_oob by exact C; reflexivity].
  destruct (HC h ltac:(lia) N) as [r G]. rewrite (get_at l h _ Hh G). cbn [bind nd_left nd_right].
  unfold set_right. rewrite at_oob by exact (lr_small _ _ _ HR). reflexivity.
Qed.
Print Assumptions C93_remove_stale.

Lemma walk_same {T} (l l' : llist T) : forall k i, (forall ps, ll_walk l k i = Ok ps -> (forall j, In j ps -> ll_at l' j = ll_at l j) -> ll_walk l' k i = Ok ps).
Proof.
  induction k as [|k IH]; intros i ps H S; [exact H|]. cbn [ll_walk] in *.
  apply bind_ok in H. destruct H as (nd & E & H). apply bind_ok in H. destruct H as (rest & E1 & H). injection H as <-.
  rewrite (S i) by now left. rewrite E. cbn [bind]. rewrite (IH _ _ E1); [reflexivity|]. intros j Hj. apply S. now right.
Qed.
Lemma walk_app {T} (l : llist T) : forall k c i ps, ll_walk l k i = Ok ps ->
  forall q, (forall nd, ll_at l (last ps i) = Ok nd -> nd_right nd = q) -> (k <> 0)%nat ->
  ll_walk l (k + c) i = (rest <- ll_walk l c q ;; Ok (ps ++ rest)).
Proof.
  induction k as [|k IH]; intros c i ps H q Hq Nk; [congruence|]. cbn [ll_walk Nat.add] in *.
  apply bind_ok in H. destruct H as (nd & E & H). apply bind_ok in H. destruct H as (rest & E1 & H). injection H as <-.
  rewrite E. cbn [bind]. destruct k as [|k].
  - cbn [ll_walk] in E1. injection E1 as <-. cbn [last] in Hq. rewrite (Hq _ E). cbn [Nat.add app]. destruct (ll_walk l c q); reflexivity.
  - rewrite (IH c _ rest E1 q); [|intros nd' E'; apply Hq|discriminate].
    + destruct (ll_walk l c q); reflexivity.
    + destruct rest as [|r0 rest].
      { cbn [ll_walk] in E1. apply bind_ok in E1. destruct E1 as (? & _ & E1). apply bind_ok in E1. destruct E1 as (? & _ & E1). discriminate E1. }
      change (last (i :: r0 :: rest) i) with (last (r0 :: rest) i). rewrite (last_indep (r0 :: rest) i (nd_right nd)) by discriminate. exact E'.
Qed.
Lemma rear_next {T} (l : llist T) es free nd : ll_rep l es free -> es <> [] -> ll_at l (ll_rear l) = Ok nd -> nd_right nd = ll_front l.
Proof.
  intros HR Ne A. pose proof (entry_small _ _ _ _ HR (rear_in l es free HR Ne)) as B.
  destruct HR as [HL ND HA Hsm HF HRr (D & L & R & HS & HCy & HD & HCh)].
  rewrite (at_spec l D L R _ HS B) in A. injection A as <-. cbn [nd_right].
  assert (Np : ptrs es <> []) by (destruct es; [congruence|discriminate]).
  destruct (exists_last Np) as (ps & z & E). rewrite HRr, HF, E in *. rewrite last_last.
  unfold cycle in HCy. rewrite <- app_assoc in HCy. cbn [app] in HCy. apply links_app in HCy. destruct HCy as [_ X]. cbn [links] in X.
  destruct X as (X & _). rewrite X. destruct ps; reflexivity.
Qed.
Lemma mapM_same {A B} (f g : A -> outcome B) s : (forall a, In a s -> f a = g a) -> mapM f s = mapM g s.
Proof. induction s as [|a s IH]; intros H; [reflexivity|]. cbn [mapM]. rewrite H by now left. rewrite IH; [reflexivity|]. intros; apply H; now right. Qed.
Lemma free_next {T} (l : llist T) es free j r : ll_rep l es free -> In j free -> ll_get l j = Some (mkNode None NULL r) -> r = NULL \/ In r free.
Proof.
  intros HR I G. pose proof (lr_all _ _ _ HR j) as B. rewrite in_app_iff in B. specialize (proj1 B (or_intror I)) as Bj.
  destruct HR as [HL ND HA Hsm HF HRr (D & L & R & HS & HCy & HD & HCh)].
  unfold ll_get in G. rewrite (HS j Bj) in G. injection G as _ _ <-. clear - HCh I. revert HCh. generalize (ll_pool l).
  induction free as [|f free IH]; intros pool H; [contradiction I|]. cbn [chain] in H. destruct H as [-> H].
  destruct I as [->|I].
  - destruct free as [|g free]; cbn [chain] in H; [now left|]. right. right. left. symmetry. apply H.
  - destruct (IH I _ H) as [E|E]; [now left|right; now right].
Qed.
(** Inserting at a pointer that is not an entry's into a list with entries panics if to the left.  To the right it either
    panics or silently loses the item and counts one entry too many, so that [iter] yields the first entry a second time. *)
Theorem C93_insert_stale : forall (T : Type) p n (l : llist T) v h d x, used p n l -> Z.of_nat n < 2 ^ 32 - 1 ->
  entries l = Ok v -> v <> [] -> 0 <= h -> h <> 2 ^ 32 - 1 -> ~ In h (map fst v) ->
  ll_insert_at p l h d x = Panic IndexOutOfBounds \/
  d = DRight /\ exists l', ll_insert_at p l h d x = Ok l' /\ ll_len l' = zlen v + 1 /\
    ll_iter l' = Ok (map snd v ++ firstn 1 (map snd v)).
Proof.
  intros T p n l v h d x U Hn HE Hv Hh HN N. destruct (used_clean p n l U) as (es & free & HR & HC & HZ); [lia|].
  rewrite (rep_entries _ _ _ HR) in HE. injection HE as <-. fold (ptrs es) in N.
  destruct (allocate_nodes l es free x HR ltac:(unfold NULL; lia)) as (l1 & m & EA & F1 & R1 & L1 & Z1 & N1 & NI & G1 & O1 & W1).
  unfold ll_insert_at. rewrite (lr_len _ _ _ HR). pose proof (zlen_nonneg es) as Zn.
  destruct (Z.eqb_spec (zlen es) 0) as [E0|E0].
  { destruct es; [congruence|]. rewrite zlen_cons in E0. pose proof (zlen_nonneg es). lia. }
  change NULL with (2 ^ 32 - 1). destruct (Z.eqb_spec h (2 ^ 32 - 1)) as [|_]; [congruence|].
  rewrite EA. cbn [bind].
  destruct (Z.lt_ge_cases h (zlen (ll_memory l1))) as [C|C]; [|left; rewrite at_oob by exact C; reflexivity].
  destruct (get_in l1 h ltac:(lia)) as [nd G]. rewrite (get_at l1 h nd Hh G). cbn [bind].
  destruct (child_ok d l1 h m ltac:(lia)) as [la Ea]. rewrite Ea. cbn [bind]. apply child_frame in Ea. destruct Ea as (_ & Sa & _ & (ma & Ea)).
  assert (Q : nd_left nd = NULL /\ (nd_right nd = NULL \/ ~ In (nd_right nd) (ptrs es) /\ 0 <= nd_right nd)).
  { destruct (Z.eq_dec h m) as [->|Nm].
    - rewrite G1 in G. injection G as <-. auto.
    - rewrite O1 in G by (auto; lia).
      assert (Bh : h < zlen (ll_memory l)) by (destruct (Z.lt_ge_cases h (zlen (ll_memory l))); [lia|exfalso; apply Nm, W1; lia]).
      destruct (HC h ltac:(lia) N) as [r Gr]. rewrite Gr in G. injection G as <-. cbn [nd_left nd_right]. split; [reflexivity|].
      assert (I : In h free) by (pose proof (proj2 (lr_all _ _ _ HR h) ltac:(lia)) as X; rewrite in_app_iff in X; tauto).
      destruct (free_next l es free h r HR I Gr) as [E|E]; [now left|]. right.
      pose proof (lr_nodup _ _ _ HR) as ND. split.
      + intros I2. apply in_split in I2. destruct I2 as (a & b & Ep). rewrite Ep in ND. rewrite <- app_assoc in ND. cbn [app] in ND.
        apply NoDup_remove_2 in ND. apply ND. rewrite !in_app_iff. auto.
      + assert (0 <= r < zlen (ll_memory l)) by (apply (lr_all _ _ _ HR), in_or_app; auto). lia. }
  destruct Q as [QL QR]. assert (Z2 : zlen (ll_memory la) = zlen (ll_memory l1)) by apply Sa.
  destruct d; cbn [get_child opposite].
  { left. rewrite QL, child_oob by lia. reflexivity. }
  destruct QR as [QR|[QR Q0]]; [left; rewrite QR, child_oob by lia; reflexivity|].
  destruct (Z.lt_ge_cases (nd_right nd) (zlen (ll_memory la))) as [C2|C2]; [|left; rewrite child_oob by lia; reflexivity].
  right. split; [reflexivity|].
  destruct (child_ok DLeft la (nd_right nd) m ltac:(lia)) as [lb Eb]. rewrite Eb. cbn [bind]. apply child_frame in Eb. destruct Eb as (_ & Sb & _ & (mb & Eb)).
  assert (Zb : zlen (ll_memory lb) = zlen (ll_memory la)) by apply Sb.
  destruct (child_ok DLeft lb m h ltac:(lia)) as [lc Ec]. rewrite Ec. cbn [bind]. apply child_frame in Ec. destruct Ec as (_ & Sc & _ & (mc & Ec)).
  assert (Zc : zlen (ll_memory lc) = zlen (ll_memory lb)) by apply Sc.
  destruct (child_ok DRight lc m (nd_right nd) ltac:(lia)) as [ld Ed]. rewrite Ed. cbn [bind]. apply child_frame in Ed. destruct Ed as (_ & Sd & _ & (md & Ed)).
  assert (Roots : ll_front ld = ll_front l /\ ll_rear ld = ll_rear l /\ ll_len ld = zlen es).
  { rewrite <- (lr_len _ _ _ HR), <- F1, <- R1, <- L1. rewrite Ed, Ec, Eb, Ea. repeat split. }
  destruct Roots as (Rf & Rr & Rl).
  destruct (Z.eqb_spec h (ll_rear ld)) as [Er|_].
  { exfalso. apply N. rewrite Er, Rr. exact (rear_in l es free HR Hv). }
  rewrite Rl. rewrite uchk_ok by (unfold NULL in *; lia). cbn [bind].
  set (l' := mkLL (ll_memory ld) (ll_front ld) (ll_rear ld) (ll_pool ld) (zlen es + 1)).
  exists l'. split; [reflexivity|]. split; [reflexivity|].
  assert (SA : forall j, In j (ptrs es) -> ll_at l' j = ll_at l j).
  { intros j Hj. pose proof (entry_small _ _ _ _ HR Hj) as Bj.
    destruct (get_in l j Bj) as [ndj Gj]. rewrite (get_at l j ndj) by (auto; lia). apply get_at; [lia|].
    change (ll_get l' j) with (ll_get ld j).
    pose proof (same_trans _ _ _ _ _ (same_trans _ _ _ _ _ (same_trans _ _ _ _ _ Sa Sb) Sc) Sd) as [_ S].
    rewrite S, O1; [exact Gj|lia|intros ->; contradiction|lia|]. cbn [app In]. intros [X|[X|[X|[X|[]]]]]; subst; contradiction. }
  pose proof (rep_walk _ _ _ HR) as W. rewrite (lr_len _ _ _ HR) in W.
  pose proof (walk_same l l' _ _ _ W SA) as W'.
  pose proof (front_in l es free HR Hv) as FI. pose proof (rear_in l es free HR Hv) as RI.
  assert (W2 : ll_walk l' (Z.to_nat (zlen es + 1)) (ll_front l) = Ok (ptrs es ++ [ll_front l])).
  { replace (Z.to_nat (zlen es + 1)) with (Z.to_nat (zlen es) + 1)%nat by lia.
    rewrite (walk_app l' _ 1 _ _ W' (ll_front l)); [|intros nd' A|lia].
    - cbn [ll_walk]. rewrite SA by exact FI. pose proof (entry_small _ _ _ _ HR FI) as Bf.
      destruct (get_in l _ Bf) as [ndf Gf]. rewrite (get_at l _ ndf) by (auto; lia). reflexivity.
    - apply (rear_next l es free nd' HR Hv). rewrite (lr_rear _ _ _ HR). 
      rewrite <- (last_indep (ptrs es) (ll_front l) NULL) by (destruct es; [congruence|discriminate]).
      rewrite <- SA; [exact A|]. apply last_in. destruct es; [congruence|discriminate]. }
  unfold ll_iter. change (ll_len l') with (zlen es + 1). change (ll_front l') with (ll_front ld). rewrite Rf, W2. cbn [bind].
  rewrite (mapM_same _ (fun i => n <- ll_at l i ;; expect (nd_data n))).
  2:{ intros j Hj. rewrite SA; [reflexivity|]. apply in_app_or in Hj. destruct Hj as [Hj|[<-|[]]]; assumption. }
  pose proof (rep_iter _ _ _ HR) as IT. unfold ll_iter in IT. rewrite (rep_walk _ _ _ HR) in IT. cbn [bind] in IT.
  assert (MA : forall (f : Z -> outcome T) s t u w, mapM f s = Ok u -> mapM f t = Ok w -> mapM f (s ++ t) = Ok (u ++ w)).
  { intros f s. induction s as [|a s IH]; intros t u w H1 H2; cbn [app mapM] in *; [injection H1 as <-; exact H2|].
    apply bind_ok in H1. destruct H1 as (b & E1 & H1). apply bind_ok in H1. destruct H1 as (bs & E2 & H1). injection H1 as <-.
    rewrite E1. cbn [bind]. rewrite (IH t bs w E2 H2). reflexivity. }
  apply MA; [exact IT|]. destruct es as [|[f y] es]; [congruence|].
  rewrite (lr_front _ _ _ HR). cbn [ptrs map fst hd snd firstn mapM].
  destruct (rep_entry _ _ _ f y HR (or_introl eq_refl)) as (ndf & A & B). rewrite A. cbn [bind]. rewrite B. reflexivity.
Qed.
Print Assumptions C93_insert_stale.

(** ** The public [allocate] and [free] *)
(** [allocate] makes a node outside the list: no entry changes, and the item is found through the pointer. *)
Theorem C93_allocate : forall (T : Type) p n (l : llist T) v x, used p n l -> Z.of_nat n < 2 ^ 32 - 1 -> entries l = Ok v ->
  exists l' h, ll_allocate l x = Ok (l', h) /\ ~ In h (map fst v) /\ ll_data l' h = Some x /\ entries l' = Ok v /\ ll_len l' = ll_len l.
Proof.
  intros T p n l v x U Hn HE. destruct (used_clean p n l U) as (es & free & HR & HC & HZ); [lia|].
  rewrite (rep_entries _ _ _ HR) in HE. injection HE as <-.
  destruct (allocate_nodes l es free x HR ltac:(unfold NULL; lia)) as (l1 & m & EA & F1 & R1 & L1 & Z1 & N1 & NI & G1 & O1 & W1).
  exists l1, m. split; [exact EA|]. split; [exact NI|]. split; [unfold ll_data; now rewrite G1|]. split; [|exact L1].
  assert (SA : forall j, In j (ptrs es) -> ll_at l1 j = ll_at l j).
  { intros j Hj. pose proof (entry_small _ _ _ _ HR Hj) as Bj. destruct (get_in l j Bj) as [ndj Gj].
    rewrite (get_at l j ndj) by (auto; lia). apply get_at; [lia|]. rewrite O1; [exact Gj|lia|intros ->; contradiction]. }
  pose proof (rep_walk _ _ _ HR) as W. pose proof (rep_entries _ _ _ HR) as E. unfold entries in *. rewrite W in E. cbn [bind] in E.
  rewrite L1, F1, (walk_same l l1 _ _ _ W SA). cbn [bind]. rewrite <- E. apply mapM_same. intros j Hj. now rewrite SA.
Qed.
Print Assumptions C93_allocate.

Lemma walk_outcome {T} (l : llist T) : forall k i, (exists ps, ll_walk l k i = Ok ps) \/ exists r, ll_walk l k i = Panic r.
Proof.
  induction k as [|k IH]; intros i; [left; eexists; reflexivity|]. cbn [ll_walk].
  unfold ll_at, index. destruct ((0 <=? i) && (i <? zlen (ll_memory l))); [|right; eexists; reflexivity].
  destruct (nth_error (ll_memory l) (Z.to_nat i)) as [nd|]; [|right; eexists; reflexivity]. cbn [bind].
  destruct (IH (nd_right nd)) as [[ps E]|[r E]]; rewrite E; cbn [bind]; eauto.
Qed.
(** [free] on the pointer of an entry hands out its item but leaves it in the list: every [iter] after it panics. *)
Theorem C93_free_entry : forall (T : Type) p n (l : llist T) v h x, used p n l -> Z.of_nat n < 2 ^ 32 - 1 ->
  entries l = Ok v -> In (h, x) v ->
  exists l', ll_free l h = Ok (l', Some x) /\ ll_len l' = ll_len l /\ exists r, ll_iter l' = Panic r.
Proof.
  intros T p n l v h x U Hn HE I. destruct (used_clean p n l U) as (es & free & HR & HC & HZ); [lia|].
  rewrite (rep_entries _ _ _ HR) in HE. injection HE as <-.
  assert (Ih : In h (ptrs es)) by (apply (in_map fst) in I; exact I).
  pose proof (entry_small _ _ _ _ HR Ih) as B.
  assert (HM := lr_mem _ _ _ HR). destruct HM as (D & L & R & HS & HCy & HD & HCh).
  destruct (free_spec l D L R h HS B) as (m & E & Zm & Sm). rewrite (HD h x I) in E.
  eexists. split; [exact E|]. split; [reflexivity|]. set (l' := mkLL m _ _ _ _) in *.
  apply free_frame in E. destruct E as (_ & [_ SS] & G & _). cbn [ll_front ll_rear ll_len l'] in *.
  assert (SA : forall j, 0 <= j -> j <> h -> ll_get l' j = ll_get l j) by (intros j H1 H2; apply SS; [exact H1|intros [X|[]]; congruence]).
  destruct (in_ptrs_split es h Ih) as (a & y & b & Ees).
  assert (Na : ~ In h (ptrs a)).
  { pose proof (nodup_app_l _ _ (lr_nodup _ _ _ HR)) as ND. unfold ptrs in ND. rewrite Ees, map_app in ND. cbn [map fst] in ND.
    apply NoDup_remove_2 in ND. rewrite in_app_iff in ND. tauto. }
  (* the walk reaches [h] *)
  assert (K : forall (s : list (Z * T)) q c, ll_walk l (length s + c) q = Ok (ptrs s ++ h :: ptrs b) -> ~ In h (ptrs s) ->
    (exists r, ll_walk l' (length s + c) q = Panic r) \/ exists rest, ll_walk l' (length s + c) q = Ok (ptrs s ++ h :: rest)).
  { induction s as [|[i z] s IH]; intros q c W Ns.
    - cbn [length Nat.add ptrs map app] in *. destruct c as [|c]; [discriminate W|]. cbn [ll_walk] in *.
      apply bind_ok in W. destruct W as (nd & E1 & W). apply bind_ok in W. destruct W as (rest & E2 & W). injection W as -> _.
      rewrite (get_at l' h _ ltac:(lia) G). cbn [bind nd_right].
      destruct (walk_outcome l' c (ll_pool l)) as [[ps E]|[r E]]; rewrite E; cbn [bind]; eauto.
    - cbn [length Nat.add ptrs map fst app ll_walk] in *.
      apply bind_ok in W. destruct W as (nd & E1 & W). apply bind_ok in W. destruct W as (rest & E2 & W). injection W as -> ->.
      apply at_get in E1. destruct E1 as [Bi E1]. cbn [In] in Ns.
      rewrite (get_at l' i nd) by (lia || (rewrite SA by (lia || auto); exact E1)). cbn [bind].
      destruct (IH _ _ E2 ltac:(tauto)) as [[r E]|[rest E]]; rewrite E; cbn [bind]; eauto. }
  pose proof (rep_walk _ _ _ HR) as W. rewrite Ees in W at 1. unfold ptrs in W. rewrite map_app in W. cbn [map fst] in W. fold (ptrs a) (ptrs b) in W.
  assert (EL : Z.to_nat (ll_len l) = (length a + S (length b))%nat).
  { rewrite (lr_len _ _ _ HR), Ees. unfold zlen. rewrite app_length. cbn [length]. lia. }
  rewrite EL in W. unfold ll_iter. change (ll_len l') with (ll_len l). change (ll_front l') with (ll_front l). rewrite EL.
  destruct (K a (ll_front l) (S (length b)) W Na) as [[r E]|[rest E]]; rewrite E; cbn [bind]; [eauto|].
  exists ExpectFailed.
  assert (MF : forall (s : list (Z * T)), incl s a -> mapM (fun i => n <- ll_at l' i ;; expect (nd_data n)) (ptrs s ++ h :: rest) = Panic ExpectFailed).
  { induction s as [|[i z] s IH]; intros Hi.
    - cbn [ptrs map app mapM]. rewrite (get_at l' h _ ltac:(lia) G). reflexivity.
    - cbn [ptrs map fst app mapM]. assert (Ia : In (i, z) es) by (rewrite Ees; apply in_or_app; left; apply Hi; now left).
      destruct (rep_entry _ _ _ i z HR Ia) as (nd & A & Dz). apply at_get in A. destruct A as [Bi A].
      assert (i <> h) by (intros ->; apply Na; unfold ptrs; change h with (fst (h, z)); apply in_map, Hi; now left).
      rewrite (get_at l' i nd) by (lia || (rewrite SA by (lia || auto); exact A)). cbn [bind]. rewrite Dz. cbn [expect bind].
      fold (ptrs s). rewrite IH; [reflexivity|]. intros e He. apply Hi. now right. }
  apply MF, incl_refl.
Qed.
Print Assumptions C93_free_entry.

(** ** Concrete lists *)
Fixpoint play (l : llist Z) (ops : list (seq_op Z)) : option (llist Z) :=
  match ops with
  | [] => Some l
  | op :: ops => match entries l, list_do Debug l op with
                 | Ok v, Ok (l', _) =>
                     if match op with AddBefore i _ | AddAfter i _ | TakeAt i => existsb (Z.eqb i) (map fst v) | _ => true end
                     then play l' ops else None
                 | _, _ => None end
  end.
Lemma play_used ops : forall n l l', used Debug n l -> play l ops = Some l' -> used Debug (length ops + n) l'.
Proof.
  induction ops as [|op ops IH]; intros n l l' U H; cbn [play] in H; [injection H as <-; exact U|].
  destruct (entries l) as [v| |] eqn:E; try discriminate H. destruct (list_do Debug l op) as [[l1 a]| |] eqn:E1; try discriminate H.
  destruct (match op with AddBefore i _ | AddAfter i _ | TakeAt i => existsb (Z.eqb i) (map fst v) | _ => true end) eqn:EA; [|discriminate H].
  assert (HA : seq_allowed v op).
  { destruct op; cbn [seq_allowed]; auto; apply existsb_exists in EA; destruct EA as (j & J & EJ); apply Z.eqb_eq in EJ; now subst. }
  pose proof (IH (S n) l1 l' (UsedOp _ _ _ _ _ _ _ U E HA E1) H) as X. cbn [length Nat.add]. now rewrite <- Nat.add_succ_r.
Qed.
Definition four_then_one : list (seq_op Z) := [AddRear 10; AddRear 20; AddRear 30; AddRear 40; TakeAt 3; TakeAt 2; TakeAt 1].
(** Three of four entries are removed.  Their pointers find nothing, and inserting to the right of the middle one loses
    the item 99 without a panic: the list then shows 10 twice. *)
Theorem C93_lost_item_refuted : exists (l l' : llist Z), used Debug 7 l /\ entries l = Ok [(0, 10)] /\
  ll_data l 2 = None /\ ll_insert_at Debug l 2 DRight 99 = Ok l' /\ ll_iter l' = Ok [10; 10].
Proof.
  destruct (play ll_new four_then_one) as [l|] eqn:E; [|vm_compute in E; discriminate E].
  exists l. assert (U : used Debug 7 l) by exact (play_used four_then_one 0 ll_new l (UsedNew _) E).
  vm_compute in E. injection E as <-. eexists. split; [exact U|]. vm_compute. repeat split.
Qed.
Print Assumptions C93_lost_item_refuted.
(** Freeing a removed node once more makes two later entries share it: after 7 and 8 are added the list shows 8 four times
    and has lost 7, 10 and 30. *)
Theorem C93_double_free_refuted : exists (l l1 l2 l3 : llist Z), used Debug 4 l /\ entries l = Ok [(0, 10); (2, 30)] /\
  ll_free l 1 = Ok (l1, None) /\ ll_push_front Debug l1 7 = Ok l2 /\ ll_iter l2 = Ok [7; 10; 30] /\
  ll_push_rear Debug l2 8 = Ok l3 /\ ll_iter l3 = Ok [8; 8; 8; 8].
Proof.
  destruct (play ll_new [AddRear 10; AddRear 20; AddRear 30; TakeAt 1]) as [l|] eqn:E; [|vm_compute in E; discriminate E].
  exists l. assert (U : used Debug 4 l) by exact (play_used _ 0 ll_new l (UsedNew _) E).
  vm_compute in E. injection E as <-. eexists _, _, _. split; [exact U|]. split; [vm_compute; reflexivity|].
  split; [vm_compute; reflexivity|]. split; [vm_compute; reflexivity|]. split; [vm_compute; reflexivity|].
  split; vm_compute; reflexivity.
Qed.
Print Assumptions C93_double_free_refuted.
(** The hypotheses of the theorems are met by a list of three entries whose middle one was removed: pointer 1 is stale. *)
Example C93_applies : exists (l : llist Z), used Debug 4 l /\ entries l = Ok [(0, 10); (2, 30)] /\ ~ In 1 (map fst [(0, 10); (2, 30)]) /\
  ll_data l 1 = None /\ ll_data l 2 = Some 30 /\ ll_remove_at Debug l 1 = Panic IndexOutOfBounds /\
  ll_insert_at Debug l 1 DLeft 5 = Panic IndexOutOfBounds.
Proof.
  destruct (play ll_new [AddRear 10; AddRear 20; AddRear 30; TakeAt 1]) as [l|] eqn:E; [|vm_compute in E; discriminate E].
  exists l. assert (U : used Debug 4 l) by exact (play_used _ 0 ll_new l (UsedNew _) E).
  vm_compute in E. injection E as <-. split; [exact U|]. vm_compute. repeat split. intuition congruence.
Qed.
