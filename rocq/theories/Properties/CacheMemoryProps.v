(** * Property C98: lists and caches hold on to nothing that was removed *)
From Coq Require Import ZArith List Bool Lia Permutation.
From Verif Require Import Model.Base Model.LinkedList Model.LruCache Model.ListHandles Model.Layout Model.Bincode Model.CollectionsBincode Spec.Collections Proofs.BaseFacts Proofs.ListFacts Proofs.LruFacts Proofs.HandleFacts Proofs.FileFacts Properties.CollectionProps Properties.MemoryProps Properties.HandleProps Properties.CollectionFileProps.
Import ListNotations.
Open Scope Z_scope.

(** Every item anywhere in the memory of a list, whether or not it belongs to an entry. *)
Definition stored {T} (l : llist T) : list T :=
  flat_map (fun nd => match nd_data nd with Some x => [x] | None => [] end) (ll_memory l).

(** ** Lemmas *)
Lemma flat_map_range {A B} (g : A -> list B) (m : list A) :
  flat_map g m = flat_map (fun i => match nth_error m (Z.to_nat i) with Some x => g x | None => [] end) (range (zlen m)).
Proof.
  unfold range, zlen. rewrite Nat2Z.id. rewrite flat_map_concat_map, (flat_map_concat_map _ (map Z.of_nat _)). f_equal. rewrite map_map.
  assert (G : forall m a, map g m = map (fun x => match nth_error (a ++ m) (Z.to_nat (Z.of_nat x)) with Some y => g y | None => [] end) (seq (length a) (length m))).
  { clear m. induction m as [|x m IH]; intros a; [reflexivity|]. cbn [map length seq]. f_equal.
    - rewrite Nat2Z.id, nth_error_app2, Nat.sub_diag by lia. reflexivity.
    - rewrite (IH (a ++ [x])). rewrite app_length, <- app_assoc. cbn [length app]. now rewrite Nat.add_1_r. }
  exact (G m []).
Qed.
Lemma rep_pointers {T} (l : llist T) es free : ll_rep l es free -> Permutation (range (zlen (ll_memory l))) (ptrs es ++ free).
Proof.
  intros [_ ND HA _ _ _ _]. symmetry. apply NoDup_Permutation; auto.
  - unfold range. apply FinFun.Injective_map_NoDup; [intros a b; lia|apply seq_NoDup].
  - intros i. rewrite HA, in_range. reflexivity.
Qed.
Lemma stored_entries {T} (l : llist T) es free : ll_rep l es free -> clean l (ptrs es) -> Permutation (stored l) (map snd es).
Proof.
  intros HR HC. unfold stored. rewrite flat_map_range. rewrite (Permutation_flat_map _ (rep_pointers _ _ _ HR)). rewrite flat_map_app.
  assert (F : forall s, incl s free -> flat_map (fun i => match nth_error (ll_memory l) (Z.to_nat i) with Some nd => match nd_data nd with Some x => [x] | None => [] end | None => [] end) s = []).
  { induction s as [|i s IH]; intros I; [reflexivity|]. cbn [flat_map]. rewrite IH by (intros j Hj; apply I; now right).
    assert (Hi : In i free) by (apply I; now left).
    assert (B : 0 <= i < zlen (ll_memory l)) by (apply (lr_all _ _ _ HR), in_or_app; auto).
    destruct (HC i B) as [r G].
    { intros X. pose proof (lr_nodup _ _ _ HR) as ND. apply in_split in X. destruct X as (u & w & X). rewrite X, <- app_assoc in ND.
      cbn [app] in ND. apply NoDup_remove_2 in ND. apply ND. rewrite app_assoc. apply in_or_app. now right. }
    unfold ll_get in G. rewrite G. reflexivity. }
  rewrite (F free (incl_refl _)), app_nil_r. clear F.
  assert (F : forall s, incl s es -> flat_map (fun i => match nth_error (ll_memory l) (Z.to_nat i) with Some nd => match nd_data nd with Some x => [x] | None => [] end | None => [] end) (ptrs s) = map snd s).
  { induction s as [|[i x] s IH]; intros I; [reflexivity|]. cbn [ptrs map fst snd flat_map]. fold (ptrs s). rewrite IH by (intros j Hj; apply I; now right).
    destruct (rep_entry _ _ _ i x HR (I _ (or_introl eq_refl))) as (nd & A & D). apply at_get in A. destruct A as [_ A]. unfold ll_get in A. rewrite A, D. reflexivity. }
  rewrite (F es (incl_refl _)). reflexivity.
Qed.
Lemma put_clean {T} (l : llist T) i nd l' s : clean l s -> In i s -> ll_put l i nd = Ok l' -> clean l' s.
Proof.
  intros HC Hi E. destruct (put_frame _ _ _ _ E) as (_ & [SZ SS] & _ & _). intros j Hj N.
  rewrite SS; [apply HC; [lia|exact N]|lia|]. intros [->|[]]. contradiction.
Qed.
Lemma handled_clean {T} p n (l : llist T) : handled p n l -> Z.of_nat n < 2 ^ 32 ->
  exists es free, ll_rep l es free /\ clean l (ptrs es) /\ zlen es <= Z.of_nat n.
Proof.
  induction 1 as [|n l v op l' a U IH HE HA HD|n l f l' U IH HM]; intros Hn.
  - exists [], []. split; [apply new_rep|]. split; [|change (zlen (@nil (Z * T))) with 0; lia].
    intros j Hj. change (zlen (ll_memory (@ll_new T))) with 0 in Hj. lia.
  - destruct IH as (es & free & HR & HC & HZ); [lia|]. rewrite (rep_entries _ _ _ HR) in HE. injection HE as <-.
    assert (Hs : zlen es < NULL) by (unfold NULL; lia).
    destruct (do_clean p l es free op l' a HR HC Hs HA HD) as (es' & free' & R' & C' & _ & Z'). exists es', free'. split; [exact R'|]. split; [exact C'|lia].
  - destruct IH as (es & free & HR & HC & HZ); [lia|]. destruct (iter_mut_rep f l es free HR) as (l1 & E & R' & _).
    assert (E1 : l1 = l') by congruence. subst l1. eexists _, _. split; [exact R'|]. split; [|unfold zlen in *; rewrite map_length; lia].
    assert (Ep : ptrs (map (replaced f) es) = ptrs es) by (unfold ptrs; rewrite map_map; reflexivity). rewrite Ep.
    unfold ll_iter_mut in HM. rewrite (rep_walk _ _ _ HR) in HM. cbn [bind] in HM.
    assert (G : forall s l0, incl s (ptrs es) -> clean l0 (ptrs es) ->
      foldM (fun l i => nd <- ll_at l i ;; x <- expect (nd_data nd) ;; ll_put l i (mkNode (Some (f x)) (nd_left nd) (nd_right nd))) s l0 = Ok l' -> clean l' (ptrs es)).
    { induction s as [|i s IHs]; intros l0 I C F; cbn [foldM] in F; [injection F as <-; exact C|].
      inv_bind F. apply (IHs a); [intros j Hj; apply I; now right| |exact F]. inv_bind Ha. inv_bind Ha.
      eapply put_clean; [exact C| |exact Ha]. apply I. now left. }
    exact (G _ l (incl_refl _) HC HM).
Qed.
Lemma remove_kept {T} p (l : llist T) a n y b free l' x : ll_rep l (a ++ (n, y) :: b) free -> clean l (ptrs (a ++ (n, y) :: b)) ->
  ll_remove_at p l n = Ok (l', x) -> ll_rep l' (a ++ b) (n :: free) /\ clean l' (ptrs (a ++ b)) /\ x = Some y.
Proof.
  intros HR HC E. destruct (remove_spec p l a n y b free HR) as (l1 & E1 & R1 & _). rewrite E1 in E. injection E as <- <-.
  split; [exact R1|]. split; [|reflexivity]. pose proof (lr_nodup _ _ _ HR) as ND. apply nodup_app_l in ND.
  apply (remove_clean p l _ free n l1 (Some y) (ptrs (a ++ b)) HR HC); [|exact E1|].
  - unfold ptrs. rewrite map_app. apply in_or_app. right. now left.
  - unfold ptrs in *. rewrite !map_app in *. cbn [map fst] in *. apply NoDup_remove_2 in ND. rewrite in_app_iff in ND.
    intros j. rewrite !in_app_iff. cbn [In]. split; [intros X; split; [tauto|intros ->; contradiction]|intros [[X|[X|X]] Y]; [auto|congruence|auto]].
Qed.
Lemma push_kept {T} p (l : llist T) es free x l' : ll_rep l es free -> clean l (ptrs es) -> zlen es < NULL -> ll_push_front p l x = Ok l' ->
  exists n free', ll_rep l' ((n, x) :: es) free' /\ clean l' (ptrs ((n, x) :: es)).
Proof.
  intros HR HC Hs E. destruct (push_front_spec p l es free x HR Hs) as (l1 & n & free' & E1 & N & R1 & _). rewrite E1 in E. injection E as <-.
  exists n, free'. split; [exact R1|]. apply (insert_clean p l es free (ll_front l) DLeft x l1 _ free' n HR Hs HC); [|exact E1|exact R1|exact N|].
  - destruct es as [|e es]; [now left|right; apply (front_in l _ free HR); discriminate].
  - intros j. cbn [ptrs map fst In]. split; intros [X|X]; auto.
Qed.

Section Cache.
Context {K V : Type} (eqb : K -> K -> bool) (eqb_ok : forall a b, eqb a b = true <-> a = b).
Implicit Types c : lru K V.
Definition tidy_list (l : llist (K * V)) : Prop := exists es free, ll_rep l es free /\ clean l (ptrs es).
Lemma raise_kept p n (l : llist (K * V)) val l' n' es free : ll_rep l es free -> clean l (ptrs es) -> In n (ptrs es) -> raise_key p n l val = Ok (l', n') ->
  tidy_list l' /\ ll_front l' = n' /\ exists x, In (n', x) (match entries l' with Ok v => v | _ => [] end).
Proof.
  intros HR HC I E. destruct (in_ptrs_split es n I) as (a & y & b & ->). unfold raise_key in E. inv_bind E. destruct a0 as [l1 x].
  destruct (remove_kept _ _ _ _ _ _ _ _ _ HR HC Ha) as (R1 & C1 & ->). inv_bind E. destruct a0 as [k old]. inv_bind E. injection E as <- <-.
  pose proof (rep_size _ _ _ HR) as SZ. pose proof (lr_small _ _ _ HR) as SM. pose proof (zlen_nonneg free). rewrite zlen_app, zlen_cons in SZ.
  destruct (push_kept _ _ _ _ _ _ R1 C1 ltac:(rewrite zlen_app; lia) Ha1) as (n1 & free' & R2 & C2).
  split; [eexists _, _; split; [exact R2|exact C2]|]. split; [reflexivity|]. rewrite (rep_entries _ _ _ R2), (lr_front _ _ _ R2). cbn [ptrs map fst hd].
  eexists. now left.
Qed.
Definition kept cap c : Prop := tidy eqb cap c /\ tidy_list (lru_list c).
Lemma kept_list p cap c op c' a : kept cap c -> lru_do eqb p c op = Ok (c', a) -> tidy_list (lru_list c').
Proof.
  intros [(es & R & _) (es1 & free & HR & HC)] E.
  assert (es1 = es). { destruct (lu_list _ _ _ _ R) as [f1 HR1]. pose proof (rep_entries _ _ _ HR1). pose proof (rep_entries _ _ _ HR). congruence. }
  subst es1. assert (Same : tidy_list (lru_list c)) by (exists es, free; auto).
  assert (P : forall k n, fm_get eqb (lru_table c) k = Some n -> In n (ptrs es)).
  { intros k n G. apply (lu_table _ _ _ _ R) in G. destruct G as [v G]. unfold ptrs. change n with (fst (n, (k, v))). now apply in_map. }
  pose proof (lu_bound _ _ _ _ R) as CB. pose proof (lru_size _ _ _ _ R) as SZ.
  destruct op; cbn [lru_do] in E.
  - inv_bind E. injection E as <- <-. unfold lru_put in Ha. destruct (fm_get eqb (lru_table c) k) as [n|] eqn:G.
    + inv_bind Ha. destruct a as [l n']. injection Ha as <-. exact (proj1 (raise_kept _ _ _ _ _ _ _ _ HR HC (P _ _ G) Ha0)).
    + inv_bind Ha. destruct a as [t l]. inv_bind Ha. injection Ha as <-. cbn [lru_list]. unfold lru_len in Ha0.
      rewrite (lu_cap _ _ _ _ R), (lr_len _ _ _ HR) in Ha0. destruct (Z.leb_spec cap (zlen es)) as [Full|Room].
      * inv_bind Ha0. inv_bind Ha0. destruct a1 as [k1 v1]. inv_bind Ha0. destruct a1 as [l1 x1]. injection Ha0 as <- <-.
        destruct es as [|[m y] es _] using rev_ind; [change (zlen (@nil (Z * (K * V)))) with 0 in Full; lia|].
        unfold ll_pop_rear in Ha3. rewrite (lr_rear _ _ _ HR) in Ha3. unfold ptrs in Ha3. rewrite map_app in Ha3. cbn [map fst] in Ha3. rewrite last_last in Ha3.
        destruct (remove_kept _ _ _ _ _ _ _ _ _ HR HC Ha3) as (R1 & C1 & _). rewrite app_nil_r in *. rewrite zlen_app in SZ. change (zlen [(m, y)]) with 1 in SZ.
        destruct (push_kept _ _ _ _ _ _ R1 C1 ltac:(unfold NULL; lia) Ha1) as (n1 & free' & R2 & C2). eexists _, _. split; [exact R2|exact C2].
      * injection Ha0 as <- <-. destruct (push_kept _ _ _ _ _ _ HR HC ltac:(unfold NULL; lia) Ha1) as (n1 & free' & R2 & C2). eexists _, _. split; [exact R2|exact C2].
  - inv_bind E. destruct a0 as [c1 v1]. injection E as <- <-. unfold lru_get in Ha. destruct (fm_get eqb (lru_table c) k) as [n|] eqn:G; [|injection Ha as <- <-; auto].
    inv_bind Ha. destruct a as [l n']. inv_bind Ha. injection Ha as <- <-. exact (proj1 (raise_kept _ _ _ _ _ _ _ _ HR HC (P _ _ G) Ha0)).
  - inv_bind E. injection E as <- <-. unfold lru_get_mut_set in Ha. destruct (fm_get eqb (lru_table c) k) as [n|] eqn:G; [|injection Ha as <-; auto].
    inv_bind Ha. destruct a as [l n']. inv_bind Ha. inv_bind Ha. injection Ha as <-. cbn [lru_list].
    destruct (raise_kept _ _ _ _ _ _ _ _ HR HC (P _ _ G) Ha0) as ((es2 & f2 & R2 & C2) & F & x & I). rewrite (rep_entries _ _ _ R2) in I. rewrite F in *.
    destruct (in_split _ _ I) as (u & w & ->). destruct (rep_entry _ _ _ n' x R2 I) as (nd & E1 & D). assert (nd = a) by congruence. subst nd. rewrite D in Ha2. destruct x as [k0 v0].
    destruct (rep_write l u n' (k0, v0) w f2 (k0, v) R2) as (nd2 & l2 & E2 & P2 & R3 & _). assert (nd2 = a) by congruence. subst nd2.
    assert (l2 = a1) by congruence. subst l2. exists (u ++ (n', (k0, v)) :: w), f2. split; [exact R3|].
    assert (Ep : ptrs (u ++ (n', (k0, v)) :: w) = ptrs (u ++ (n', (k0, v0)) :: w)) by (unfold ptrs; now rewrite !map_app). rewrite Ep.
    eapply put_clean; [exact C2| |exact P2]. unfold ptrs. rewrite map_app. apply in_or_app. right. now left.
  - inv_bind E. injection E as <- <-. auto.
  - inv_bind E. destruct a0 as [c1 v1]. injection E as <- <-. unfold lru_remove in Ha. destruct (fm_get eqb (lru_table c) k) as [n|] eqn:G; [|injection Ha as <- <-; auto].
    inv_bind Ha. destruct a as [l x]. destruct (in_ptrs_split es n (P _ _ G)) as (u & y & w & ->).
    destruct (remove_kept _ _ _ _ _ _ _ _ _ HR HC Ha0) as (R1 & C1 & ->). destruct y as [k' v']. injection Ha as <- <-. eexists _, _. split; [exact R1|exact C1].
  - injection E as <- <-. auto.
Qed.
Lemma kept_new cap : 1 <= cap < 2 ^ 32 -> kept cap (lru_new cap).
Proof.
  intros Hc. split; [now apply tidy_new|]. exists [], []. split; [apply new_rep|]. intros j Hj. cbn [lru_list lru_new ll_new ll_memory] in Hj.
  change (zlen (@nil (node (K * V)))) with 0 in Hj. lia.
Qed.
Lemma kept_do p cap c op c' a : kept cap c -> lru_do eqb p c op = Ok (c', a) -> kept cap c'.
Proof. intros Hk E. split; [eapply tidy_do; [exact eqb_ok|apply Hk|exact E]|eapply kept_list; eauto]. Qed.
Lemma cached_kept pk pv gk gv p cap c : serialisable pk gk -> serialisable pv gv -> 1 <= cap < 2 ^ 32 -> cached eqb pk pv gk gv p cap c -> kept cap c.
Proof.
  intros Sk Sv Hc HC. induction HC as [|c op c' a HC IH E|c order c' rest HC IH P E]; [now apply kept_new|eapply kept_do; eauto|].
  destruct IH as [T L]. rewrite (inv_read _ _ _ (tidy_text eqb eqb_ok pk pv gk gv cap c order Sk Sv T P)) in E. injection E as <-.
  destruct (tidy_loaded eqb eqb_ok cap c order T P) as (es & _ & _ & T'). split; [exact T'|exact L].
Qed.
Lemma kept_facts cap c : kept cap c -> exists v, ll_iter (lru_list c) = Ok v /\ Permutation (stored (lru_list c)) v /\
  NoDup (map fst v) /\ (forall k x, In (k, x) v <-> lru_lookup eqb c k = Ok (Some x)) /\
  Permutation (map fst (lru_table c)) (map fst v) /\ lru_len c = zlen v /\ zlen v <= zlen (ll_memory (lru_list c)) <= cap.
Proof.
  intros [(es & R & _ & N) (es1 & free & HR & HC)].
  assert (es1 = es). { destruct (lu_list _ _ _ _ R) as [f1 HR1]. pose proof (rep_entries _ _ _ HR1). pose proof (rep_entries _ _ _ HR). congruence. }
  subst es1. exists (map snd es).
  assert (Ek : map fst (map snd es) = keys es) by (unfold keys; now rewrite map_map).
  assert (Ez : zlen (map snd es) = zlen es) by (unfold zlen; now rewrite map_length).
  split; [exact (rep_iter _ _ _ HR)|]. split; [exact (stored_entries _ _ _ HR HC)|]. rewrite Ek. split; [exact (lu_keys _ _ _ _ R)|].
  split.
  - intros k x. rewrite (lookup_ok eqb eqb_ok cap c es k R). split.
    + intros I. apply in_map_iff in I. destruct I as ([n [k0 x0]] & E & I). cbn [snd] in E. injection E as -> ->.
      now rewrite (find_key eqb eqb_ok es n k x (lu_keys _ _ _ _ R) I).
    + intros E. injection E as E. unfold value_of in E. destruct (find _ (map snd es)) as [[k0 x0]|] eqn:F; [|discriminate E]. cbn in E. injection E as ->.
      apply find_some in F. destruct F as [I H]. unfold holds_key in H. cbn [fst] in H. apply eqb_ok in H. subst k0. exact I.
  - split; [|split].
    + apply NoDup_Permutation; [exact N|exact (lu_keys _ _ _ _ R)|]. intros k. split.
      * intros I. apply in_map_iff in I. destruct I as ([k0 n] & <- & I). cbn [fst]. apply (fm_get_In eqb eqb_ok _ _ _ N) in I. apply (lu_table _ _ _ _ R) in I.
        destruct I as [v I]. unfold keys. change k0 with (fst (snd (n, (k0, v)))). now apply (in_map (fun e : Z * (K * V) => fst (snd e))).
      * intros I. unfold keys in I. apply in_map_iff in I. destruct I as ([n [k0 v]] & <- & I). cbn [snd fst].
        assert (G : fm_get eqb (lru_table c) k0 = Some n) by (apply (lu_table _ _ _ _ R); eauto). apply (fm_get_In eqb eqb_ok _ _ _ N) in G.
        change k0 with (fst (k0, n)). now apply in_map.
    + unfold lru_len. now rewrite (lr_len _ _ _ HR), Ez.
    + rewrite Ez. pose proof (rep_size _ _ _ HR). pose proof (zlen_nonneg free). pose proof (lu_mem _ _ _ _ R). lia.
Qed.
Lemma kept_stored cap c : kept cap c ->
  (forall k x, In (k, x) (stored (lru_list c)) <-> lru_lookup eqb c k = Ok (Some x)) /\
  NoDup (map fst (stored (lru_list c))) /\
  Permutation (map fst (lru_table c)) (map fst (stored (lru_list c))) /\
  lru_len c = zlen (stored (lru_list c)) /\ lru_len c <= zlen (ll_memory (lru_list c)) <= cap.
Proof.
  intros Hk. destruct (kept_facts cap c Hk) as (v & _ & P & N & L & T & Z1 & Z2).
  assert (Zs : zlen (stored (lru_list c)) = zlen v) by (unfold zlen; now rewrite (Permutation_length P)).
  split; [|split; [|split; [|split; lia]]].
  - intros k x. rewrite <- L. split; apply Permutation_in; [exact P|now symmetry].
  - eapply Permutation_NoDup; [|exact N]. apply Permutation_map. now symmetry.
  - rewrite T. apply Permutation_map. now symmetry.
Qed.
End Cache.

(** ** C98 *)
(** However a list has been used, changes through [iter_mut] included: the items in its memory are those of its entries.
    A removed item is in no node any more, so neither in memory nor in the serialised text. *)
Theorem C98_list : forall (T : Type) p n (l : llist T), handled p n l -> Z.of_nat n < 2 ^ 32 - 1 ->
  exists v, ll_iter l = Ok v /\ Permutation (stored l) v.
Proof.
  intros T p n l U Hn. destruct (handled_clean p n l U) as (es & free & HR & HC & _); [lia|].
  exists (map snd es). split; [exact (rep_iter _ _ _ HR)|exact (stored_entries _ _ _ HR HC)].
Qed.
Print Assumptions C98_list.
(** Whatever was done to a cache, also if it was serialised and deserialised in between: the memory of its list holds the
    pairs that [lookup] finds and no other, once each; its table has one entry for each of them and no other; and there
    are never more nodes than the capacity, however many keys have come and gone. *)
Theorem C98_cache : forall (K V : Type) (eqb : K -> K -> bool) pk pv gk gv p cap (c : lru K V),
  (forall a b, eqb a b = true <-> a = b) -> serialisable pk gk -> serialisable pv gv -> 1 <= cap < 2 ^ 32 ->
  cached eqb pk pv gk gv p cap c ->
  (forall k x, In (k, x) (stored (lru_list c)) <-> lru_lookup eqb c k = Ok (Some x)) /\
  NoDup (map fst (stored (lru_list c))) /\
  Permutation (map fst (lru_table c)) (map fst (stored (lru_list c))) /\
  lru_len c = zlen (stored (lru_list c)) /\ lru_len c <= zlen (ll_memory (lru_list c)) <= cap.
Proof. intros K V eqb pk pv gk gv p cap c He Sk Sv Hc HC. exact (kept_stored eqb He cap c (cached_kept eqb He pk pv gk gv p cap c Sk Sv Hc HC)). Qed.
Print Assumptions C98_cache.
(** The same for keys and values of any type, if the cache is not serialised in between. *)
Inductive operated {K V : Type} (eqb : K -> K -> bool) (p : profile) (cap : Z) : lru K V -> Prop :=
| OperatedNew : operated eqb p cap (lru_new cap)
| OperatedDid c op c' a : operated eqb p cap c -> lru_do eqb p c op = Ok (c', a) -> operated eqb p cap c'.
Theorem C98_cache_any : forall (K V : Type) (eqb : K -> K -> bool) p cap (c : lru K V),
  (forall a b, eqb a b = true <-> a = b) -> 1 <= cap < 2 ^ 32 -> operated eqb p cap c ->
  (forall k x, In (k, x) (stored (lru_list c)) <-> lru_lookup eqb c k = Ok (Some x)) /\
  NoDup (map fst (stored (lru_list c))) /\
  Permutation (map fst (lru_table c)) (map fst (stored (lru_list c))) /\
  lru_len c = zlen (stored (lru_list c)) /\ lru_len c <= zlen (ll_memory (lru_list c)) <= cap.
Proof.
  intros K V eqb p cap c He Hc HO. apply (kept_stored eqb He cap c).
  induction HO as [|c op c' a HO IH E]; [now apply kept_new|eapply kept_do; eauto].
Qed.
Print Assumptions C98_cache_any.

(** So the text of a cache has an exact size, and a bound that depends on the capacity only.  [ks] and [vs] are the
    sizes of a key and a value. *)
Lemma zlen_flat {A B} (f : A -> list B) l : zlen (flat_map f l) = fold_right (fun x n => zlen (f x) + n) 0 l.
Proof. induction l as [|x l IH]; [reflexivity|]. cbn [flat_map fold_right]. now rewrite zlen_app, IH. Qed.
Lemma text_llist {T} (put : T -> list Z) s (l : llist T) : (forall x, zlen (put x) = s) ->
  zlen (put_llist put l) = 24 + 17 * zlen (ll_memory l) + s * zlen (stored l).
Proof.
  intros Hs. unfold put_llist, put_vec. rewrite !zlen_app.
  assert (E : zlen (flat_map (put_node put) (ll_memory l)) = 17 * zlen (ll_memory l) + s * zlen (stored l)).
  { unfold stored. induction (ll_memory l) as [|[d x y] m IH]; [change (zlen (@nil (node T))) with 0; cbn; change (zlen (@nil Z)) with 0; change (zlen (@nil T)) with 0; lia|].
    cbn [flat_map nd_data]. rewrite zlen_app, zlen_cons, zlen_app, IH. unfold put_node, put_vec. rewrite !zlen_app. cbn [nd_data nd_left nd_right flat_map].
    rewrite !zlen_app. destruct d as [z|]; cbn [put_option]; rewrite ?zlen_app, ?Hs; change (zlen (@nil T)) with 0; change (zlen [z]) with 1 || idtac;
    repeat match goal with |- context [zlen (put_u8 ?b)] => change (zlen (put_u8 b)) with 1 end;
    repeat match goal with |- context [zlen (put_u32 ?b)] => change (zlen (put_u32 b)) with 4 end;
    repeat match goal with |- context [zlen (put_u64 ?b)] => change (zlen (put_u64 b)) with 8 end; change (zlen (@nil Z)) with 0; lia. }
  rewrite E. repeat match goal with |- context [zlen (put_u32 ?b)] => change (zlen (put_u32 b)) with 4 end.
  repeat match goal with |- context [zlen (put_u64 ?b)] => change (zlen (put_u64 b)) with 8 end. lia.
Qed.
Theorem C98_text : forall (K V : Type) (eqb : K -> K -> bool) pk pv gk gv p cap (c : lru K V) order ks vs,
  (forall a b, eqb a b = true <-> a = b) -> serialisable pk gk -> serialisable pv gv -> 1 <= cap < 2 ^ 32 ->
  cached eqb pk pv gk gv p cap c -> Permutation order (lru_table c) ->
  0 <= ks -> 0 <= vs -> (forall k, zlen (pk k) = ks) -> (forall v, zlen (pv v) = vs) ->
  zlen (put_lru pk pv order c) = 36 + 17 * zlen (ll_memory (lru_list c)) + (2 * ks + vs + 4) * lru_len c /\
  zlen (put_lru pk pv order c) <= 36 + (2 * ks + vs + 21) * cap.
Proof.
  intros K V eqb pk pv gk gv p cap c order ks vs He Sk Sv Hc HC P K0 V0 Hk Hv.
  destruct (C98_cache K V eqb pk pv gk gv p cap c He Sk Sv Hc HC) as (_ & _ & T & Z1 & Z2).
  assert (Zo : zlen order = lru_len c).
  { rewrite Z1. unfold zlen. rewrite (Permutation_length P). apply Permutation_length in T. rewrite !map_length in T. now rewrite T. }
  assert (E : zlen (put_lru pk pv order c) = 36 + 17 * zlen (ll_memory (lru_list c)) + (2 * ks + vs + 4) * lru_len c).
  { unfold put_lru. rewrite !zlen_app, (text_llist _ (ks + vs)), <- Z1.
    - unfold put_vec. rewrite zlen_app. change (zlen (put_u64 (zlen order))) with 8. change (zlen (put_u32 (lru_capacity c))) with 4.
      assert (F : zlen (flat_map (put_pair pk put_u32) order) = (ks + 4) * zlen order).
      { clear - Hk. induction order as [|[k n] o IH]; [change (zlen (@nil Z)) with 0; change (zlen (@nil (K * Z))) with 0; cbn; change (zlen (@nil Z)) with 0; lia|].
        cbn [flat_map]. rewrite zlen_app, zlen_cons, IH. unfold put_pair. cbn [fst snd]. rewrite zlen_app, Hk. change (zlen (put_u32 n)) with 4. lia. }
      rewrite F, Zo. lia.
    - intros [k v]. unfold put_pair. cbn [fst snd]. rewrite zlen_app, Hk, Hv. reflexivity. }
  split; [exact E|]. rewrite E.
  assert (0 <= lru_len c) by (rewrite Z1; apply zlen_nonneg). nia.
Qed.
Print Assumptions C98_text.

(** A list of two from which one of three was removed; a cache for one pair in which a second key displaced the first. *)
Example C98_applies : exists (l : llist bool) (c : lru bool bool),
  handled Debug 4 l /\ zlen (ll_memory l) = 3 /\ stored l = [false; true] /\
  cached Bool.eqb put_bool put_bool get_bool get_bool Debug 1 c /\ stored (lru_list c) = [(false, true)] /\
  lru_table c = [(false, 0)] /\ (forall b, zlen (put_bool b) = 1) /\ zlen (put_lru put_bool put_bool (lru_table c) c) = 60.
Proof.
  assert (H0 : handled Debug 0 (@ll_new bool)) by constructor.
  next H0 (AddRear true) H1. next H1 (AddRear false) H2. next H2 (AddRear true) H3. next H3 (@TakeFront bool) H4.
  assert (C0 : cached Bool.eqb put_bool put_bool get_bool get_bool Debug 1 (lru_new 1 : lru bool bool)) by constructor.
  Ltac next_of_one H o H' := match type of H with cached _ _ _ _ _ _ _ ?c =>
    let r := eval vm_compute in (lru_do Bool.eqb Debug c o) in match r with Ok (?c', ?ans) =>
      assert (H' : cached Bool.eqb put_bool put_bool get_bool get_bool Debug 1 c') by (refine (CachedDid _ _ _ _ _ _ _ _ o _ ans H _); vm_compute; reflexivity) end end.
  next_of_one C0 (@Put bool bool true true) C1. next_of_one C1 (@Put bool bool false true) C2.
  eexists _, _. split; [exact H4|]. split; [vm_compute; reflexivity|]. split; [vm_compute; reflexivity|]. split; [exact C2|].
  split; [vm_compute; reflexivity|]. split; [vm_compute; reflexivity|]. split; [intros [|]; reflexivity|vm_compute; reflexivity].
Qed.
