(** * LruCache implements the recency list of Spec/Collections.v *)
From Coq Require Import ZArith List Bool Lia Permutation.
From Verif Require Import Model.Base Model.LinkedList Model.LruCache Spec.Collections Proofs.BaseFacts Proofs.ListFacts.
Import ListNotations.
Open Scope Z_scope.

Section Lru.
Context {K V : Type} (eqb : K -> K -> bool).
Hypothesis eqb_ok : forall a b, eqb a b = true <-> a = b.
Notation entry := (Z * (K * V))%type.
Implicit Types (c : lru K V) (es : list entry).

Lemma eqb_same k : eqb k k = true. Proof. now apply eqb_ok. Qed.
Lemma eqb_diff k k' : k <> k' -> eqb k k' = false.
Proof. intros H. destruct (eqb k k') eqn:E; auto. apply eqb_ok in E. contradiction. Qed.

(** ** The table *)
Lemma fm_get_remove {W} (m : list (K * W)) k k' : fm_get eqb (fm_remove eqb m k) k' = if eqb k k' then None else fm_get eqb m k'.
Proof.
  unfold fm_remove. induction m as [|[k0 w] m IH]; cbn [filter fm_get]; [now destruct (eqb k k')|].
  destruct (eqb k k0) eqn:E; cbn [negb fm_get].
  - rewrite IH. apply eqb_ok in E. subst k0. destruct (eqb k k') eqn:E'; auto. destruct (eqb k' k) eqn:E2; auto. apply eqb_ok in E2. subst. rewrite eqb_same in E'. discriminate.
  - destruct (eqb k' k0) eqn:E2; [|exact IH]. apply eqb_ok in E2. subst k0. now rewrite E.
Qed.
Lemma fm_get_insert {W} (m : list (K * W)) k w k' : fm_get eqb (fm_insert eqb m k w) k' = if eqb k' k then Some w else fm_get eqb m k'.
Proof.
  unfold fm_insert. cbn [fm_get]. destruct (eqb k' k) eqn:E; auto. rewrite fm_get_remove.
  destruct (eqb k k') eqn:E2; auto. apply eqb_ok in E2. subst. rewrite eqb_same in E. discriminate.
Qed.

(** ** The recency list *)
Definition keys es : list K := map (fun e => fst (snd e)) es.
Lemma find_key es n k v : NoDup (keys es) -> In (n, (k, v)) es -> value_of eqb k (map snd es) = Some v.
Proof.
  unfold value_of, holds_key. induction es as [|[m [k0 v0]] es IH]; intros ND HI; [destruct HI|destruct HI as [E|Hin]]; cbn [keys map snd fst find] in *.
  - injection E as -> -> ->. now rewrite eqb_same.
  - inversion ND as [|? ? N ND']; subst. rewrite eqb_diff; [now apply IH|]. intros ->. apply N. unfold keys.
    change k0 with (fst (snd (n, (k0, v)))). now apply (in_map (fun e : entry => fst (snd e))).
Qed.
Lemma no_key es k : ~ In k (keys es) -> value_of eqb k (map snd es) = None /\ without eqb k (map snd es) = map snd es.
Proof.
  unfold value_of, without, holds_key. induction es as [|[m [k0 v0]] es IH]; intros N; cbn [keys map snd fst find filter In] in *; auto.
  rewrite eqb_diff by (intros ->; tauto). cbn [negb]. destruct IH as [I1 I2]; [tauto|]. now rewrite I1, I2.
Qed.
Lemma keys_mid a n k v b : NoDup (keys (a ++ (n, (k, v)) :: b)) -> NoDup (keys (a ++ b)) /\ ~ In k (keys (a ++ b)).
Proof. unfold keys. rewrite !map_app. cbn [map snd fst]. intros H. split; [eapply NoDup_remove_1|eapply NoDup_remove_2]; eauto. Qed.
Lemma without_key a n k v b : NoDup (keys (a ++ (n, (k, v)) :: b)) -> without eqb k (map snd (a ++ (n, (k, v)) :: b)) = map snd (a ++ b).
Proof.
  intros ND. destruct (keys_mid _ _ _ _ _ ND) as [_ N]. destruct (no_key _ _ N) as [_ W].
  unfold without in *. rewrite map_app, filter_app. rewrite map_app, filter_app in W. rewrite map_app. rewrite <- W.
  cbn [map snd filter]. unfold holds_key at 2. cbn [fst]. now rewrite eqb_same.
Qed.

(** ** The invariant *)
Record lru_rep (cap : Z) c es : Prop := {
  lu_cap : lru_capacity c = cap;
  lu_bound : 1 <= cap < 2 ^ 32;
  lu_list : exists free, ll_rep (lru_list c) es free;
  lu_mem : zlen (ll_memory (lru_list c)) <= cap;
  lu_keys : NoDup (keys es);
  lu_table : forall k n, fm_get eqb (lru_table c) k = Some n <-> exists v, In (n, (k, v)) es }.

Lemma new_lru cap : 1 <= cap < 2 ^ 32 -> lru_rep cap (lru_new cap) [].
Proof.
  intros H. constructor; cbn [lru_new lru_capacity lru_list lru_table]; auto.
  - apply (uwrap_small 32). lia.
  - exists []. apply new_rep.
  - cbn [ll_new ll_memory]. change (zlen (@nil (node (K * V)))) with 0. lia.
  - constructor.
  - intros k n. cbn [fm_get]. split; [discriminate|intros [v []]].
Qed.
Lemma lru_absent cap c es k : lru_rep cap c es -> fm_get eqb (lru_table c) k = None -> ~ In k (keys es).
Proof.
  intros R E Hin. unfold keys in Hin. apply in_map_iff in Hin. destruct Hin as ([n [k0 v]] & <- & Hin). cbn [snd fst] in E.
  assert (fm_get eqb (lru_table c) k0 = Some n) by (apply (lu_table _ _ _ R); eauto). congruence.
Qed.
Lemma lru_present cap c es k n : lru_rep cap c es -> fm_get eqb (lru_table c) k = Some n ->
  exists v a b, es = a ++ (n, (k, v)) :: b.
Proof. intros R E. apply (lu_table _ _ _ R) in E. destruct E as [v E]. apply in_split in E. destruct E as (a & b & ->). eauto. Qed.
Lemma lru_size cap c es : lru_rep cap c es -> zlen es <= cap.
Proof. intros R. destruct (lu_list _ _ _ R) as [free HR]. pose proof (rep_size _ _ _ HR). pose proof (lu_mem _ _ _ R). pose proof (zlen_nonneg free). lia. Qed.

Lemma raise_spec p (l : llist (K * V)) (a : list entry) n (k : K) (v : V) (b : list entry) free (val : option V) : ll_rep l (a ++ (n, (k, v)) :: b) free ->
  exists l' n' free', raise_key p n l val = Ok (l', n') /\ ll_front l' = n' /\ ~ In n' (ptrs (a ++ b)) /\
    ll_rep l' ((n', (k, match val with Some w => w | None => v end)) :: a ++ b) free' /\ zlen (ll_memory l') = zlen (ll_memory l).
Proof.
  intros HR. destruct (remove_spec p l a n (k, v) b free HR) as (l1 & E1 & R1 & Z1).
  pose proof (rep_size _ _ _ HR) as SZ. pose proof (lr_small _ _ _ HR) as SM. pose proof (zlen_nonneg free).
  rewrite zlen_app, zlen_cons in SZ.
  destruct (push_front_spec p l1 (a ++ b) (n :: free) (k, match val with Some w => w | None => v end) R1) as (l2 & n' & free' & E2 & N2 & R2 & Z2).
  { rewrite zlen_app. lia. }
  exists l2, n', free'. unfold raise_key. rewrite E1. cbn [bind expect]. rewrite E2. cbn [bind].
  assert (F : ll_front l2 = n') by (rewrite (lr_front _ _ _ R2); reflexivity). rewrite F.
  repeat (split; [auto; fail|]). rewrite zlen_app in Z2. lia.
Qed.

(** Replacing an entry by a new front entry with the same key. *)
Lemma raised cap c a n k v b n' w l' free' : lru_rep cap c (a ++ (n, (k, v)) :: b) ->
  ll_rep l' ((n', (k, w)) :: a ++ b) free' -> zlen (ll_memory l') <= cap ->
  lru_rep cap (mkLru (fm_insert eqb (lru_table c) k n') l' (lru_capacity c)) ((n', (k, w)) :: a ++ b).
Proof.
  intros [C B _ _ ND T] R' Z'. destruct (keys_mid _ _ _ _ _ ND) as [ND1 N1].
  constructor; cbn [lru_capacity lru_list lru_table]; eauto.
  - cbn [keys map snd fst]. constructor; auto.
  - intros k0 m. rewrite fm_get_insert. destruct (eqb k0 k) eqn:E.
    + apply eqb_ok in E. subst k0. split.
      * intros X. injection X as <-. exists w. now left.
      * intros [v0 [X|X]]; [congruence|]. exfalso. apply N1. unfold keys. change k with (fst (snd (m, (k, v0)))). now apply (in_map (fun e : entry => fst (snd e))).
    + rewrite T. split; intros [v0 X]; exists v0.
      * right. apply in_app_iff in X. apply in_or_app. destruct X as [X|[X|X]]; auto. injection X as -> -> ->. rewrite eqb_same in E. discriminate.
      * destruct X as [X|X]; [injection X as -> -> ->; rewrite eqb_same in E; discriminate|]. apply in_app_iff in X. apply in_or_app. cbn [In]. tauto.
Qed.
(** Taking an entry out of the list and its key out of the table. *)
Lemma dropped cap c a n k v b l' free' : lru_rep cap c (a ++ (n, (k, v)) :: b) ->
  ll_rep l' (a ++ b) free' -> zlen (ll_memory l') <= cap ->
  lru_rep cap (mkLru (fm_remove eqb (lru_table c) k) l' (lru_capacity c)) (a ++ b).
Proof.
  intros [C B _ _ ND T] R' Z'. destruct (keys_mid _ _ _ _ _ ND) as [ND1 N1].
  constructor; cbn [lru_capacity lru_list lru_table]; eauto.
  intros k0 m. rewrite fm_get_remove. destruct (eqb k k0) eqn:E.
  - apply eqb_ok in E. subst k0. split; [discriminate|]. intros [v0 X]. exfalso. apply N1. unfold keys. change k with (fst (snd (m, (k, v0)))). now apply (in_map (fun e : entry => fst (snd e))).
  - rewrite T. split; intros [v0 X]; exists v0.
    + apply in_app_iff in X. apply in_or_app. destruct X as [X|[X|X]]; auto. injection X as -> -> ->. rewrite eqb_same in E. discriminate.
    + apply in_app_iff in X. apply in_or_app. cbn [In]. tauto.
Qed.
(** Adding an entry with a new key. *)
Lemma added cap c es n k v l' free' : lru_rep cap c es -> ~ In k (keys es) ->
  ll_rep l' ((n, (k, v)) :: es) free' -> zlen (ll_memory l') <= cap ->
  lru_rep cap (mkLru (fm_insert eqb (lru_table c) k n) l' (lru_capacity c)) ((n, (k, v)) :: es).
Proof.
  intros [C B _ _ ND T] N R' Z'. constructor; cbn [lru_capacity lru_list lru_table]; eauto.
  - cbn [keys map snd fst]. constructor; auto.
  - intros k0 m. rewrite fm_get_insert. destruct (eqb k0 k) eqn:E.
    + apply eqb_ok in E. subst k0. split.
      * intros X. injection X as <-. exists v. now left.
      * intros [v0 [X|X]]; [congruence|]. exfalso. apply N. unfold keys. change k with (fst (snd (m, (k, v0)))). now apply (in_map (fun e : entry => fst (snd e))).
    + rewrite T. split; intros [v0 X]; exists v0; [now right|]. destruct X as [X|X]; auto. injection X as -> -> ->. rewrite eqb_same in E. discriminate.
Qed.

(** ** The operations *)
Lemma lookup_ok cap c es k : lru_rep cap c es -> lru_lookup eqb c k = Ok (value_of eqb k (map snd es)).
Proof.
  intros R. unfold lru_lookup. destruct (fm_get eqb (lru_table c) k) as [n|] eqn:E.
  - destruct (lru_present _ _ _ _ _ R E) as (v & a & b & ->). destruct (lu_list _ _ _ R) as [free HR].
    assert (Hin : In (n, (k, v)) (a ++ (n, (k, v)) :: b)) by (apply in_or_app; right; now left).
    destruct (rep_entry _ _ _ _ _ HR Hin) as (nd & -> & D). cbn [bind]. rewrite D.
    now rewrite (find_key _ _ _ _ (lu_keys _ _ _ R) Hin).
  - now rewrite (proj1 (no_key _ _ (lru_absent _ _ _ _ R E))).
Qed.
Lemma get_ok cap c es k p : lru_rep cap c es ->
  exists c' es', lru_get eqb p c k = Ok (c', value_of eqb k (map snd es)) /\ lru_rep cap c' es' /\
    map snd es' = fst (cache_do eqb cap (map snd es) (Get k)).
Proof.
  intros R. unfold lru_get. cbn [cache_do fst]. destruct (fm_get eqb (lru_table c) k) as [n|] eqn:E.
  - destruct (lru_present _ _ _ _ _ R E) as (v & a & b & ->). destruct (lu_list _ _ _ R) as [free HR].
    assert (Hin : In (n, (k, v)) (a ++ (n, (k, v)) :: b)) by (apply in_or_app; right; now left).
    rewrite (find_key _ _ _ _ (lu_keys _ _ _ R) Hin), (without_key _ _ _ _ _ (lu_keys _ _ _ R)).
    destruct (raise_spec p _ _ _ _ _ _ _ None HR) as (l' & n' & free' & -> & F & N & R' & Z'). cbn [bind].
    rewrite F. destruct (rep_entry _ _ _ n' (k, v) R' (or_introl eq_refl)) as (nd & -> & D). cbn [bind]. rewrite D.
    eexists _, _. split; [reflexivity|]. split; [eapply raised; eauto; pose proof (lu_mem _ _ _ R); lia|reflexivity].
  - rewrite (proj1 (no_key _ _ (lru_absent _ _ _ _ R E))). eauto.
Qed.
Lemma get_mut_ok cap c es k w p : lru_rep cap c es ->
  exists c' es', lru_get_mut_set eqb p c k w = Ok c' /\ lru_rep cap c' es' /\
    map snd es' = fst (cache_do eqb cap (map snd es) (GetMut k w)).
Proof.
  intros R. unfold lru_get_mut_set. cbn [cache_do fst]. destruct (fm_get eqb (lru_table c) k) as [n|] eqn:E.
  - destruct (lru_present _ _ _ _ _ R E) as (v & a & b & ->). destruct (lu_list _ _ _ R) as [free HR].
    assert (Hin : In (n, (k, v)) (a ++ (n, (k, v)) :: b)) by (apply in_or_app; right; now left).
    rewrite (find_key _ _ _ _ (lu_keys _ _ _ R) Hin), (without_key _ _ _ _ _ (lu_keys _ _ _ R)).
    destruct (raise_spec p _ _ _ _ _ _ _ None HR) as (l' & n' & free' & -> & F & N & R' & Z'). cbn [bind].
    rewrite F. destruct (rep_entry _ _ _ n' (k, v) R' (or_introl eq_refl)) as (nd & E1 & D).
    destruct (rep_write l' [] n' (k, v) (a ++ b) free' (k, w) R') as (nd2 & l2 & E2 & P2 & R2 & F2 & Z2). rewrite E2 in E1. injection E1 as ->.
    rewrite E2. cbn [bind]. rewrite D, P2. cbn [bind].
    eexists _, _. split; [reflexivity|]. split; [eapply raised; eauto; pose proof (lu_mem _ _ _ R); lia|reflexivity].
  - rewrite (proj1 (no_key _ _ (lru_absent _ _ _ _ R E))). eauto.
Qed.
Lemma remove_ok cap c es k p : lru_rep cap c es ->
  exists c' es', lru_remove eqb p c k = Ok (c', value_of eqb k (map snd es)) /\ lru_rep cap c' es' /\
    map snd es' = without eqb k (map snd es).
Proof.
  intros R. unfold lru_remove. destruct (fm_get eqb (lru_table c) k) as [n|] eqn:E.
  - destruct (lru_present _ _ _ _ _ R E) as (v & a & b & ->). destruct (lu_list _ _ _ R) as [free HR].
    assert (Hin : In (n, (k, v)) (a ++ (n, (k, v)) :: b)) by (apply in_or_app; right; now left).
    rewrite (find_key _ _ _ _ (lu_keys _ _ _ R) Hin), (without_key _ _ _ _ _ (lu_keys _ _ _ R)).
    destruct (remove_spec p _ _ _ _ _ _ HR) as (l' & -> & R' & Z'). cbn [bind].
    eexists _, _. split; [reflexivity|]. split; [eapply dropped; eauto; pose proof (lu_mem _ _ _ R); lia|reflexivity].
  - destruct (no_key _ _ (lru_absent _ _ _ _ R E)) as [-> ->]. eauto.
Qed.
Lemma put_ok cap c es k w p : lru_rep cap c es ->
  exists c' es', lru_put eqb p c k w = Ok c' /\ lru_rep cap c' es' /\
    map snd es' = fst (cache_do eqb cap (map snd es) (Put k w)).
Proof.
  intros R. unfold lru_put. cbn [cache_do fst]. pose proof (lu_mem _ _ _ R) as MB. destruct (fm_get eqb (lru_table c) k) as [n|] eqn:E.
  - destruct (lru_present _ _ _ _ _ R E) as (v & a & b & ->). destruct (lu_list _ _ _ R) as [free HR].
    assert (Hin : In (n, (k, v)) (a ++ (n, (k, v)) :: b)) by (apply in_or_app; right; now left).
    rewrite (find_key _ _ _ _ (lu_keys _ _ _ R) Hin), (without_key _ _ _ _ _ (lu_keys _ _ _ R)).
    destruct (raise_spec p _ _ _ _ _ _ _ (Some w) HR) as (l' & n' & free' & -> & F & N & R' & Z'). cbn [bind].
    eexists _, _. split; [reflexivity|]. split; [eapply raised; eauto; lia|reflexivity].
  - pose proof (lru_absent _ _ _ _ R E) as NK. rewrite (proj1 (no_key _ _ NK)).
    destruct (lu_list _ _ _ R) as [free HR]. pose proof (lu_bound _ _ _ R) as CB. pose proof (lru_size _ _ _ R) as SZ.
    rewrite (lu_cap _ _ _ R). unfold lru_len. rewrite (lr_len _ _ _ HR).
    replace (zlen (map snd es)) with (zlen es) by (unfold zlen; now rewrite map_length).
    destruct (Z.leb_spec cap (zlen es)) as [Full|Room].
    + destruct es as [|[m [k1 v1]] es _] using rev_ind; [change (zlen (@nil entry)) with 0 in Full; lia|].
      rewrite (lr_rear _ _ _ HR). unfold ptrs. rewrite map_app. cbn [map fst]. rewrite last_last.
      destruct (rep_entry _ _ _ m (k1, v1) HR ltac:(apply in_or_app; right; now left)) as (nd & -> & D). cbn [bind]. rewrite D. cbn [expect bind].
      destruct (pop_rear_spec p _ _ _ _ _ HR) as (l1 & -> & R1 & Z1). cbn [bind].
      pose proof (dropped cap c es m k1 v1 [] l1 (m :: free) R) as RD. rewrite app_nil_r in RD. specialize (RD R1 ltac:(lia)).
      rewrite zlen_app in *. change (zlen [(m, (k1, v1))]) with 1 in *.
      destruct (push_front_spec p l1 es (m :: free) (k, w) R1) as (l2 & n & free' & -> & N2 & R2 & Z2); [unfold NULL; lia|]. cbn [bind].
      rewrite (lr_front _ _ _ R2). cbn [ptrs map fst hd].
      assert (NK' : ~ In k (keys es)) by (intros X; apply NK; unfold keys; rewrite map_app; apply in_or_app; auto).
      eexists _, _. split; [reflexivity|]. split.
      * pose proof (added cap _ es n k w l2 free' RD NK' R2 ltac:(lia)) as A. cbn [lru_capacity lru_table] in A. rewrite (lu_cap _ _ _ R) in A. exact A.
      * cbn [map snd]. rewrite map_app, removelast_app by discriminate. cbn [map removelast]. now rewrite app_nil_r.
    + cbn [bind]. destruct (push_front_spec p _ es free (k, w) HR) as (l2 & n & free' & -> & N2 & R2 & Z2); [unfold NULL; lia|]. cbn [bind].
      rewrite (lr_front _ _ _ R2). cbn [ptrs map fst hd].
      eexists _, ((n, (k, w)) :: es). split; [reflexivity|]. split; [|reflexivity].
      pose proof (added cap c es n k w l2 free' R NK R2 ltac:(lia)) as A. rewrite (lu_cap _ _ _ R) in A. exact A.
Qed.
End Lru.
