(** * What the nodes outside a linked list hold *)
From Coq Require Import ZArith List Bool Lia Permutation.
From Verif Require Import Model.Base Model.LinkedList Model.ListHandles Spec.Collections Proofs.BaseFacts Proofs.ListFacts.
Import ListNotations.
Open Scope Z_scope.

Section Handles.
Context {T : Type}.
Implicit Types l : llist T.

Lemma at_get l i nd : ll_at l i = Ok nd -> 0 <= i < zlen (ll_memory l) /\ ll_get l i = Some nd.
Proof. apply index_inv. Qed.
Lemma get_at l i nd : 0 <= i -> ll_get l i = Some nd -> ll_at l i = Ok nd.
Proof.
  intros Hi H. unfold ll_get in H. unfold ll_at, index.
  assert (i < zlen (ll_memory l)).
  { assert (nth_error (ll_memory l) (Z.to_nat i) <> None) as N by congruence. apply nth_error_Some in N. unfold zlen. lia. }
  replace ((0 <=? i) && (i <? zlen (ll_memory l))) with true by lia. now rewrite H.
Qed.
Lemma at_oob l i : zlen (ll_memory l) <= i -> ll_at l i = Panic IndexOutOfBounds.
Proof. intros H. apply index_oob. lia. Qed.
Lemma get_oob l i : zlen (ll_memory l) <= i -> ll_get l i = None.
Proof. intros H. unfold ll_get. apply nth_error_None. unfold zlen in H. lia. Qed.
Lemma get_in l i : 0 <= i < zlen (ll_memory l) -> exists nd, ll_get l i = Some nd.
Proof.
  intros H. unfold ll_get. destruct (nth_error (ll_memory l) (Z.to_nat i)) eqn:E; [eauto|].
  apply nth_error_None in E. unfold zlen in H. lia.
Qed.
(** Two lists with the same nodes, memory size and roots, except the nodes in [s]. *)
Definition same_but (s : list Z) l l' : Prop :=
  zlen (ll_memory l') = zlen (ll_memory l) /\ forall j, 0 <= j -> ~ In j s -> ll_get l' j = ll_get l j.
Lemma put_frame l i nd l' : ll_put l i nd = Ok l' ->
  0 <= i < zlen (ll_memory l) /\ same_but [i] l l' /\ ll_get l' i = Some nd /\ (exists m, l' = set_memory l m).
Proof.
  unfold ll_put. intros H. inv_bind H. injection H as <-. 
  match goal with E : store _ _ _ = Ok _ |- _ => apply store_inv in E; destruct E as [B E] end.
  split; [exact B|]. split; [split|split; [|eauto]]; unfold ll_get; cbn [set_memory ll_memory]; subst.
  - apply zlen_replace_nth.
  - intros j Hj N. apply nth_error_replace_other. intros E. apply N. left. lia.
  - apply nth_error_replace_same. unfold zlen in B. lia.
Qed.
Lemma same_trans s t l l' l'' : same_but s l l' -> same_but t l' l'' -> same_but (s ++ t) l l''.
Proof.
  intros [A B] [C D]. split; [congruence|]. intros j Hj N. rewrite in_app_iff in N. rewrite D, B; auto.
Qed.
Lemma left_frame l i v l' : set_left l i v = Ok l' -> 0 <= i < zlen (ll_memory l) /\ same_but [i] l l' /\
  (forall nd, ll_get l i = Some nd -> ll_get l' i = Some (mkNode (nd_data nd) v (nd_right nd))) /\ (exists m, l' = set_memory l m).
Proof.
  unfold set_left. intros H. inv_bind H.
  match goal with E : ll_at _ _ = Ok _ |- _ => apply at_get in E; destruct E as [B E] end.
  apply put_frame in H. destruct H as (_ & S & G & M). split; [exact B|]. split; [exact S|]. split; [|exact M].
  intros nd' E'. congruence.
Qed.
Lemma right_frame l i v l' : set_right l i v = Ok l' -> 0 <= i < zlen (ll_memory l) /\ same_but [i] l l' /\
  (forall nd, ll_get l i = Some nd -> ll_get l' i = Some (mkNode (nd_data nd) (nd_left nd) v)) /\ (exists m, l' = set_memory l m).
Proof.
  unfold set_right. intros H. inv_bind H.
  match goal with E : ll_at _ _ = Ok _ |- _ => apply at_get in E; destruct E as [B E] end.
  apply put_frame in H. destruct H as (_ & S & G & M). split; [exact B|]. split; [exact S|]. split; [|exact M].
  intros nd' E'. congruence.
Qed.
Lemma child_frame d l i v l' : set_child d l i v = Ok l' -> 0 <= i < zlen (ll_memory l) /\ same_but [i] l l' /\
  (forall nd, ll_get l i = Some nd -> exists nd', ll_get l' i = Some nd' /\ nd_data nd' = nd_data nd) /\ (exists m, l' = set_memory l m).
Proof.
  destruct d; cbn [set_child]; intros H; [apply left_frame in H|apply right_frame in H]; destruct H as (A & B & C & D);
    (split; [exact A|split; [exact B|split; [|exact D]]]); intros nd E; apply C in E; eexists; split; [exact E|reflexivity|exact E|reflexivity].
Qed.
Lemma child_oob d l i v : zlen (ll_memory l) <= i -> set_child d l i v = Panic IndexOutOfBounds.
Proof. intros H. destruct d; cbn [set_child]; unfold set_left, set_right; rewrite at_oob by exact H; reflexivity. Qed.
Lemma child_ok d l i v : 0 <= i < zlen (ll_memory l) -> exists l', set_child d l i v = Ok l'.
Proof.
  intros H. destruct (get_in l i H) as [nd E]. apply get_at in E; [|lia].
  destruct d; cbn [set_child]; unfold set_left, set_right; rewrite E; cbn [bind]; unfold ll_put; rewrite store_ok by exact H; cbn [bind]; eauto.
Qed.

(** ** Nodes outside the list *)
(** Every node that is not among [ps] has no data and no left neighbour. *)
Definition clean l (ps : list Z) : Prop :=
  forall j, 0 <= j < zlen (ll_memory l) -> ~ In j ps -> exists r, ll_get l j = Some (mkNode None NULL r).
Lemma neighbours l es free i nd : ll_rep l es free -> In i (ptrs es) -> ll_get l i = Some nd ->
  In (nd_left nd) (ptrs es) /\ In (nd_right nd) (ptrs es).
Proof.
  intros [HL ND HA Hsm HF HRr (D & L & R & HS & HCy & HD & HCh)] Hi G.
  assert (B : 0 <= i < zlen (ll_memory l)) by (apply HA, in_or_app; auto).
  unfold ll_get in G. rewrite (HS i B) in G. injection G as <-. cbn [nd_left nd_right].
  assert (NDp : NoDup (ptrs es)) by exact (nodup_app_l _ _ ND).
  apply in_split in Hi. destruct Hi as (a & b & E). rewrite E in *.
  apply cycle_rot in HCy. cbn [app] in HCy.
  assert (ND' : NoDup (i :: b ++ a)) by (eapply Permutation_NoDup; [|exact NDp]; rewrite Permutation_app_comm; reflexivity).
  assert (K : forall j, In j (i :: b ++ a) -> In j (a ++ i :: b)).
  { intros j. cbn [In]. rewrite !in_app_iff. cbn [In]. tauto. }
  destruct (b ++ a) as [|c cs] eqn:Ec.
  - unfold cycle in HCy. cbn [app hd links] in HCy. destruct HCy as (E1 & E2 & _). split; apply K; left; congruence.
  - destruct (cycle_remove L R i (c :: cs) _ _ HCy ND' ltac:(discriminate) eq_refl eq_refl) as (E1 & E2 & _).
    split; apply K; right; [rewrite E1; apply last_in; discriminate|rewrite E2; now left].
Qed.
Lemma allocate_nodes l es free x : ll_rep l es free -> zlen es < NULL ->
  exists l1 n, ll_allocate l x = Ok (l1, n) /\ ll_front l1 = ll_front l /\ ll_rear l1 = ll_rear l /\ ll_len l1 = ll_len l /\
    zlen (ll_memory l) <= zlen (ll_memory l1) <= NULL /\ 0 <= n < zlen (ll_memory l1) /\ ~ In n (ptrs es) /\
    ll_get l1 n = Some (mkNode (Some x) NULL NULL) /\ (forall j, 0 <= j -> j <> n -> ll_get l1 j = ll_get l j) /\
    (forall j, zlen (ll_memory l) <= j < zlen (ll_memory l1) -> j = n).
Proof.
  intros HR Hes. pose proof (rep_size l es free HR) as SZ.
  pose proof HR as [HL ND HA Hsm HF HRr (D & L & R & HS & HCy & HD & HCh)].
  unfold ll_allocate. destruct free as [|f free]; cbn [chain] in HCh.
  - rewrite HCh, Z.eqb_refl. change (zlen (@nil Z)) with 0 in SZ.
    assert (Zm : zlen (ll_memory l ++ [mkNode (Some x) NULL NULL]) = zlen (ll_memory l) + 1) by (rewrite zlen_app; reflexivity).
    pose proof (zlen_nonneg (ll_memory l)).
    assert (Zn : forall k, k = Z.to_nat (zlen (ll_memory l)) -> k = length (ll_memory l)) by (intros; unfold zlen in *; lia).
    eexists _, _. split; [reflexivity|]. cbn [set_memory ll_front ll_rear ll_len ll_memory].
    rewrite Zm. rewrite (uwrap_small 32) by (unfold NULL in *; lia).
    replace (zlen (ll_memory l) + 1 - 1) with (zlen (ll_memory l)) by lia.
    do 3 (split; [reflexivity|]). split; [lia|]. split; [lia|]. split.
    { intros Hin. assert (0 <= zlen (ll_memory l) < zlen (ll_memory l)) by (apply HA, in_or_app; auto). lia. }
    unfold ll_get. cbn [set_memory ll_memory]. split.
    { rewrite (Zn _ eq_refl), nth_error_app2 by lia. rewrite Nat.sub_diag. reflexivity. }
    split; [|lia]. intros j Hj Hn. destruct (Z.lt_ge_cases j (zlen (ll_memory l))) as [C|C].
    + apply nth_error_app1. unfold zlen in C. lia.
    + transitivity (@None (node T)); [|symmetry]; apply nth_error_None; rewrite ?app_length; cbn [length]; unfold zlen in *; lia.
  - destruct HCh as [Hp HCh]. rewrite Hp.
    assert (Hf : 0 <= f < zlen (ll_memory l)) by (apply HA, in_or_app; right; now left).
    destruct (Z.eqb_spec f NULL) as [|_]; [lia|].
    rewrite (at_spec l D L R f HS Hf). cbn [bind nd_right].
    set (l1 := mkLL (ll_memory l) (ll_front l) (ll_rear l) (R f) (ll_len l)).
    destruct (put_spec l1 D L R f (Some x) NULL NULL HS Hf) as (m & E & Zm & Sm). rewrite E. cbn [bind].
    apply put_frame in E. destruct E as (_ & [S1 S2] & G & _). cbn [set_memory ll_memory l1] in *.
    eexists _, _. split; [reflexivity|]. cbn [set_memory ll_front ll_rear ll_len ll_memory l1].
    do 3 (split; [reflexivity|]). split; [lia|]. split; [lia|]. split.
    { apply NoDup_remove_2 in ND. rewrite in_app_iff in ND. tauto. }
    split; [exact G|]. split; [|lia]. intros j Hj Hn. apply S2; [exact Hj|]. intros [E|[]]. congruence.
Qed.
Lemma entry_small l es free i : ll_rep l es free -> In i (ptrs es) -> 0 <= i < zlen (ll_memory l).
Proof. intros HR H. apply (lr_all _ _ _ HR), in_or_app. auto. Qed.

Lemma insert_clean p l es free i d x l' es' free' n' :
  ll_rep l es free -> zlen es < NULL -> clean l (ptrs es) -> (es = [] \/ In i (ptrs es)) ->
  ll_insert_at p l i d x = Ok l' -> ll_rep l' es' free' -> ~ In n' (ptrs es) ->
  (forall j, In j (ptrs es') <-> j = n' \/ In j (ptrs es)) -> clean l' (ptrs es').
Proof.
  intros HR Hes HC Hi H HR' Hn' Hin.
  destruct (allocate_nodes l es free x HR Hes) as (l1 & n & EA & F1 & R1 & L1 & Z1 & N1 & NI & G1 & O1 & W1).
  assert (Q : exists adj, same_but [n; i; adj] l1 l' /\ (ll_data l' n <> None) /\ (i <> n -> es <> [] -> In adj (ptrs es)) /\ (es = [] -> same_but [n] l1 l')).
  { unfold ll_insert_at in H. rewrite (lr_len _ _ _ HR) in H. destruct (Z.eqb_spec (zlen es) 0) as [E0|E0].
    - rewrite EA in H. cbn [bind] in H. apply bind_ok in H. destruct H as (nd0 & E & H). apply bind_ok in H. destruct H as (l2 & E1 & H). apply bind_ok in H. destruct H as (len & El & H).
      apply at_get in E. destruct E as [_ E]. rewrite G1 in E. injection E as <-.
      apply put_frame in E1. destruct E1 as (_ & S & G & (m & ->)). injection H as <-.
      exists 0. assert (S' : same_but [n] l1 (mkLL (ll_memory (set_memory l1 m)) n n (ll_pool (set_memory l1 m)) len)) by exact S.
      split; [|split; [|split; [|auto]]].
      + destruct S' as [A B]. split; [exact A|]. intros j Hj Nj. apply B; [exact Hj|]. cbn [In] in *. tauto.
      + unfold ll_data. change (ll_get _ n) with (ll_get (set_memory l1 m) n). rewrite G. discriminate.
      + intros _ E'. destruct es; [congruence|]. rewrite zlen_cons in E0. pose proof (zlen_nonneg es). lia.
    - assert (Ne : es <> []) by (intros ->; apply E0; reflexivity).
      destruct Hi as [Hi|Hi]; [congruence|]. pose proof (entry_small _ _ _ _ HR Hi) as Bi. pose proof (lr_small _ _ _ HR).
      destruct (Z.eqb_spec i NULL) as [|_]; [lia|]. rewrite EA in H. cbn [bind] in H.
      apply bind_ok in H. destruct H as (nd & E & H). apply at_get in E. destruct E as [_ E]. 
      apply bind_ok in H. destruct H as (la & Ea & H). apply bind_ok in H. destruct H as (lb & Eb & H).
      apply bind_ok in H. destruct H as (lc & Ec & H). apply bind_ok in H. destruct H as (ld & Ed & H).
      apply bind_ok in H. destruct H as (len & El & H).
      apply child_frame in Ea. destruct Ea as (Ba & Sa & Da & _).
      apply child_frame in Eb. destruct Eb as (Bb & Sb & Db & _).
      apply child_frame in Ec. destruct Ec as (Bc & Sc & Dc & _).
      apply child_frame in Ed. destruct Ed as (Bd & Sd & Dd & _).
      set (adj := get_child d nd) in *. exists adj.
      assert (M : ll_memory l' = ll_memory ld).
      { injection H as <-. destruct d; cbn [ll_memory]; match goal with |- context [if ?b then _ else _] => destruct b end; reflexivity. }
      assert (G' : forall j, ll_get l' j = ll_get ld j) by (intros j; unfold ll_get; now rewrite M).
      split; [|split; [|split; [|congruence]]].
      + pose proof (same_trans _ _ _ _ _ (same_trans _ _ _ _ _ (same_trans _ _ _ _ _ Sa Sb) Sc) Sd) as [A B]. split; [now rewrite M|].
        intros j Hj Nj. rewrite G'. apply B; [exact Hj|]. cbn [app In] in *. tauto.
      + assert (K : forall s la0 lb0 k, same_but [s] la0 lb0 -> (forall nd, ll_get la0 s = Some nd -> exists nd', ll_get lb0 s = Some nd' /\ nd_data nd' = nd_data nd) -> 0 <= k ->
          (exists nd, ll_get la0 k = Some nd /\ nd_data nd = Some x) -> exists nd, ll_get lb0 k = Some nd /\ nd_data nd = Some x).
        { intros s la0 lb0 k [_ S] D0 Hk (nd0 & E0' & E1'). destruct (Z.eq_dec k s) as [->|Nk].
          - destruct (D0 _ E0') as (nd' & A & B). exists nd'. split; [exact A|congruence].
          - exists nd0. split; [|exact E1']. rewrite S; auto. intros [->|[]]. congruence. }
        assert (X : exists nd, ll_get ld n = Some nd /\ nd_data nd = Some x).
        { apply (K _ _ _ _ Sd Dd); [lia|]. apply (K _ _ _ _ Sc Dc); [lia|]. apply (K _ _ _ _ Sb Db); [lia|]. apply (K _ _ _ _ Sa Da); [lia|].
          eexists. split; [exact G1|reflexivity]. }
        destruct X as (ndx & X1 & X2). unfold ll_data. rewrite G', X1, X2. discriminate.
      + intros Nin _. rewrite O1 in E by (auto; lia). destruct (neighbours l es free i nd HR Hi E). unfold adj. destruct d; assumption. }
  destruct Q as (adj & [S1 S2] & Dn & Ha & He).
  assert (Bn' : 0 <= n' < zlen (ll_memory l')) by (apply (entry_small _ _ _ _ HR'), Hin; auto).
  assert (En : n' = n).
  { destruct (Z.eq_dec n' n) as [|Nn]; [assumption|exfalso].
    (* n' is an entry, so it holds data; but outside n nothing new holds data *)
    destruct (Z.lt_ge_cases n' (zlen (ll_memory l))) as [C|C].
    - destruct (HC n' ltac:(lia) Hn') as [r Gr].
      assert (In n' (ptrs es')) as I' by (apply Hin; auto). unfold ptrs in I'. apply in_map_iff in I'. destruct I' as ([n0 y] & E0 & I'). cbn [fst] in E0. subst n0.
      destruct (rep_entry _ _ _ _ _ HR' I') as (nd & A & B). apply at_get in A. destruct A as [_ A].
      destruct (list_eq_dec (fun a b : Z => Z.eq_dec a b) (ptrs es) []) as [Ee|Ee].
      + assert (es = []) as E0 by (destruct es; [reflexivity|discriminate Ee]). destruct (He E0) as [_ S3].
        rewrite S3, O1, Gr in A; [|lia|auto|lia|intros [->|[]]; congruence]. injection A as <-. discriminate B.
      + assert (Ne : es <> []) by (intros ->; now apply Ee). destruct Hi as [Hi|Hi]; [congruence|].
        assert (i <> n) by (intros ->; contradiction).
        rewrite S2, O1, Gr in A; [|lia|auto|lia|].
        * injection A as <-. discriminate B.
        * intros [E0|[E0|[E0|[]]]]; [congruence|subst; contradiction|]. apply Hn'. rewrite <- E0. auto.
    - apply Nn, W1. lia. }
  subst n'. intros j Hj Nj. assert (Nj1 : j <> n) by (intros ->; apply Nj, Hin; auto). assert (Nj2 : ~ In j (ptrs es)) by (intros C; apply Nj, Hin; auto).
  assert (Bj : 0 <= j < zlen (ll_memory l)).
  { destruct (Z.lt_ge_cases j (zlen (ll_memory l))); [lia|]. exfalso. apply Nj1, W1. lia. }
  destruct (HC j Bj Nj2) as [r Gr]. exists r. rewrite <- Gr.
  destruct (list_eq_dec (fun a b : Z => Z.eq_dec a b) (ptrs es) []) as [Ee|Ee].
  - assert (es = []) as E0 by (destruct es; [reflexivity|discriminate Ee]). destruct (He E0) as [_ S3].
    rewrite S3, O1; auto; try lia. intros [->|[]]. congruence.
  - assert (Ne : es <> []) by (intros ->; now apply Ee). destruct Hi as [Hi|Hi]; [congruence|].
    assert (i <> n) by (intros ->; contradiction).
    rewrite S2, O1; auto; try lia. intros [E0|[E0|[E0|[]]]]; [congruence|subst; contradiction|]. apply Nj2. rewrite <- E0. auto.
Qed.

Lemma free_frame l i l' a : ll_free l i = Ok (l', a) ->
  0 <= i < zlen (ll_memory l) /\ same_but [i] l l' /\ ll_get l' i = Some (mkNode None NULL (ll_pool l)) /\ a = ll_data l i /\
  ll_front l' = ll_front l /\ ll_rear l' = ll_rear l /\ ll_len l' = ll_len l /\ ll_pool l' = i.
Proof.
  unfold ll_free. intros H. apply bind_ok in H. destruct H as (nd & E & H). apply bind_ok in H. destruct H as (l1 & E1 & H).
  apply at_get in E. destruct E as [B E]. apply put_frame in E1. destruct E1 as (_ & S & G & (m & ->)).
  injection H as <- <-. split; [exact B|]. split; [exact S|]. split; [exact G|]. split; [unfold ll_data; now rewrite E|]. auto.
Qed.
Lemma remove_clean p l es free i l' a ps : ll_rep l es free -> clean l (ptrs es) -> In i (ptrs es) ->
  ll_remove_at p l i = Ok (l', a) -> (forall j, In j ps <-> In j (ptrs es) /\ j <> i) -> clean l' ps.
Proof.
  intros HR HC Hi H Hps.
  assert (K : exists s r, same_but s l l' /\ (forall j, In j s -> In j (ptrs es)) /\ ll_get l' i = Some (mkNode None NULL r)).
  { unfold ll_remove_at in H. destruct (Z.eqb_spec (ll_len l) 0) as [E0|E0].
    { rewrite (lr_len _ _ _ HR) in E0. destruct es; [contradiction Hi|]. rewrite zlen_cons in E0. pose proof (zlen_nonneg es). lia. }
    destruct (Z.eqb_spec (ll_len l) 1) as [E1|E1].
    - rewrite (lr_len _ _ _ HR) in E1. destruct es as [|[k y] [|e es]]; [contradiction Hi| |].
      2:{ rewrite !zlen_cons in E1. pose proof (zlen_nonneg es). lia. }
      destruct Hi as [Hi|[]]. cbn [fst] in Hi. subst k. rewrite (lr_front _ _ _ HR), (lr_rear _ _ _ HR) in H. cbn [ptrs map fst hd last] in H.
      rewrite Z.eqb_refl in H. cbn [negb] in H. apply free_frame in H. destruct H as (_ & S & G & _).
      exists [i]. eexists. split; [exact S|]. split; [|exact G]. intros j [<-|[]]. now left.
    - apply bind_ok in H. destruct H as (nd & E & H). apply at_get in E. destruct E as [Bi E].
      destruct (neighbours l es free i nd HR Hi E) as [NL NR].
      apply bind_ok in H. destruct H as (la & Ea & H). apply bind_ok in H. destruct H as (lb & Eb & H).
      apply bind_ok in H. destruct H as (lc & Ec & H). apply bind_ok in H. destruct H as (ld & Ed & H).
      apply bind_ok in H. destruct H as (len & El & H).
      apply right_frame in Ea. destruct Ea as (_ & Sa & _ & _). apply left_frame in Eb. destruct Eb as (_ & Sb & _ & _).
      assert (Mc : ll_memory lc = ll_memory lb).
      { destruct (i =? ll_front lb); [apply bind_ok in Ec; destruct Ec as (nf & _ & Ec)|]; injection Ec as <-; reflexivity. }
      assert (Md : ll_memory ld = ll_memory lb).
      { rewrite <- Mc. destruct (i =? ll_rear lc); [apply bind_ok in Ed; destruct Ed as (nf & _ & Ed)|]; injection Ed as <-; reflexivity. }
      apply free_frame in H. destruct H as (_ & S & G & _).
      assert (S' : same_but [i] lb l').
      { destruct S as [A B]. cbn [ll_memory] in A. split; [now rewrite A, Md|]. intros j Hj Nj. rewrite (B j Hj Nj). unfold ll_get. cbn [ll_memory]. now rewrite Md. }
      eexists _, _. split; [exact (same_trans _ _ _ _ _ (same_trans _ _ _ _ _ Sa Sb) S')|]. split; [|exact G].
      intros j Hj. cbn [app In] in Hj. destruct Hj as [<-|[<-|[<-|[]]]]; assumption. }
  destruct K as (s & r & [S1 S2] & Hs & G). intros j Hj Nj. destruct (Z.eq_dec j i) as [->|Nji]; [eauto|].
  assert (Nj2 : ~ In j (ptrs es)) by (intros C; apply Nj, Hps; auto).
  rewrite S1 in Hj. destruct (HC j Hj Nj2) as [r' Gr]. exists r'. rewrite <- Gr. apply S2; [lia|]. intros C. apply Nj2, Hs, C.
Qed.
End Handles.
