(** * LinkedList against a sequence with pointers *)
From Coq Require Import ZArith List Bool Lia Permutation.
From Verif Require Import Model.Base Model.LinkedList Proofs.BaseFacts.
Import ListNotations.
Open Scope Z_scope.

Definition upd {A} (f : Z -> A) (i : Z) (v : A) (j : Z) : A := if j =? i then v else f j.
Lemma upd_same {A} (f : Z -> A) i v : upd f i v i = v.
Proof. unfold upd. now rewrite Z.eqb_refl. Qed.
Lemma upd_other {A} (f : Z -> A) i v j : j <> i -> upd f i v j = f j.
Proof. unfold upd. intros H. destruct (Z.eqb_spec j i); congruence. Qed.

Lemma nodup_app_l {A} (a b : list A) : NoDup (a ++ b) -> NoDup a.
Proof. intros H. induction a as [|x a IH]; constructor; inversion H; subst; auto. rewrite in_app_iff in *. tauto. Qed.

(** ** Doubly linked segments and cycles *)
Fixpoint links (L R : Z -> Z) (s : list Z) : Prop :=
  match s with
  | [] => True
  | p :: s' => match s' with [] => True | q :: _ => R p = q /\ L q = p /\ links L R s' end
  end.
Lemma links_cons2 L R p q s : links L R (p :: q :: s) <-> R p = q /\ L q = p /\ links L R (q :: s).
Proof. reflexivity. Qed.
Lemma links_app L R s x t : links L R (s ++ x :: t) <-> links L R (s ++ [x]) /\ links L R (x :: t).
Proof.
  induction s as [|p s IH].
  - cbn [app]. cbn [links]. tauto.
  - destruct s as [|q s]; cbn [app] in *.
    + rewrite !links_cons2. cbn [links]. tauto.
    + rewrite !links_cons2. tauto.
Qed.
Lemma links_ext L R L' R' s : (forall j, In j (tl s) -> L' j = L j) -> (forall j, In j (removelast s) -> R' j = R j) ->
  links L R s -> links L' R' s.
Proof.
  induction s as [|p s IH]; intros HL HR; auto. destruct s as [|q s]; auto.
  rewrite !links_cons2. intros (H1 & H2 & H3).
  split; [|split].
  - rewrite HR; auto. left. reflexivity.
  - rewrite HL; auto. left. reflexivity.
  - apply IH; auto.
    + intros j Hj. apply HL. cbn [tl] in *. right. exact Hj.
    + intros j Hj. apply HR. change (removelast (p :: q :: s)) with (p :: removelast (q :: s)). right. exact Hj.
Qed.

(** A cycle: the last is followed by the first. *)
Definition cycle (L R : Z -> Z) (ps : list Z) : Prop := links L R (ps ++ [hd 0 ps]).
Lemma cycle_rot L R a b : cycle L R (a ++ b) -> cycle L R (b ++ a).
Proof.
  unfold cycle. destruct a as [|x a]; [now rewrite app_nil_r|]. destruct b as [|y b]; [now rewrite app_nil_r|].
  cbn [app hd]. intros H.
  change (x :: (a ++ y :: b) ++ [x]) with ((x :: a ++ y :: b) ++ [x]) in H.
  replace ((x :: a ++ y :: b) ++ [x]) with ((x :: a) ++ y :: (b ++ [x])) in H by (cbn [app]; now rewrite <- app_assoc).
  apply links_app in H. destruct H as [H1 H2].
  replace (y :: (b ++ x :: a) ++ [y]) with ((y :: b) ++ x :: (a ++ [y])) by (cbn [app]; now rewrite <- app_assoc).
  apply links_app. split; [exact H2|exact H1].
Qed.

Lemma removelast_snoc {A} (l : list A) x : removelast (l ++ [x]) = l.
Proof. apply removelast_last. Qed.

Lemma cycle_insert L R u c n v t : cycle L R (u :: c) -> NoDup (u :: c) -> ~ In n (u :: c) -> c ++ [u] = v :: t ->
  cycle (upd (upd L v n) n u) (upd (upd R u n) n v) (u :: n :: c).
Proof.
  unfold cycle. cbn [hd app]. intros H ND Hn E. rewrite E in *.
  assert (NDv : NoDup (v :: t)).
  { rewrite <- E. apply (Permutation_NoDup (l := u :: c)); auto. apply Permutation_cons_append. }
  assert (In_vt : forall j, In j (v :: t) <-> In j (u :: c)).
  { intros j. rewrite <- E, in_app_iff. cbn. tauto. }
  inversion NDv as [|? ? Nv NDt]; subst. inversion ND as [|? ? Nu NDc]; subst.
  assert (Hnv : v <> n) by (intros ->; apply Hn, In_vt; now left).
  assert (Hnu : u <> n) by (intros ->; apply Hn; now left).
  rewrite links_cons2 in H. destruct H as (H1 & H2 & H3).
  rewrite !links_cons2. split; [rewrite upd_other, upd_same; auto|]. split; [apply upd_same|].
  split; [apply upd_same|]. split; [rewrite upd_other, upd_same; auto|].
  eapply links_ext; [| |exact H3].
  - cbn [tl]. intros j Hj. rewrite !upd_other; auto; [intros ->; contradiction|].
    intros ->. apply Hn, In_vt. now right.
  - rewrite <- E, removelast_snoc. intros j Hj. rewrite !upd_other; auto; [intros ->; contradiction|].
    intros ->. apply Hn. now right.
Qed.

Lemma cycle_remove L R i c w r : cycle L R (i :: c) -> NoDup (i :: c) -> c <> [] -> w = last c 0 -> r = hd 0 c ->
  L i = w /\ R i = r /\ cycle (upd L r w) (upd R w r) c.
Proof.
  unfold cycle. cbn [hd app]. intros H ND Hc -> ->.
  destruct c as [|r c]; [congruence|]. cbn [hd]. clear Hc. 
  destruct (exists_last (l := r :: c) ltac:(discriminate)) as (c' & w & E).
  assert (Ew : last (r :: c) 0 = w) by (rewrite E; apply last_last). rewrite Ew. clear Ew. rewrite E in H |- *.
  rewrite <- !app_assoc in *. cbn [app] in *.
  inversion ND as [|? ? _ NDc]; subst. 
  assert (S : links L R (c' ++ [w]) /\ L i = w /\ R w = i).
  { change (i :: c' ++ [w; i]) with ((i :: c') ++ w :: [i]) in H. apply links_app in H. destruct H as [Ha Hb].
    rewrite links_cons2 in Hb. split; [|tauto]. cbn [app] in Ha. destruct (c' ++ [w]); [exact I|]. rewrite links_cons2 in Ha. tauto. }
  destruct S as (S1 & S2 & S3).
  assert (Ri : R i = r).
  { assert (X : c' ++ [w; i] = r :: c ++ [i]) by (change (c' ++ [w; i]) with (c' ++ [w] ++ [i]); rewrite app_assoc, <- E; reflexivity).
    rewrite X in H. now rewrite links_cons2 in H. }
  split; [exact S2|]. split; [exact Ri|].
  apply links_app. split.
  - eapply links_ext; [| |exact S1].
    + rewrite <- E. cbn [tl]. intros j Hj. apply upd_other. intros ->. inversion NDc; contradiction.
    + rewrite removelast_snoc. intros j Hj. apply upd_other. intros ->. rewrite E in NDc. apply NoDup_remove_2 in NDc. rewrite app_nil_r in NDc. contradiction.
  - rewrite links_cons2. split; [apply upd_same|]. split; [apply upd_same|exact I].
Qed.

(** ** Memory as functions *)
Section LinkedList.
Context {T : Type}.
Implicit Types l : llist T.

Definition sees (m : list (node T)) (D : Z -> option T) (L R : Z -> Z) : Prop :=
  forall j, 0 <= j < zlen m -> nth_error m (Z.to_nat j) = Some (mkNode (D j) (L j) (R j)).
Lemma at_spec l D L R i : sees (ll_memory l) D L R -> 0 <= i < zlen (ll_memory l) ->
  ll_at l i = Ok (mkNode (D i) (L i) (R i)).
Proof. intros H Hi. unfold ll_at. rewrite (index_ok _ _ (mkNode None 0 0)) by auto. f_equal. apply nth_error_nth. now apply H. Qed.
Lemma put_spec l D L R i d a b : sees (ll_memory l) D L R -> 0 <= i < zlen (ll_memory l) ->
  exists m, ll_put l i (mkNode d a b) = Ok (set_memory l m) /\ zlen m = zlen (ll_memory l) /\
    sees m (upd D i d) (upd L i a) (upd R i b).
Proof.
  intros H Hi. unfold ll_put. rewrite store_ok by auto. cbn [bind]. eexists. split; [reflexivity|].
  split; [apply zlen_replace_nth|]. intros j Hj. rewrite zlen_replace_nth in Hj.
  destruct (Z.eq_dec j i) as [->|Hne].
  - rewrite !upd_same. apply nth_error_replace_same. unfold zlen in Hi. lia.
  - rewrite !upd_other by auto. rewrite nth_error_replace_other by lia. now apply H.
Qed.
Lemma sees_ext m D L R D' L' R' : sees m D L R -> (forall j, D' j = D j) -> (forall j, L' j = L j) -> (forall j, R' j = R j) -> sees m D' L' R'.
Proof. intros H HD HL HR j Hj. rewrite HD, HL, HR. now apply H. Qed.
Lemma set_left_spec l D L R i v : sees (ll_memory l) D L R -> 0 <= i < zlen (ll_memory l) ->
  exists m, set_left l i v = Ok (set_memory l m) /\ zlen m = zlen (ll_memory l) /\ sees m D (upd L i v) R.
Proof.
  intros H Hi. unfold set_left. rewrite (at_spec l D L R) by auto. cbn [bind nd_data nd_right].
  destruct (put_spec l D L R i (D i) v (R i) H Hi) as (m & E & Z1 & S). exists m. split; [exact E|]. split; [exact Z1|].
  eapply sees_ext; [exact S| | |]; intros j; unfold upd; destruct (Z.eqb_spec j i); congruence.
Qed.
Lemma set_right_spec l D L R i v : sees (ll_memory l) D L R -> 0 <= i < zlen (ll_memory l) ->
  exists m, set_right l i v = Ok (set_memory l m) /\ zlen m = zlen (ll_memory l) /\ sees m D L (upd R i v).
Proof.
  intros H Hi. unfold set_right. rewrite (at_spec l D L R) by auto. cbn [bind nd_data nd_left].
  destruct (put_spec l D L R i (D i) (L i) v H Hi) as (m & E & Z1 & S). exists m. split; [exact E|]. split; [exact Z1|].
  eapply sees_ext; [exact S| | |]; intros j; unfold upd; destruct (Z.eqb_spec j i); congruence.
Qed.

(** ** The free list *)
Fixpoint chain (R : Z -> Z) (pool : Z) (free : list Z) : Prop :=
  match free with
  | [] => pool = NULL
  | f :: free => pool = f /\ chain R (R f) free
  end.
Lemma chain_ext R R' pool free : (forall j, In j free -> R' j = R j) -> chain R pool free -> chain R' pool free.
Proof.
  revert pool; induction free as [|f free IH]; intros pool H; cbn [chain]; auto.
  intros [-> HC]. split; auto. rewrite H by now left. apply IH; auto. intros. apply H. now right.
Qed.

Definition ptrs (es : list (Z * T)) : list Z := map fst es.
Record ll_rep (l : llist T) (es : list (Z * T)) (free : list Z) : Prop := {
  lr_len : ll_len l = zlen es;
  lr_nodup : NoDup (ptrs es ++ free);
  lr_all : forall i, In i (ptrs es ++ free) <-> 0 <= i < zlen (ll_memory l);
  lr_small : zlen (ll_memory l) <= NULL;
  lr_front : ll_front l = hd NULL (ptrs es);
  lr_rear : ll_rear l = last (ptrs es) NULL;
  lr_mem : exists D L R, sees (ll_memory l) D L R /\ cycle L R (ptrs es) /\
    (forall i x, In (i, x) es -> D i = Some x) /\ chain R (ll_pool l) free }.

Lemma rep_size l es free : ll_rep l es free -> zlen (ll_memory l) = zlen es + zlen free.
Proof.
  intros [_ ND HA _ _ _ _].
  assert (P : Permutation (ptrs es ++ free) (range (zlen (ll_memory l)))).
  { apply NoDup_Permutation; auto.
    - unfold range. apply FinFun.Injective_map_NoDup; [intros a b; lia|apply seq_NoDup].
    - intros i. rewrite HA, in_range. reflexivity. }
  apply Permutation_length in P. rewrite app_length, length_range in P. unfold ptrs in P. rewrite map_length in P.
  unfold zlen in *. lia.
Qed.

Lemma new_rep : ll_rep ll_new [] [].
Proof.
  constructor; cbn [ll_new ll_len ll_memory ll_front ll_rear ll_pool ptrs map app]; auto.
  - constructor.
  - intros i. change (zlen (@nil (node T))) with 0. cbn. lia.
  - unfold NULL. change (zlen (@nil (node T))) with 0. lia.
  - exists (fun _ => None), (fun _ => 0), (fun _ => 0). split; [|split; [exact I|split; [intros ? ? []|reflexivity]]].
    intros j Hj. change (zlen (@nil (node T))) with 0 in Hj. lia.
Qed.

(** ** Allocation *)
Lemma allocate_spec l es free x D L R :
  ll_rep l es free -> zlen es < NULL -> sees (ll_memory l) D L R -> chain R (ll_pool l) free ->
  exists n m pool free', ll_allocate l x = Ok (mkLL m (ll_front l) (ll_rear l) pool (ll_len l), n) /\
    zlen m = Z.max (zlen (ll_memory l)) (zlen es + 1) /\ zlen m <= NULL /\
    ~ In n (ptrs es) /\ ~ In n free' /\ NoDup (ptrs es ++ free') /\
    (forall i, In i (ptrs es ++ n :: free') <-> 0 <= i < zlen m) /\
    sees m (upd D n (Some x)) (upd L n NULL) (upd R n NULL) /\ chain R pool free'.
Proof.
  intros HR Hes HS HC. pose proof (rep_size l es free HR) as SZ. destruct HR as [HL ND HA Hsm _ _ _].
  unfold ll_allocate. destruct free as [|f free]; cbn [chain] in HC.
  - rewrite HC, Z.eqb_refl. change (zlen (@nil Z)) with 0 in SZ. rewrite app_nil_r in ND.
    set (m := ll_memory l ++ [mkNode (Some x) NULL NULL]).
    assert (Zm : zlen m = zlen es + 1) by (subst m; rewrite zlen_app; change (zlen [mkNode (Some x) NULL NULL]) with 1; lia).
    pose proof (zlen_nonneg es).
    exists (zlen es), m, NULL, []. rewrite (uwrap_small 32) by (unfold NULL in *; lia).
    replace (zlen m - 1) with (zlen es) by lia.
    assert (NI : ~ In (zlen es) (ptrs es)).
    { intros Hin. assert (In (zlen es) (ptrs es ++ [])) as Hin2 by (apply in_or_app; auto). apply HA in Hin2. lia. }
    split; [unfold set_memory; now rewrite HC|]. split; [lia|]. split; [lia|]. split; [exact NI|]. split; [auto|].
    split; [now rewrite app_nil_r|]. split; [|split; [|reflexivity]].
    + intros i. rewrite in_app_iff. cbn [In]. specialize (HA i). rewrite app_nil_r in HA. rewrite HA. lia.
    + intros j Hj. destruct (Z.eq_dec j (zlen es)) as [->|Hne].
      * rewrite !upd_same. subst m. rewrite nth_error_app2 by (unfold zlen in *; lia).
        replace (Z.to_nat (zlen es) - length (ll_memory l))%nat with 0%nat by (unfold zlen in *; lia). reflexivity.
      * rewrite !upd_other by auto. subst m. rewrite nth_error_app1 by (unfold zlen in *; lia). apply HS. lia.
  - destruct HC as [Hp HC]. rewrite Hp.
    assert (Hf : 0 <= f < zlen (ll_memory l)) by (apply HA, in_or_app; right; now left).
    destruct (Z.eqb_spec f NULL) as [|_]; [lia|].
    rewrite (at_spec l D L R) by auto. cbn [bind nd_right].
    set (l1 := mkLL (ll_memory l) (ll_front l) (ll_rear l) (R f) (ll_len l)).
    destruct (put_spec l1 D L R f (Some x) NULL NULL HS Hf) as (m & -> & Zm & Sm). cbn [bind].
    exists f, m, (R f), free. cbn [ll_memory l1] in Zm. split; [reflexivity|].
    rewrite zlen_cons in SZ. pose proof (zlen_nonneg free).
    split; [lia|]. split; [lia|].
    pose proof (NoDup_remove_1 _ _ _ ND) as ND1. pose proof (NoDup_remove_2 _ _ _ ND) as ND2. rewrite in_app_iff in ND2.
    split; [tauto|]. split; [tauto|]. split; [exact ND1|]. split; [|split; [exact Sm|]].
    + intros i. rewrite Zm. apply HA.
    + exact HC.
Qed.

(** ** Insertion *)
Lemma insert_empty_spec p l free i d x : ll_rep l [] free ->
  exists l' n free', ll_insert_at p l i d x = Ok l' /\ ll_rep l' [(n, x)] free' /\
    zlen (ll_memory l') = Z.max (zlen (ll_memory l)) 1.
Proof.
  intros HR. pose proof HR as [HL ND HA Hsm HF HRr (D & L & R & HS & HCy & HD & HCh)].
  unfold ll_insert_at. rewrite HL. change (zlen (@nil (Z * T))) with 0. cbn [Z.eqb].
  destruct (allocate_spec l [] free x D L R HR ltac:(change (zlen (@nil (Z * T))) with 0; unfold NULL; lia) HS HCh)
    as (n & m & pool & free' & -> & Zm & Sm & N1 & N2 & ND' & HA' & HS' & HC').
  cbn [bind]. set (l1 := mkLL m (ll_front l) (ll_rear l) pool (ll_len l)).
  change (zlen (@nil (Z * T))) with 0 in *. cbn [ptrs map app In] in *.
  assert (Hn : 0 <= n < zlen m) by (apply HA'; auto).
  rewrite (at_spec l1 _ _ _ n HS') by auto. cbn [bind nd_data].
  destruct (put_spec l1 _ _ _ n (upd D n (Some x) n) n n HS' Hn) as (m2 & -> & Zm2 & HS2). cbn [bind].
  cbn [set_memory ll_len ll_memory ll_pool l1]. rewrite HL. change (zlen (@nil (Z * T))) with 0. 
  rewrite uchk_ok by lia. cbn [bind]. eexists _, n, free'. split; [reflexivity|].
  cbn [ll_memory l1] in *. split; [|cbn [ll_memory]; lia].
  constructor; cbn [ll_len ll_memory ll_front ll_rear ll_pool ptrs map fst app hd last]; auto.
  - constructor; auto.
  - intros j. rewrite Zm2. apply HA'.
  - rewrite Zm2. exact Sm.
  - eexists _, _, _. split; [exact HS2|]. split; [|split].
    + unfold cycle. cbn [app hd links]. rewrite !upd_same. auto.
    + intros j y [E|[]]. injection E as <- <-. now rewrite !upd_same.
    + eapply chain_ext; [|exact HC']. intros j Hj. rewrite !upd_other; auto; intros ->; contradiction.
Qed.

Lemma last_app_cons {A} (a b : list A) x d : last (a ++ x :: b) d = last (x :: b) d.
Proof. induction a as [|y a IH]; auto. cbn [app]. rewrite <- IH. destruct a; reflexivity. Qed.
Lemma last_in {A} (l : list A) d : l <> [] -> In (last l d) l.
Proof. destruct l as [|x l]; [congruence|]. intros _. revert x; induction l as [|y l IH]; intros x; [now left|]. right. apply IH. Qed.
Lemma last_indep {A} (l : list A) d d' : l <> [] -> last l d = last l d'.
Proof. destruct l as [|x l]; [congruence|]. intros _. revert x; induction l as [|y l IH]; intros x; [reflexivity|]. apply IH. Qed.

Lemma insert_spec p l a i y b free d x : ll_rep l (a ++ (i, y) :: b) free -> zlen (a ++ (i, y) :: b) < NULL ->
  exists l' n free', ll_insert_at p l i d x = Ok l' /\ ~ In n (ptrs (a ++ (i, y) :: b)) /\
    ll_rep l' (match d with DLeft => a ++ (n, x) :: (i, y) :: b | DRight => a ++ (i, y) :: (n, x) :: b end) free' /\
    zlen (ll_memory l') = Z.max (zlen (ll_memory l)) (zlen (a ++ (i, y) :: b) + 1).
Proof.
  intros HR Hlen. set (es := a ++ (i, y) :: b) in *.
  pose proof HR as [HL ND HA Hsm HF HRr (D & L & R & HS & HCy & HD & HCh)].
  assert (Hpos : 0 < zlen es) by (subst es; rewrite zlen_app, zlen_cons; pose proof (zlen_nonneg a); pose proof (zlen_nonneg b); lia).
  unfold ll_insert_at. rewrite HL. destruct (Z.eqb_spec (zlen es) 0) as [|_]; [lia|].
  assert (Hi : In i (ptrs es)) by (subst es; unfold ptrs; rewrite map_app; apply in_or_app; right; now left).
  assert (Hir : 0 <= i < zlen (ll_memory l)) by (apply HA, in_or_app; auto).
  destruct (Z.eqb_spec i NULL) as [|_]; [lia|].
  destruct (allocate_spec l es free x D L R HR Hlen HS HCh)
    as (n & m & pool & free' & -> & Zm & Sm & N1 & N2 & ND' & HA' & HS1 & HC').
  cbn [bind]. set (l1 := mkLL m (ll_front l) (ll_rear l) pool (ll_len l)).
  assert (Rng : forall j, In j (ptrs es) -> 0 <= j < zlen m) by (intros j Hj; apply HA', in_or_app; auto).
  assert (Hn : 0 <= n < zlen m) by (apply HA', in_or_app; right; now left).
  set (D1 := upd D n (Some x)) in *. set (L1 := upd L n NULL) in *. set (R1 := upd R n NULL) in *.
  pose proof (nodup_app_l _ _ ND') as NDe.
  assert (C1 : cycle L1 R1 (ptrs es)).
  { unfold cycle in *. eapply links_ext; [| |exact HCy].
    - intros j Hj. apply upd_other. intros ->. apply N1. 
      destruct (ptrs es) as [|e0 es0] eqn:Ee; [destruct Hi|]. cbn [app tl hd] in Hj. apply in_app_iff in Hj. destruct Hj as [Hj|[<-|[]]]; [now right|now left].
    - rewrite removelast_snoc. intros j Hj. apply upd_other. intros ->. contradiction. }
  set (pa := ptrs a). set (pb := ptrs b).
  assert (Ep : ptrs es = pa ++ i :: pb) by (subst es pa pb; unfold ptrs; now rewrite map_app).
  assert (C2 : cycle L1 R1 (i :: pb ++ pa)).
  { rewrite Ep in C1. apply (cycle_rot _ _ pa (i :: pb)) in C1. exact C1. }
  assert (Pm : Permutation (i :: pb ++ pa) (ptrs es)) by (rewrite Ep; change (i :: pb ++ pa) with ((i :: pb) ++ pa); apply Permutation_app_comm).
  assert (NDc : NoDup (i :: pb ++ pa)) by (eapply Permutation_NoDup; [apply Permutation_sym, Pm|auto]).
  (* the pair the new node goes between *)
  assert (G : exists adj u v q t, get_child d (mkNode (D1 i) (L1 i) (R1 i)) = adj /\
     (match d with DRight => u = i /\ v = adj | DLeft => u = adj /\ v = i end) /\
     In adj (ptrs es) /\ cycle L1 R1 (u :: q) /\ Permutation (u :: q) (ptrs es) /\ q ++ [u] = v :: t /\
     (forall L' R', cycle L' R' (u :: n :: q) ->
        cycle L' R' (match d with DLeft => pa ++ n :: i :: pb | DRight => pa ++ i :: n :: pb end))).
  { destruct d; cbn [get_child nd_left nd_right].
    - destruct (exists_last (l := i :: pb ++ pa) ltac:(discriminate)) as (q & u & Eq).
      rewrite Eq in C2, Pm, NDc. apply cycle_rot in C2. cbn [app] in C2.
      assert (Pu : Permutation (u :: q) (ptrs es)) by (eapply Permutation_trans; [apply Permutation_cons_append|exact Pm]).
      assert (EL : L1 i = u).
      { unfold cycle in C2. cbn [hd app] in C2. rewrite <- Eq in C2. rewrite links_cons2 in C2. tauto. }
      exists u, u, i, q, (pb ++ pa). rewrite EL. split; [reflexivity|]. split; [auto|].
      split; [eapply Permutation_in; [exact Pu|now left]|]. split; [exact C2|]. split; [exact Pu|].
      split; [now rewrite <- Eq|]. intros L' R' H. apply (cycle_rot _ _ [u] (n :: q)) in H. cbn [app] in H.
      rewrite <- Eq in H. apply (cycle_rot _ _ (n :: i :: pb) pa) in H. exact H.
    - destruct ((pb ++ pa) ++ [i]) as [|v t] eqn:Ev; [destruct (pb ++ pa); discriminate|].
      assert (ER : R1 i = v).
      { unfold cycle in C2. cbn [hd app] in C2. rewrite Ev in C2. rewrite links_cons2 in C2. tauto. }
      exists v, i, v, (pb ++ pa), t. rewrite ER. split; [reflexivity|]. split; [auto|].
      split; [|split; [exact C2|split; [exact Pm|split; [exact Ev|]]]].
      + eapply Permutation_in; [exact Pm|]. assert (In v ((pb ++ pa) ++ [i])) as Hv by (rewrite Ev; now left).
        apply in_app_iff in Hv. destruct Hv as [Hv|[<-|[]]]; [now right|now left].
      + intros L' R' H. apply (cycle_rot _ _ (i :: n :: pb) pa). exact H. }
  destruct G as (adj & u & v & q & t & Eadj & Huv & Hadj & Cu & Pu & Eqt & Back).
  assert (Hu : In u (ptrs es)) by (eapply Permutation_in; [exact Pu|now left]).
  assert (NDu : NoDup (u :: q)) by (eapply Permutation_NoDup; [apply Permutation_sym, Pu|auto]).
  assert (Nu : ~ In n (u :: q)) by (intros H; apply N1; eapply Permutation_in; [exact Pu|exact H]).
  pose proof (Back _ _ (cycle_insert L1 R1 u q n v t Cu NDu Nu Eqt)) as Cnew.
  rewrite (at_spec l1 D1 L1 R1 i HS1) by (apply Rng; auto). cbn [bind]. rewrite Eadj.
  assert (M : exists m', (l2 <- set_child d l1 i n ;; l2 <- set_child (opposite d) l2 adj n ;; l2 <- set_child (opposite d) l2 n i ;; set_child d l2 n adj)
     = Ok (set_memory l1 m') /\ zlen m' = zlen m /\ sees m' D1 (upd (upd L1 v n) n u) (upd (upd R1 u n) n v)).
  { destruct d; destruct Huv as [-> ->]; cbn [opposite set_child].
    - destruct (set_left_spec l1 D1 L1 R1 i n HS1 ltac:(apply Rng; auto)) as (m2 & -> & Z2 & S2). cbn [bind].
      destruct (set_right_spec (set_memory l1 m2) D1 _ R1 adj n S2) as (m3 & -> & Z3 & S3); [cbn [set_memory ll_memory l1] in *; rewrite Z2; apply Rng; auto|]. cbn [bind].
      destruct (set_right_spec (set_memory (set_memory l1 m2) m3) D1 _ _ n i S3) as (m4 & -> & Z4 & S4); [cbn [set_memory ll_memory l1] in *; lia|]. cbn [bind].
      destruct (set_left_spec (set_memory (set_memory (set_memory l1 m2) m3) m4) D1 _ _ n adj S4) as (m5 & -> & Z5 & S5); [cbn [set_memory ll_memory l1] in *; lia|].
      exists m5. cbn [set_memory ll_memory l1] in *. split; [reflexivity|]. split; [lia|exact S5].
    - destruct (set_right_spec l1 D1 L1 R1 i n HS1 ltac:(apply Rng; auto)) as (m2 & -> & Z2 & S2). cbn [bind].
      destruct (set_left_spec (set_memory l1 m2) D1 L1 _ adj n S2) as (m3 & -> & Z3 & S3); [cbn [set_memory ll_memory l1] in *; rewrite Z2; apply Rng; auto|]. cbn [bind].
      destruct (set_left_spec (set_memory (set_memory l1 m2) m3) D1 _ _ n i S3) as (m4 & -> & Z4 & S4); [cbn [set_memory ll_memory l1] in *; lia|]. cbn [bind].
      destruct (set_right_spec (set_memory (set_memory (set_memory l1 m2) m3) m4) D1 _ _ n adj S4) as (m5 & -> & Z5 & S5); [cbn [set_memory ll_memory l1] in *; lia|].
      exists m5. cbn [set_memory ll_memory l1] in *. split; [reflexivity|]. split; [lia|exact S5]. }
  destruct M as (m' & EM & Zm' & SM).
  match goal with |- context[bind (set_child d l1 i n) ?k] => 
    assert (E : bind (set_child d l1 i n) k = bind (Ok (set_memory l1 m')) (fun l2 =>
       len <- uchk p 32 (ll_len l2 + 1) ;;
       let l3 := match d with
             | DLeft => if i =? ll_front l2 then mkLL (ll_memory l2) n (ll_rear l2) (ll_pool l2) (ll_len l2) else l2
             | DRight => if i =? ll_rear l2 then mkLL (ll_memory l2) (ll_front l2) n (ll_pool l2) (ll_len l2) else l2
             end in Ok (mkLL (ll_memory l3) (ll_front l3) (ll_rear l3) (ll_pool l3) len))) end.
  { rewrite <- EM. destruct (set_child d l1 i n); cbn [bind]; auto.
    destruct (set_child (opposite d) a0 adj n); cbn [bind]; auto.
    destruct (set_child (opposite d) a1 n i); cbn [bind]; auto.
    destruct (set_child d a2 n adj); cbn [bind]; auto.
    destruct d; [destruct (i =? ll_front a3)|destruct (i =? ll_rear a3)]; reflexivity. }
  rewrite E. clear E EM. cbn [bind set_memory l1 ll_memory ll_front ll_rear ll_pool ll_len].
  rewrite HL, uchk_ok by (unfold NULL in *; lia). cbn [bind].
  set (fr' := match d with DLeft => if i =? ll_front l then n else ll_front l | DRight => ll_front l end).
  set (re' := match d with DLeft => ll_rear l | DRight => if i =? ll_rear l then n else ll_rear l end).
  exists (mkLL m' fr' re' pool (zlen es + 1)), n, free'.
  split; [subst fr' re'; destruct d; [destruct (i =? ll_front l)|destruct (i =? ll_rear l)]; reflexivity|].
  split; [exact N1|]. split; [|cbn [ll_memory]; lia].
  set (es' := match d with DLeft => _ | DRight => _ end).
  assert (Ep' : ptrs es' = match d with DLeft => pa ++ n :: i :: pb | DRight => pa ++ i :: n :: pb end).
  { subst es' pa pb. unfold ptrs. destruct d; now rewrite map_app. }
  assert (Pe : Permutation (ptrs es') (n :: ptrs es)).
  { rewrite Ep, Ep'. destruct d.
    - apply Permutation_sym, Permutation_middle.
    - change (i :: n :: pb) with ([i] ++ n :: pb). change (i :: pb) with ([i] ++ pb). rewrite !app_assoc. apply Permutation_sym, Permutation_middle. }
  constructor; cbn [ll_len ll_memory ll_front ll_rear ll_pool].
  - apply Permutation_length in Pe. cbn [length] in Pe. unfold ptrs in Pe. rewrite !map_length in Pe. unfold zlen. lia.
  - eapply Permutation_NoDup; [apply Permutation_app_tail, Permutation_sym, Pe|]. cbn [app]. constructor; auto. rewrite in_app_iff. tauto.
  - intros j. rewrite Zm', <- HA', !in_app_iff. cbn [In].
    split; intros [H|H]; auto.
    + eapply Permutation_in in H; [|exact Pe]. destruct H as [->|H]; auto.
    + left. eapply Permutation_in; [apply Permutation_sym, Pe|]. now right.
    + destruct H as [->|H]; auto. left. eapply Permutation_in; [apply Permutation_sym, Pe|]. now left.
  - lia.
  - rewrite Ep'. subst fr'. rewrite HF, Ep. destruct d; destruct pa as [|p0 pa0] eqn:Epa; cbn [app hd]; auto.
    + now rewrite Z.eqb_refl.
    + destruct (Z.eqb_spec i p0) as [->|]; auto. exfalso. rewrite Ep in NDe. inversion NDe as [|? ? Hni _]; subst. apply Hni, in_or_app. right. now left.
  - rewrite Ep'. subst re'. rewrite HRr, Ep. destruct d; rewrite !last_app_cons; auto.
    destruct pb as [|p0 pb0]; [cbn [last]; now rewrite Z.eqb_refl|].
    change (last (i :: n :: p0 :: pb0) NULL) with (last (p0 :: pb0) NULL). change (last (i :: p0 :: pb0) NULL) with (last (p0 :: pb0) NULL).
    destruct (Z.eqb_spec i (last (p0 :: pb0) NULL)) as [Ei|]; auto.
    exfalso. rewrite Ep in NDe. apply NoDup_remove_2 in NDe. apply NDe, in_or_app. right. rewrite Ei. apply last_in. discriminate.
  - eexists D1, _, _. split; [exact SM|]. split; [|split].
    + rewrite Ep'. exact Cnew.
    + intros j z Hj. assert (In (j, z) es \/ (j, z) = (n, x)) as [Hin|Ejz].
      { subst es' es. clear -Hj. destruct d; rewrite in_app_iff in Hj; cbn [In] in Hj; rewrite in_app_iff; cbn [In]; intuition. }
      * subst D1. rewrite upd_other; auto. intros ->. apply N1. unfold ptrs. change n with (fst (n, z)). now apply in_map.
      * injection Ejz as -> ->. apply upd_same.
    + eapply chain_ext; [|exact HC']. intros j Hj. subst R1. rewrite !upd_other; auto; intros ->; try contradiction.
      clear - ND' Hu Hj. apply in_split in Hu. destruct Hu as (s & w & Es). rewrite Es, <- app_assoc in ND'. cbn [app] in ND'. apply NoDup_remove_2 in ND'. apply ND'. rewrite !in_app_iff. auto.
Qed.

(** ** Removal *)
Lemma free_spec l D L R i : sees (ll_memory l) D L R -> 0 <= i < zlen (ll_memory l) ->
  exists m, ll_free l i = Ok (mkLL m (ll_front l) (ll_rear l) i (ll_len l), D i) /\ zlen m = zlen (ll_memory l) /\
    sees m (upd D i None) (upd L i NULL) (upd R i (ll_pool l)).
Proof.
  intros H Hi. unfold ll_free. rewrite (at_spec l D L R) by auto. cbn [bind nd_data].
  destruct (put_spec l D L R i None NULL (ll_pool l) H Hi) as (m & -> & Zm & S). cbn [bind].
  exists m. cbn [set_memory ll_memory ll_front ll_rear ll_len]. auto.
Qed.

(** The only entry: whatever pointer is given. *)
Lemma remove_single_spec p l i y free j : ll_rep l [(i, y)] free ->
  exists l', ll_remove_at p l j = Ok (l', Some y) /\ ll_rep l' [] (i :: free) /\ zlen (ll_memory l') = zlen (ll_memory l).
Proof.
  intros [HL ND HA Hsm HF HRr (D & L & R & HS & HCy & HD & HCh)]. unfold ll_remove_at. rewrite HL.
  change (zlen [(i, y)]) with 1. cbn [Z.eqb Pos.eqb]. cbn [ptrs map fst app hd last] in *. rewrite HF, HRr, Z.eqb_refl. cbn [negb].
  assert (Hi : 0 <= i < zlen (ll_memory l)) by (apply HA; now left).
  destruct (free_spec (mkLL (ll_memory l) NULL NULL (ll_pool l) 0) D L R i HS Hi) as (m & -> & Zm & S).
  cbn [ll_memory ll_front ll_rear ll_len ll_pool] in *. rewrite (HD i y) by now left.
  eexists. split; [reflexivity|]. split; [|exact Zm]. inversion ND as [|? ? Ni NDf]; subst.
  constructor; cbn [ll_memory ll_front ll_rear ll_len ll_pool ptrs map app hd last]; auto.
  - intros k. now rewrite Zm, <- HA.
  - lia.
  - eexists _, _, _. split; [exact S|]. split; [exact I|]. split; [intros ? ? []|].
    cbn [chain]. split; [reflexivity|]. rewrite upd_same. eapply chain_ext; [|exact HCh].
    intros k Hk. apply upd_other. intros ->. contradiction.
Qed.

Lemma remove_many_spec p l a i y b free : ll_rep l (a ++ (i, y) :: b) free -> a ++ b <> [] -> zlen (a ++ b) < NULL ->
  exists l', ll_remove_at p l i = Ok (l', Some y) /\ ll_rep l' (a ++ b) (i :: free) /\ zlen (ll_memory l') = zlen (ll_memory l).
Proof.
  intros HR Hab Hsz. set (es := a ++ (i, y) :: b) in *.
  pose proof HR as [HL ND HA Hsm HF HRr (D & L & R & HS & HCy & HD & HCh)].
  assert (Hlen : zlen es = zlen (a ++ b) + 1) by (subst es; rewrite !zlen_app, zlen_cons; lia).
  assert (Hpos : 0 < zlen (a ++ b)) by (destruct (a ++ b) as [|e0 r0]; [congruence|rewrite zlen_cons; pose proof (zlen_nonneg r0); lia]).
  set (pa := ptrs a). set (pb := ptrs b).
  assert (Ep : ptrs es = pa ++ i :: pb) by (subst es pa pb; unfold ptrs; now rewrite map_app).
  assert (Ep' : ptrs (a ++ b) = pa ++ pb) by (subst pa pb; unfold ptrs; now rewrite map_app).
  pose proof (nodup_app_l _ _ ND) as NDe. rewrite Ep in NDe.
  assert (C2 : cycle L R (i :: pb ++ pa)) by (rewrite Ep in HCy; apply (cycle_rot _ _ pa (i :: pb)) in HCy; exact HCy).
  assert (NDc : NoDup (i :: pb ++ pa)).
  { eapply Permutation_NoDup; [|exact NDe]. change (i :: pb ++ pa) with ((i :: pb) ++ pa). apply Permutation_app_comm. }
  assert (Hc : pb ++ pa <> []).
  { intros X. apply app_eq_nil in X. destruct X as [X1 X2]. apply Hab. subst pa pb. unfold ptrs in *. apply map_eq_nil in X1, X2. now subst. }
  destruct (cycle_remove L R i (pb ++ pa) _ _ C2 NDc Hc eq_refl eq_refl) as (EL & ER & C3).
  set (w := last (pb ++ pa) 0) in *. set (r := hd 0 (pb ++ pa)) in *.
  assert (Rng : forall j, In j (ptrs es) -> 0 <= j < zlen (ll_memory l)) by (intros j Hj; apply HA, in_or_app; auto).
  assert (Hin : forall j, In j (pb ++ pa) -> In j (ptrs es)) by (intros j; rewrite Ep, !in_app_iff; cbn; tauto).
  assert (Hw : In w (pb ++ pa)) by (apply last_in; auto).
  assert (Hr : In r (pb ++ pa)) by (subst r; destruct (pb ++ pa); [congruence|now left]).
  assert (Hi : In i (ptrs es)) by (rewrite Ep; apply in_or_app; right; now left).
  inversion NDc as [|? ? Ni NDpp]; subst.
  assert (Hiw : i <> w) by (intros ->; contradiction). assert (Hirr : i <> r) by (intros ->; contradiction).
  unfold ll_remove_at. rewrite HL. destruct (Z.eqb_spec (zlen es) 0); [lia|]. destruct (Z.eqb_spec (zlen es) 1); [lia|].
  rewrite (at_spec l D L R i HS) by auto. cbn [bind nd_left nd_right]. rewrite EL, ER.
  destruct (set_right_spec l D L R w r HS ltac:(auto)) as (m2 & -> & Z2 & S2). cbn [bind].
  destruct (set_left_spec (set_memory l m2) D L _ r w S2) as (m3 & -> & Z3 & S3); [cbn [set_memory ll_memory]; rewrite Z2; auto|]. cbn [bind].
  cbn [set_memory ll_memory ll_front ll_rear ll_pool ll_len] in S2, S3, Z2, Z3.
  change (set_memory (set_memory l m2) m3) with (mkLL m3 (ll_front l) (ll_rear l) (ll_pool l) (ll_len l)).
  set (l3 := mkLL m3 (ll_front l) (ll_rear l) (ll_pool l) (ll_len l)).
  set (fr' := if i =? ll_front l then r else ll_front l). set (re' := if i =? ll_rear l then w else ll_rear l).
  assert (Hir : 0 <= i < zlen m3) by (rewrite Z3, Z2; auto).
  assert (E1 : (if i =? ll_front l3 then f <- ll_at l3 (ll_front l3);; Ok (mkLL (ll_memory l3) (nd_right f) (ll_rear l3) (ll_pool l3) (ll_len l3)) else Ok l3)
    = Ok (mkLL m3 fr' (ll_rear l) (ll_pool l) (ll_len l))).
  { subst fr'. cbn [l3 ll_front]. destruct (Z.eqb_spec i (ll_front l)) as [Ei|]; [|reflexivity].
    rewrite <- Ei. rewrite (at_spec l3 D _ _ i S3) by auto. cbn [bind nd_right]. rewrite upd_other by auto. now rewrite ER. }
  rewrite E1. cbn [bind]. change (ll_rear (mkLL m3 fr' (ll_rear l) (ll_pool l) (ll_len l))) with (ll_rear l).
  assert (E2 : (if i =? ll_rear l then r0 <- ll_at (mkLL m3 fr' (ll_rear l) (ll_pool l) (ll_len l)) (ll_rear l);; Ok (mkLL (ll_memory (mkLL m3 fr' (ll_rear l) (ll_pool l) (ll_len l))) (ll_front (mkLL m3 fr' (ll_rear l) (ll_pool l) (ll_len l))) (nd_left r0) (ll_pool (mkLL m3 fr' (ll_rear l) (ll_pool l) (ll_len l))) (ll_len (mkLL m3 fr' (ll_rear l) (ll_pool l) (ll_len l)))) else Ok (mkLL m3 fr' (ll_rear l) (ll_pool l) (ll_len l)))
    = Ok (mkLL m3 fr' re' (ll_pool l) (ll_len l))).
  { subst re'. destruct (Z.eqb_spec i (ll_rear l)) as [Ei|]; [|reflexivity].
    rewrite <- Ei. rewrite (at_spec (mkLL m3 fr' i (ll_pool l) (ll_len l)) D _ _ i S3) by auto. cbn [bind nd_left]. rewrite upd_other by auto. now rewrite EL. }
  rewrite E2. cbn [bind ll_len ll_memory ll_front ll_rear ll_pool]. rewrite HL, uchk_ok by (unfold NULL in *; lia). cbn [bind].
  replace (zlen es - 1) with (zlen (a ++ b)) by lia.
  destruct (free_spec (mkLL m3 fr' re' (ll_pool l) (zlen (a ++ b))) D _ _ i S3 Hir) as (m4 & -> & Z4 & S4).
  cbn [ll_memory ll_front ll_rear ll_len ll_pool] in *.
  rewrite (HD i y) by (subst es; apply in_or_app; right; now left).
  eexists. split; [reflexivity|]. cbn [ll_memory]. split; [|lia].
  assert (P : Permutation ((pa ++ pb) ++ i :: free) ((pa ++ i :: pb) ++ free)).
  { rewrite <- !app_assoc. apply Permutation_app_head. cbn [app]. apply Permutation_sym, Permutation_middle. }
  rewrite Ep in ND.
  constructor; cbn [ll_memory ll_front ll_rear ll_len ll_pool]; auto.
  - rewrite Ep'. eapply Permutation_NoDup; [apply Permutation_sym, P|exact ND].
  - intros j. rewrite Ep', Z4, Z3, Z2, <- HA, Ep. split; intros X; (eapply Permutation_in; [|exact X]); [exact P|apply Permutation_sym, P].
  - lia.
  - rewrite Ep'. subst fr'. rewrite HF, Ep. destruct pa as [|p0 pa0] eqn:Epa; cbn [app hd].
    + rewrite Z.eqb_refl. subst r. rewrite app_nil_r in *. destruct pb; [congruence|reflexivity].
    + destruct (Z.eqb_spec i p0) as [->|]; auto. exfalso. inversion NDe as [|? ? Hni _]; subst. apply Hni, in_or_app. right. now left.
  - rewrite Ep'. subst re'. rewrite HRr, Ep, last_app_cons. destruct pb as [|p0 pb0] eqn:Epb.
    + cbn [last]. rewrite Z.eqb_refl. subst w. cbn [app] in *. rewrite app_nil_r. apply last_indep. auto.
    + change (last (i :: p0 :: pb0) NULL) with (last (p0 :: pb0) NULL). rewrite last_app_cons.
      destruct (Z.eqb_spec i (last (p0 :: pb0) NULL)) as [Ei|]; auto.
      exfalso. apply NoDup_remove_2 in NDe. apply NDe, in_or_app. right. rewrite Ei. apply last_in. discriminate.
  - eexists _, _, _. split; [exact S4|]. split; [|split].
    + rewrite Ep'. apply cycle_rot. unfold cycle in *. eapply links_ext; [| |exact C3].
      * intros j Hj. apply upd_other. intros ->. apply Ni. destruct (pb ++ pa) as [|x0 c0] eqn:Ec; [congruence|]. cbn [app tl hd] in Hj.
        apply in_app_iff in Hj. destruct Hj as [Hj|[<-|[]]]; [now right|now left].
      * rewrite removelast_snoc. intros j Hj. apply upd_other. intros ->. contradiction.
    + intros j z Hj. rewrite upd_other.
      * apply HD. subst es. apply in_app_iff in Hj. apply in_or_app. cbn [In]. tauto.
      * intros ->. apply NoDup_remove_2 in NDe. apply NDe. rewrite <- Ep'. unfold ptrs. change i with (fst (i, z)). now apply in_map.
    + cbn [chain]. split; [reflexivity|]. rewrite upd_same. eapply chain_ext; [|exact HCh].
      assert (Nf : forall j, In j free -> ~ In j (pa ++ i :: pb)).
      { intros j Hj Hq. apply in_split in Hq. destruct Hq as (s1 & s2 & Es). rewrite Es, <- app_assoc in ND. cbn [app] in ND. apply NoDup_remove_2 in ND. apply ND. rewrite !in_app_iff. auto. }
      intros j Hj. specialize (Nf j Hj). rewrite in_app_iff in Nf. cbn [In] in Nf. rewrite in_app_iff in Hw. rewrite !upd_other; auto; intros ->; tauto.
Qed.
Lemma remove_spec p l a i y b free : ll_rep l (a ++ (i, y) :: b) free ->
  exists l', ll_remove_at p l i = Ok (l', Some y) /\ ll_rep l' (a ++ b) (i :: free) /\ zlen (ll_memory l') = zlen (ll_memory l).
Proof.
  intros HR. pose proof (rep_size _ _ _ HR) as SZ. pose proof (lr_small _ _ _ HR).
  rewrite zlen_app, zlen_cons in SZ. pose proof (zlen_nonneg free).
  assert (zlen (a ++ b) < NULL) by (rewrite zlen_app; lia).
  destruct a as [|e a0]; [destruct b as [|e b0]|].
  - now apply remove_single_spec.
  - apply remove_many_spec; auto. discriminate.
  - apply remove_many_spec; auto. discriminate.
Qed.
Lemma remove_empty_spec p l free i : ll_rep l [] free -> ll_remove_at p l i = Ok (l, None).
Proof. intros [HL _ _ _ _ _ _]. unfold ll_remove_at. rewrite HL. reflexivity. Qed.

(** ** Reading *)
Lemma walk_links l D L R s x : sees (ll_memory l) D L R -> links L R (s ++ [x]) -> Forall (fun j => 0 <= j < zlen (ll_memory l)) s ->
  ll_walk l (length s) (hd x s) = Ok s.
Proof.
  intros HS. induction s as [|i s IH]; intros HL HF; [reflexivity|]. inversion HF as [|? ? Hi HF']; subst.
  cbn [length ll_walk hd]. rewrite (at_spec l D L R i HS Hi). cbn [bind nd_right].
  assert (E : R i = hd x s) by (destruct s as [|q s]; cbn [app hd] in *; rewrite links_cons2 in HL; tauto).
  rewrite E, IH; auto. destruct s as [|q s]; cbn [app] in *; [exact I|]. rewrite links_cons2 in HL. tauto.
Qed.
Lemma rep_entry l es free i x : ll_rep l es free -> In (i, x) es ->
  exists nd, ll_at l i = Ok nd /\ nd_data nd = Some x.
Proof.
  intros [HL ND HA Hsm HF HRr (D & L & R & HS & HCy & HD & HCh)] Hin.
  assert (0 <= i < zlen (ll_memory l)) by (apply HA, in_or_app; left; unfold ptrs; change i with (fst (i, x)); now apply in_map).
  rewrite (at_spec l D L R i HS) by auto. eexists. split; [reflexivity|]. cbn [nd_data]. now apply HD.
Qed.
Lemma rep_walk l es free : ll_rep l es free -> ll_walk l (Z.to_nat (ll_len l)) (ll_front l) = Ok (ptrs es).
Proof.
  intros [HL ND HA Hsm HF HRr (D & L & R & HS & HCy & HD & HCh)].
  rewrite HL, HF. replace (Z.to_nat (zlen es)) with (length (ptrs es)) by (unfold ptrs, zlen; rewrite map_length; lia).
  destruct (ptrs es) as [|p0 ps] eqn:E; [reflexivity|].
  apply (walk_links l D L R (p0 :: ps) p0 HS HCy). apply Forall_forall. intros j Hj. apply HA, in_or_app. auto.
Qed.
Lemma rep_iter l es free : ll_rep l es free -> ll_iter l = Ok (map snd es).
Proof.
  intros HR. unfold ll_iter. rewrite (rep_walk _ _ _ HR). cbn [bind].
  assert (G : forall s, incl s es -> mapM (fun i => n <- ll_at l i ;; expect (nd_data n)) (ptrs s) = Ok (map snd s)).
  { induction s as [|[i x] s IH]; intros Hs; [reflexivity|]. cbn [ptrs map mapM fst snd].
    destruct (rep_entry _ _ _ i x HR (Hs _ (or_introl eq_refl))) as (nd & -> & E). cbn [bind]. rewrite E. cbn [expect bind].
    fold (ptrs s). rewrite IH; [reflexivity|]. intros e He. apply Hs. now right. }
  apply G, incl_refl.
Qed.
(** Writing a value through a live pointer. *)
Lemma rep_write l a i y b free x : ll_rep l (a ++ (i, y) :: b) free ->
  exists nd l', ll_at l i = Ok nd /\ ll_put l i (mkNode (Some x) (nd_left nd) (nd_right nd)) = Ok l' /\
    ll_rep l' (a ++ (i, x) :: b) free /\ ll_front l' = ll_front l /\ zlen (ll_memory l') = zlen (ll_memory l).
Proof.
  intros [HL ND HA Hsm HF HRr (D & L & R & HS & HCy & HD & HCh)].
  assert (Ep : ptrs (a ++ (i, x) :: b) = ptrs (a ++ (i, y) :: b)) by (unfold ptrs; now rewrite !map_app).
  assert (Hi : 0 <= i < zlen (ll_memory l)) by (apply HA, in_or_app; left; unfold ptrs; rewrite map_app; apply in_or_app; right; now left).
  rewrite (at_spec l D L R i HS Hi). destruct (put_spec l D L R i (Some x) (L i) (R i) HS Hi) as (m & E & Zm & S).
  eexists _, _. split; [reflexivity|]. cbn [nd_left nd_right]. split; [exact E|]. cbn [set_memory ll_front ll_memory]. split; [|auto].
  constructor; cbn [ll_memory ll_front ll_rear ll_len ll_pool set_memory]; rewrite ?Ep, ?Zm; auto.
  - rewrite HL, !zlen_app, !zlen_cons. reflexivity.
  - exists (upd D i (Some x)), L, R. split; [|split; [exact HCy|split; [|exact HCh]]].
    + eapply sees_ext; [exact S| | |]; auto; intros j; unfold upd; destruct (Z.eqb_spec j i); congruence.
    + intros j z Hj. pose proof (nodup_app_l _ _ ND) as NDe. unfold ptrs in NDe. rewrite map_app in NDe. cbn [map fst] in NDe. apply NoDup_remove_2 in NDe.
      apply in_app_iff in Hj. cbn [In] in Hj. destruct Hj as [Hj|[Hj|Hj]].
      * rewrite upd_other; [apply HD, in_or_app; auto|]. intros ->. apply NDe, in_or_app. left. change i with (fst (i, z)). now apply in_map.
      * injection Hj as -> ->. apply upd_same.
      * rewrite upd_other; [apply HD, in_or_app; cbn [In]; auto|]. intros ->. apply NDe, in_or_app. right. change i with (fst (i, z)). now apply in_map.
Qed.

(** ** The four end operations *)
Lemma push_front_spec p l es free x : ll_rep l es free -> zlen es < NULL ->
  exists l' n free', ll_push_front p l x = Ok l' /\ ~ In n (ptrs es) /\ ll_rep l' ((n, x) :: es) free' /\
    zlen (ll_memory l') = Z.max (zlen (ll_memory l)) (zlen es + 1).
Proof.
  intros HR Hs. unfold ll_push_front. destruct es as [|[i y] b].
  - destruct (insert_empty_spec p l free (ll_front l) DLeft x HR) as (l' & n & free' & E & R' & Z').
    exists l', n, free'. split; [exact E|]. split; [intros []|]. auto.
  - rewrite (lr_front _ _ _ HR). cbn [ptrs map fst hd].
    destruct (insert_spec p l [] i y b free DLeft x HR Hs) as (l' & n & free' & E & N & R' & Z').
    exists l', n, free'. auto.
Qed.
Lemma push_rear_spec p l es free x : ll_rep l es free -> zlen es < NULL ->
  exists l' n free', ll_push_rear p l x = Ok l' /\ ~ In n (ptrs es) /\ ll_rep l' (es ++ [(n, x)]) free' /\
    zlen (ll_memory l') = Z.max (zlen (ll_memory l)) (zlen es + 1).
Proof.
  intros HR Hs. unfold ll_push_rear. destruct es as [|[i y] b] using rev_ind.
  - destruct (insert_empty_spec p l free (ll_rear l) DRight x HR) as (l' & n & free' & E & R' & Z').
    exists l', n, free'. auto.
  - clear IHb. rewrite (lr_rear _ _ _ HR). unfold ptrs. rewrite map_app. cbn [map fst]. rewrite last_last.
    destruct (insert_spec p l b i y [] free DRight x HR Hs) as (l' & n & free' & E & N & R' & Z').
    exists l', n, free'. unfold ptrs in N. rewrite map_app in N. rewrite <- app_assoc. auto.
Qed.
Lemma pop_front_spec p l i y b free : ll_rep l ((i, y) :: b) free ->
  exists l', ll_pop_front p l = Ok (l', Some y) /\ ll_rep l' b (i :: free) /\ zlen (ll_memory l') = zlen (ll_memory l).
Proof.
  intros HR. unfold ll_pop_front. rewrite (lr_front _ _ _ HR). cbn [ptrs map fst hd]. exact (remove_spec p l [] i y b free HR).
Qed.
Lemma pop_rear_spec p l a i y free : ll_rep l (a ++ [(i, y)]) free ->
  exists l', ll_pop_rear p l = Ok (l', Some y) /\ ll_rep l' a (i :: free) /\ zlen (ll_memory l') = zlen (ll_memory l).
Proof.
  intros HR. unfold ll_pop_rear. rewrite (lr_rear _ _ _ HR). unfold ptrs. rewrite map_app. cbn [map fst]. rewrite last_last.
  destruct (remove_spec p l a i y [] free HR) as (l' & E & R' & Z'). rewrite app_nil_r in R'. eauto.
Qed.
End LinkedList.
