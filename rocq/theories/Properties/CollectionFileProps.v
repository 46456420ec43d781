(** * Property C77: linked lists and caches survive serialisation *)
From Coq Require Import ZArith List Bool Lia Permutation.
From Verif Require Import Model.Base Model.Bincode Model.LinkedList Model.LruCache Model.CollectionsBincode Model.Layout
  Spec.Collections Proofs.BaseFacts Proofs.ListFacts Proofs.LruFacts Proofs.FileFacts Spec.Damage Proofs.DamageFile Proofs.FormatFacts Properties.CollectionProps Properties.MemoryProps.
Import ListNotations.
Open Scope Z_scope.

(** A type bincode can handle: every value reads back, whatever follows, and no beginning of its text reads. *)
Definition serialisable {T : Type} (put : T -> list Z) (get : parser T) : Prop :=
  forall x, (forall rest, get (put x ++ rest) = Some (x, rest)) /\ (forall k, (k < length (put x))%nat -> get (firstn k (put x)) = None).

(** ** Lemmas: every number in a list is a u32 *)
Definition u32 (x : Z) : Prop := 0 <= x < 2 ^ 32.
Definition node32 {T} (n : node T) : Prop := u32 (nd_left n) /\ u32 (nd_right n).
Record fits32 {T} (l : llist T) : Prop := {
  f_mem : Forall node32 (ll_memory l); f_front : u32 (ll_front l); f_rear : u32 (ll_rear l); f_pool : u32 (ll_pool l); f_len : u32 (ll_len l) }.
Lemma u32_NULL : u32 NULL. Proof. unfold u32, NULL. lia. Qed.
Lemma u32_uwrap x : u32 (uwrap 32 x). Proof. apply (uwrap_range 32). lia. Qed.
Lemma u32_chk p x y : uchk p 32 x = Ok y -> u32 y.
Proof.
  unfold uchk, in_u. destruct (Z.leb_spec 0 x), (Z.ltb_spec x (2 ^ 32)); cbn [andb]; [intros E; injection E as <-; unfold u32; lia|..];
    (destruct p; [discriminate|]; intros E; injection E as <-; apply u32_uwrap).
Qed.
Section Fits.
Context {T : Type}.
Implicit Types l : llist T.
Lemma fits_at l i nd : fits32 l -> ll_at l i = Ok nd -> node32 nd.
Proof.
  intros F E. unfold ll_at, index in E. destruct (_ && _); [|discriminate E]. destruct (nth_error _ _) as [n|] eqn:N; [|discriminate E]. injection E as <-.
  pose proof (f_mem _ F) as M. rewrite Forall_forall in M. apply M. eapply nth_error_In; eauto.
Qed.
Lemma fits_put l i nd l' : fits32 l -> node32 nd -> ll_put l i nd = Ok l' -> fits32 l'.
Proof.
  intros [M F R P L] N E. unfold ll_put in E. inv_bind E. injection E as <-. constructor; cbn [set_memory ll_memory ll_front ll_rear ll_pool ll_len]; auto.
  unfold store in Ha. destruct (_ && _); [|discriminate Ha]. injection Ha as <-. clear - M N. revert M. generalize (Z.to_nat i). generalize (ll_memory l).
  induction l0 as [|x m IH]; intros n M; [destruct n; exact M|]. inversion M as [|? ? H1 H2]; subst. destruct n as [|n]; cbn [replace_nth]; constructor; auto.
Qed.
Lemma fits_set_left l i v l' : fits32 l -> u32 v -> set_left l i v = Ok l' -> fits32 l'.
Proof. intros F V E. unfold set_left in E. inv_bind E. destruct (fits_at _ _ _ F Ha). eapply fits_put; eauto. now split. Qed.
Lemma fits_set_right l i v l' : fits32 l -> u32 v -> set_right l i v = Ok l' -> fits32 l'.
Proof. intros F V E. unfold set_right in E. inv_bind E. destruct (fits_at _ _ _ F Ha). eapply fits_put; eauto. now split. Qed.
Lemma fits_set_child d l i v l' : fits32 l -> u32 v -> set_child d l i v = Ok l' -> fits32 l'.
Proof. destruct d; [apply fits_set_left|apply fits_set_right]. Qed.
Lemma fits_new : fits32 (@ll_new T).
Proof. constructor; cbn [ll_new ll_memory ll_front ll_rear ll_pool ll_len]; auto using u32_NULL. unfold u32. lia. Qed.
Lemma fits_allocate l x l' n : fits32 l -> ll_allocate l x = Ok (l', n) -> fits32 l' /\ u32 n.
Proof.
  intros F E. unfold ll_allocate in E. destruct (ll_pool l =? NULL).
  - match type of E with Ok (?a, ?b) = _ => assert (l' = a) by congruence; assert (n = b) by congruence end. subst. split; [|apply u32_uwrap].
    destruct F as [M F R P L]. constructor; cbn [set_memory ll_memory ll_front ll_rear ll_pool ll_len]; auto.
    apply Forall_app. split; [exact M|]. constructor; [|constructor]. split; apply u32_NULL.
  - inv_bind E. inv_bind E. injection E as <- <-. split; [|apply (f_pool _ F)]. destruct (fits_at _ _ _ F Ha).
    eapply fits_put; [| |exact Ha0]; [destruct F; constructor; auto|split; apply u32_NULL].
Qed.
Lemma fits_free l i l' x : fits32 l -> u32 i -> ll_free l i = Ok (l', x) -> fits32 l'.
Proof.
  intros F I E. unfold ll_free in E. inv_bind E. inv_bind E. injection E as <- <-.
  assert (F' : fits32 a0) by (eapply fits_put; [exact F| |exact Ha0]; split; [apply u32_NULL|apply (f_pool _ F)]). destruct F'; constructor; auto.
Qed.
Lemma fits_with l front rear len : fits32 l -> u32 front -> u32 rear -> u32 len -> fits32 (mkLL (ll_memory l) front rear (ll_pool l) len).
Proof. intros [M F R P L] ? ? ?. constructor; auto. Qed.
Lemma fits_remove p l i l' x : fits32 l -> u32 i -> ll_remove_at p l i = Ok (l', x) -> fits32 l'.
Proof.
  intros F I E. unfold ll_remove_at in E. destruct (ll_len l =? 0); [injection E as <- <-; exact F|]. destruct (ll_len l =? 1).
  - destruct (negb _); [discriminate E|]. eapply fits_free; [| |exact E]; [|apply (f_rear _ F)]. apply fits_with; auto using u32_NULL. unfold u32; lia.
  - inv_bind E. destruct (fits_at _ _ _ F Ha) as [NL NR]. inv_bind E. inv_bind E.
    assert (F1 : fits32 a0) by (eapply fits_set_right; [exact F|exact NR|exact Ha0]).
    assert (F2 : fits32 a1) by (eapply fits_set_left; [exact F1|exact NL|exact Ha1]).
    inv_bind E. assert (F3 : fits32 a2).
    { destruct (i =? ll_front a1); [|congruence]. inv_bind Ha2. destruct (fits_at _ _ _ F2 Ha3). injection Ha2 as <-. apply fits_with; auto; apply F2. }
    inv_bind E. assert (F4 : fits32 a3).
    { destruct (i =? ll_rear a2); [|congruence]. inv_bind Ha3. destruct (fits_at _ _ _ F3 Ha4). injection Ha3 as <-. apply fits_with; auto; apply F3. }
    inv_bind E. eapply fits_free; [| |exact E]; [|exact I]. apply fits_with; try apply F4; auto. eapply u32_chk; eauto.
Qed.
Lemma fits_insert p l i d x l' : fits32 l -> u32 i -> ll_insert_at p l i d x = Ok l' -> fits32 l'.
Proof.
  intros F I E. unfold ll_insert_at in E. destruct (ll_len l =? 0).
  - inv_bind E. destruct a as [l1 n]. destruct (fits_allocate _ _ _ _ F Ha) as [F1 Fn]. inv_bind E. inv_bind E.
    assert (F2 : fits32 a0) by (eapply fits_put; [exact F1| |exact Ha1]; now split).
    inv_bind E. injection E as <-. apply fits_with; auto. eapply u32_chk; eauto.
  - destruct (i =? NULL); [injection E as <-; exact F|].
    inv_bind E. destruct a as [l1 n]. destruct (fits_allocate _ _ _ _ F Ha) as [F1 Fn]. inv_bind E. destruct (fits_at _ _ _ F1 Ha0) as [NL NR].
    assert (NA : u32 (get_child d a)) by (destruct d; auto).
    inv_bind E. assert (F2 := fits_set_child _ _ _ _ _ F1 Fn Ha1). inv_bind E. assert (F3 := fits_set_child _ _ _ _ _ F2 Fn Ha2).
    inv_bind E. assert (F4 := fits_set_child _ _ _ _ _ F3 I Ha3). inv_bind E. assert (F5 := fits_set_child _ _ _ _ _ F4 NA Ha4).
    inv_bind E. injection E as <-. apply u32_chk in Ha5.
    destruct d; [destruct (i =? ll_front a3)|destruct (i =? ll_rear a3)]; cbn [ll_memory ll_front ll_rear ll_pool ll_len]; apply fits_with; auto; apply F5.
Qed.
Lemma fits_iter_mut f l l' : fits32 l -> ll_iter_mut f l = Ok l' -> fits32 l'.
Proof.
  intros F E. unfold ll_iter_mut in E. inv_bind E. revert E. apply foldM_inv; [|exact F].
  intros s i s' _ Fs Es. inv_bind Es. inv_bind Es. destruct (fits_at _ _ _ Fs Ha0). eapply fits_put; [exact Fs| |exact Es]. now split.
Qed.
Lemma rep_u32 l es free i : ll_rep l es free -> In i (map fst es) -> u32 i.
Proof.
  intros R Hi. assert (0 <= i < zlen (ll_memory l)) by (apply (lr_all _ _ _ R), in_or_app; now left). pose proof (lr_small _ _ _ R). unfold u32, NULL in *. lia.
Qed.
Lemma fits_do p l v op l' a : fits32 l -> (forall i, In i (map fst v) -> u32 i) -> seq_allowed v op -> list_do p l op = Ok (l', a) -> fits32 l'.
Proof.
  intros F V A E. destruct op; cbn [list_do seq_allowed] in *.
  - inv_bind E. injection E as <- <-. eapply fits_insert; [exact F| |exact Ha]. apply F.
  - inv_bind E. injection E as <- <-. eapply fits_insert; [exact F| |exact Ha]. apply F.
  - eapply fits_remove; [exact F| |exact E]. apply F.
  - eapply fits_remove; [exact F| |exact E]. apply F.
  - inv_bind E. injection E as <- <-. eapply fits_insert; [exact F| |exact Ha]. auto.
  - inv_bind E. injection E as <- <-. eapply fits_insert; [exact F| |exact Ha]. auto.
  - eapply fits_remove; [exact F| |exact E]. auto.
Qed.
Lemma handled_fits p n l : handled p n l -> Z.of_nat n < 2 ^ 32 - 1 -> fits32 l.
Proof.
  induction 1 as [|n l v op l' a U IH HE HA HD|n l f l' U IH HM]; intros Hn; [apply fits_new| |].
  - destruct (handled_rep p n l U) as (es & free & HR & _); [lia|]. rewrite (rep_entries _ _ _ HR) in HE. injection HE as <-.
    eapply fits_do; [apply IH; lia| |exact HA|exact HD]. intros i Hi. eapply rep_u32; eauto.
  - eapply fits_iter_mut; [apply IH; lia|exact HM].
Qed.

(** ** Lemmas: texts *)
Context {put : T -> list Z} {get : parser T}.
Lemma inverts_of x : serialisable put get -> inverts get (put x) x.
Proof. intros S. destruct (S x) as [A B]. split; auto. Qed.
Lemma inverts_u32 x : u32 x -> inverts get_u32 (put_u32 x) x.
Proof. intros H. apply (inverts_uint 4). exact H. Qed.
Lemma inverts_option o : serialisable put get -> inverts (get_option get) (put_option put o) o.
Proof.
  intros S. unfold get_option. destruct o as [x|]; cbn [put_option].
  - eapply inverts_bind; [apply (inverts_uint 1); cbn; lia|]. change (1 =? 0) with false. change (1 =? 1) with true. cbn match. apply inverts_map, inverts_of, S.
  - rewrite <- (app_nil_r (put_u8 0)). eapply inverts_bind; [apply (inverts_uint 1); cbn; lia|]. apply inverts_ret.
Qed.
Lemma inverts_node nd : serialisable put get -> node32 nd -> inverts (get_node get) (put_node put nd) nd.
Proof.
  intros S [N1 N2]. unfold get_node, put_node. eapply inverts_bind; [apply inverts_option, S|].
  rewrite <- (app_nil_r (put_vec put_u32 _)). eapply inverts_bind.
  - apply (inverts_uvec 4 [nd_left nd; nd_right nd]); [lia|reflexivity|]. repeat constructor; [apply N1|apply N1|apply N2|apply N2].
  - cbn [nth]. destruct nd. apply inverts_ret.
Qed.
Lemma inverts_llist l : serialisable put get -> fits32 l -> zlen (ll_memory l) < 2 ^ 64 -> inverts (get_llist get) (put_llist put l) l.
Proof.
  intros S [M F R P L] Z1. unfold get_llist, put_llist. eapply inverts_bind.
  { apply inverts_vec; [exact Z1| |].
    - eapply Forall_impl; [|exact M]. intros nd N. now apply inverts_node.
    - apply Forall_forall. intros nd _. unfold put_node. rewrite app_length. destruct (nd_data nd); cbn; lia. }
  eapply inverts_bind; [apply inverts_u32, F|]. eapply inverts_bind; [apply inverts_u32, R|]. eapply inverts_bind; [apply inverts_u32, P|].
  rewrite <- (app_nil_r (put_u32 (ll_len l))). eapply inverts_bind; [apply inverts_u32, L|]. destruct l. apply inverts_ret.
Qed.
End Fits.

(** ** C77: lists *)
(** However a list has been used, what is deserialised is the list that was serialised:
    the same entries under the same pointers, the same free nodes; and a torn text does not deserialise. *)
Theorem C77_list : forall (T : Type) (put : T -> list Z) (get : parser T) p n (l : llist T),
  serialisable put get -> handled p n l -> Z.of_nat n < 2 ^ 32 - 1 ->
  (forall rest, get_llist get (put_llist put l ++ rest) = Some (l, rest)) /\
  (forall k, (k < length (put_llist put l))%nat -> get_llist get (firstn k (put_llist put l)) = None).
Proof.
  intros T put get p n l S U Hn. destruct (handled_rep p n l U) as (es & free & HR & _); [lia|].
  pose proof (lr_small _ _ _ HR) as Sm.
  destruct (inverts_llist l S (handled_fits p n l U Hn)) as [A B]; [unfold NULL in Sm; lia|]. auto.
Qed.
Print Assumptions C77_list.

(** ** C77: data from elsewhere *)
(** Whatever list a text gives, however inconsistent, a pass over it ([iter], [iter_mut]) only reaches nodes inside its
    memory: a pointer that leads outside is a panic, not a stray write. *)
Theorem C77_passes_stay_inside : forall (T : Type) (l : llist T) ptrs,
  ll_walk l (Z.to_nat (ll_len l)) (ll_front l) = Ok ptrs -> Forall (fun i => 0 <= i < zlen (ll_memory l)) ptrs.
Proof.
  intros T l ptrs. generalize (ll_front l) as i. revert ptrs. induction (Z.to_nat (ll_len l)) as [|k IH]; intros ptrs i E; cbn [ll_walk] in E.
  - injection E as <-. constructor.
  - inv_bind E. inv_bind E. injection E as <-. constructor; [|eapply IH; eauto]. unfold ll_at in Ha. apply index_inv in Ha. apply Ha.
Qed.
Print Assumptions C77_passes_stay_inside.
(** But nothing is checked: a text of 45 bytes gives a list of two entries that are the same node, so that
    [iter_mut] hands out two references to one value, which no safe Rust program may do. *)
Theorem C77_aliasing_refuted : exists bytes (l : llist Z), length bytes = 45%nat /\ Forall (fun b => 0 <= b < 256) bytes /\
  get_llist get_u32 bytes = Some (l, []) /\ ll_walk l (Z.to_nat (ll_len l)) (ll_front l) = Ok [0; 0] /\ ll_iter l = Ok [5; 5].
Proof.
  exists (put_llist put_u32 (mkLL [mkNode (Some 5) 0 0] 0 0 NULL 2)). eexists. split; [reflexivity|]. split; [|split; [|split]].
  - vm_compute. repeat constructor; discriminate.
  - vm_compute. reflexivity.
  - vm_compute. reflexivity.
  - vm_compute. reflexivity.
Qed.
Print Assumptions C77_aliasing_refuted.
(** A node whose vector of children is too short is completed with null pointers, and of one that is too long the rest is
    ignored, without an error. *)
Theorem C77_children : forall (T : Type) (put : T -> list Z) (get : parser T) d cs rest,
  serialisable put get -> Forall u32 cs -> zlen cs < 2 ^ 64 ->
  get_node get (put_option put d ++ put_vec put_u32 cs ++ rest) = Some (mkNode d (nth 0 cs NULL) (nth 1 cs NULL), rest).
Proof.
  intros T put get d cs rest S F Hz. unfold get_node, pbind. rewrite (inv_read _ _ _ (inverts_option d S)).
  rewrite (inv_read _ _ _ (inverts_uvec 4 cs ltac:(lia) Hz F)). reflexivity.
Qed.

(** ** What is accepted *)
Definition text_of {A} (g : parser A) (R : A -> list Z -> Prop) : Prop := forall l a r, Forall byte l -> g l = Some (a, r) -> exists x, l = x ++ r /\ R a x.
Lemma text_uint n : text_of (get_uint n) (fun a x => x = le_bytes n a).
Proof.
  intros l a r B E. destruct (shaped_uint n _ _ _ B E) as (x & -> & Hx). apply zlen_len in Hx. rewrite get_uint_app in E by exact Hx.
  assert (K : a = of_le_bytes x) by congruence. exists x. split; [reflexivity|]. subst a. rewrite <- Hx. symmetry. apply le_of_le. apply Forall_app in B. apply B.
Qed.
Lemma text_bind {A B} (g : parser A) (f : A -> parser B) R1 R2 : text_of g R1 -> (forall a, text_of (f a) (R2 a)) ->
  text_of (pbind g f) (fun b x => exists a y z, x = y ++ z /\ R1 a y /\ R2 a b z).
Proof.
  intros Hg Hf l b r Bl E. unfold pbind in E. destruct (g l) as [[a r1]|] eqn:G; [|discriminate E]. destruct (Hg _ _ _ Bl G) as (y & -> & Hy).
  apply Forall_app in Bl. destruct (Hf a _ _ _ (proj2 Bl) E) as (z & -> & Hz). exists (y ++ z). rewrite <- app_assoc. split; [reflexivity|]. now exists a, y, z.
Qed.
Lemma text_n {A} (g : parser A) R : text_of g R -> forall n, text_of (get_n g n) (fun v x => exists xs, x = concat xs /\ Forall2 R v xs /\ length v = n).
Proof.
  intros Hg. induction n as [|n IH]; intros l v r B E; cbn [get_n] in E.
  - unfold pret in E. injection E as <- <-. exists []. split; [reflexivity|]. exists []. auto.
  - unfold pbind at 1 in E. destruct (g l) as [[a r1]|] eqn:G; [|discriminate E]. destruct (Hg _ _ _ B G) as (x & -> & Hx).
    unfold pbind in E. destruct (get_n g n r1) as [[w r2]|] eqn:Gn; [|discriminate E]. unfold pret in E. injection E as <- <-.
    apply Forall_app in B. destruct (IH _ _ _ (proj2 B) Gn) as (y & -> & xs & -> & F & L). exists (x ++ concat xs). rewrite <- app_assoc. split; [reflexivity|].
    exists (x :: xs). split; [reflexivity|]. split; [constructor; auto|cbn; lia].
Qed.
Lemma text_vec {A} (g : parser A) R : text_of g R -> text_of (get_vec g) (fun v x => exists xs, x = put_u64 (zlen v) ++ concat xs /\ Forall2 R v xs).
Proof.
  intros Hg l v r B E. unfold get_vec, pbind in E. destruct (get_u64 l) as [[n r1]|] eqn:G; [|discriminate E].
  destruct (reads_uint 8 _ _ _ B G) as (Hn & _ & _). destruct (text_uint 8 _ _ _ B G) as (c & -> & ->). apply Forall_app in B. destruct B as [_ B].
  destruct (_ <=? _); [|discriminate E]. destruct (text_n g R Hg _ _ _ _ B E) as (y & -> & xs & -> & F & L).
  exists (put_u64 n ++ concat xs). rewrite app_assoc. split; [reflexivity|]. exists xs. split; [|exact F]. unfold zlen. rewrite L, Z2Nat.id by apply Hn. reflexivity.
Qed.
Lemma uvec_text n v xs : Forall2 (fun a x => x = le_bytes n a) v xs -> concat xs = flat_map (le_bytes n) v.
Proof. induction 1 as [|a x v xs -> F IH]; cbn [concat flat_map]; [reflexivity|]. now rewrite IH. Qed.
(** Only the texts of lists are accepted, where each entry may have any number of neighbours: every other text is an error. *)
Theorem C77_accepted : forall (T : Type) (put : T -> list Z) (get : parser T) bytes (l : llist T) rest,
  (forall text x rest, Forall byte text -> get text = Some (x, rest) -> text = put x ++ rest) -> Forall byte bytes ->
  get_llist get bytes = Some (l, rest) ->
  exists entries : list (option T * list Z),
    bytes = put_vec (fun e => put_option put (fst e) ++ put_vec put_u32 (snd e)) entries
            ++ put_u32 (ll_front l) ++ put_u32 (ll_rear l) ++ put_u32 (ll_pool l) ++ put_u32 (ll_len l) ++ rest /\
    ll_memory l = map (fun e => mkNode (fst e) (nth 0 (snd e) NULL) (nth 1 (snd e) NULL)) entries.
Proof.
  intros T put get bytes l rest Hp B E.
  assert (HN : text_of (get_node get) (fun nd x => exists d cs, nd = mkNode d (nth 0 cs NULL) (nth 1 cs NULL) /\ x = put_option put d ++ put_vec put_u32 cs)).
  { intros x nd r Bx Ex. unfold get_node in Ex. unfold pbind at 1 in Ex. destruct (get_option get x) as [[d r1]|] eqn:G1; [|discriminate Ex].
    assert (X : x = put_option put d ++ r1).
    { unfold get_option in G1. unfold pbind at 1 in G1. destruct (get_u8 x) as [[tag r2]|] eqn:G2; [|discriminate G1].
      destruct (text_uint 1 _ _ _ Bx G2) as (c & -> & ->). apply Forall_app in Bx. destruct Bx as [_ Bx].
      destruct (Z.eqb_spec tag 0) as [->|]; [unfold pret in G1; injection G1 as <- <-; reflexivity|]. destruct (Z.eqb_spec tag 1) as [->|]; [|discriminate G1].
      unfold pmap, pbind in G1. destruct (get r2) as [[y r3]|] eqn:G3; [|discriminate G1]. unfold pret in G1. injection G1 as <- <-.
      rewrite (Hp _ _ _ Bx G3). cbn [put_option]. now rewrite app_assoc. }
    subst x. apply Forall_app in Bx. destruct Bx as [_ Bx]. unfold pbind in Ex. destruct (get_vec get_u32 r1) as [[cs r2]|] eqn:G3; [|discriminate Ex]. unfold pret in Ex.
    assert (K1 : nd = mkNode d (nth 0 cs NULL) (nth 1 cs NULL)) by congruence. assert (K2 : r2 = r) by congruence. subst nd r2. clear Ex.
    destruct (text_vec get_u32 _ (text_uint 4) _ _ _ Bx G3) as (y & -> & xs & -> & F). exists (put_option put d ++ put_vec put_u32 cs). split.
    - unfold put_vec. rewrite (uvec_text 4 _ _ F). now rewrite !app_assoc.
    - exists d, cs. auto. }
  unfold get_llist in E. unfold pbind at 1 in E. destruct (get_vec (get_node get) bytes) as [[m r1]|] eqn:G1; [|discriminate E].
  destruct (text_vec _ _ HN _ _ _ B G1) as (x & -> & xs & -> & F). apply Forall_app in B. destruct B as [_ B].
  unfold pbind at 1 in E. destruct (get_u32 r1) as [[a1 r2]|] eqn:G2; [|discriminate E]. destruct (text_uint 4 _ _ _ B G2) as (x & -> & ->). apply Forall_app in B. destruct B as [_ B].
  unfold pbind at 1 in E. destruct (get_u32 r2) as [[a2 r3]|] eqn:G3; [|discriminate E]. destruct (text_uint 4 _ _ _ B G3) as (x & -> & ->). apply Forall_app in B. destruct B as [_ B].
  unfold pbind at 1 in E. destruct (get_u32 r3) as [[a3 r4]|] eqn:G4; [|discriminate E]. destruct (text_uint 4 _ _ _ B G4) as (x & -> & ->). apply Forall_app in B. destruct B as [_ B].
  unfold pbind at 1 in E. destruct (get_u32 r4) as [[a4 r5]|] eqn:G5; [|discriminate E]. destruct (text_uint 4 _ _ _ B G5) as (x & -> & ->). unfold pret in E.
  assert (K1 : l = mkLL m a1 a2 a3 a4) by congruence. assert (K2 : r5 = rest) by congruence. subst l r5. cbn [ll_front ll_rear ll_pool ll_len ll_memory].
  assert (K : exists entries : list (option T * list Z), m = map (fun e => mkNode (fst e) (nth 0 (snd e) NULL) (nth 1 (snd e) NULL)) entries /\
    concat xs = flat_map (fun e => put_option put (fst e) ++ put_vec put_u32 (snd e)) entries).
  { clear - F. induction F as [|nd x m xs (d & cs & -> & ->) F (es & -> & IH)]; [now exists []|]. exists ((d, cs) :: es). cbn [map fst snd concat flat_map]. now rewrite IH. }
  destruct K as (es & -> & Kx). exists es. split; [|reflexivity]. unfold put_vec at 1. rewrite Kx. unfold zlen. rewrite map_length. now rewrite <- !app_assoc.
Qed.
Print Assumptions C77_accepted.
Example C77_accepted_applies :
  (forall text x rest, Forall byte text -> get_u32 text = Some (x, rest) -> text = put_u32 x ++ rest) /\
  (exists l, get_llist get_u32 (put_llist put_u32 (mkLL [mkNode (Some 5) NULL NULL] 0 0 NULL 1)) = Some (l, [])) /\
  get_llist get_u32 ([1; 0; 0; 0; 0; 0; 0; 0] ++ [2] ++ repeat 0 32) = None.
Proof.
  split; [|split; [eexists; vm_compute; reflexivity|vm_compute; reflexivity]]. intros text x rest B E. destruct (text_uint 4 _ _ _ B E) as (y & -> & ->). reflexivity.
Qed.
Print Assumptions C77_children.

(** ** Lemmas: caches *)
Section Cache.
Context {K V : Type} (eqb : K -> K -> bool) (eqb_ok : forall a b, eqb a b = true <-> a = b).
Implicit Types c : lru K V.
Lemma nodup_remove {W} (m : list (K * W)) k : NoDup (map fst m) -> NoDup (map fst (fm_remove eqb m k)) /\ ~ In k (map fst (fm_remove eqb m k)).
Proof.
  intros N. unfold fm_remove. induction m as [|[k1 v1] s IH]; cbn [map filter fst] in *; [split; [constructor|auto]|].
  inversion N as [|? ? N1 N2]; subst. destruct (IH N2) as [I1 I2]. destruct (eqb k k1) eqn:Ek; cbn [negb map fst]; [auto|]. split.
  - constructor; auto. intros X. apply N1. apply in_map_iff in X. destruct X as (e & <- & X). apply filter_In in X. apply in_map. tauto.
  - intros [X|X]; [|auto]. rewrite X, (proj2 (eqb_ok _ _) eq_refl) in Ek. discriminate.
Qed.
Lemma nodup_insert {W} (m : list (K * W)) k w : NoDup (map fst m) -> NoDup (map fst (fm_insert eqb m k w)).
Proof. intros N. destruct (nodup_remove m k N). unfold fm_insert. cbn [map fst]. now constructor. Qed.
Lemma fm_get_In {W} (m : list (K * W)) k w : NoDup (map fst m) -> fm_get eqb m k = Some w <-> In (k, w) m.
Proof.
  induction m as [|[k1 w1] m IH]; intros N; cbn [fm_get In]; [split; [discriminate|tauto]|]. inversion N as [|? ? N1 N2]; subst. destruct (eqb k k1) eqn:E.
  - apply eqb_ok in E. subst k1. split; [intros X; injection X as ->; auto|]. intros [X|X]; [congruence|]. exfalso. apply N1. change k with (fst (k, w)). now apply in_map.
  - rewrite (IH N2). split; [auto|]. intros [X|X]; [|auto]. injection X as -> ->. rewrite (proj2 (eqb_ok _ _) eq_refl) in E. discriminate.
Qed.
Lemma fm_get_fold {W} (t : list (K * W)) : NoDup (map fst t) -> forall m, NoDup (map fst m) ->
  let r := fold_left (fun m e => fm_insert eqb m (fst e) (snd e)) t m in NoDup (map fst r) /\
  forall k w, fm_get eqb r k = Some w <-> In (k, w) t \/ (~ In k (map fst t) /\ fm_get eqb m k = Some w).
Proof.
  induction t as [|[k1 w1] t IH]; intros N m M; cbn [fold_left map fst snd In].
  - split; [exact M|]. intros k w. tauto.
  - cbn [map fst] in N. inversion N as [|? ? N1 N2]; subst. destruct (IH N2 (fm_insert eqb m k1 w1) (nodup_insert m k1 w1 M)) as [R1 R2]. split; [exact R1|].
    intros k w. rewrite R2. rewrite (fm_get_insert eqb eqb_ok). destruct (eqb k k1) eqn:E.
    + apply eqb_ok in E. subst k1. split.
      * intros [X|[X Y]]; [auto|]. injection Y as ->. auto.
      * intros [[X|X]|[X Y]]; [|auto|tauto]. injection X as ->. auto.
    + assert (k1 <> k) by (intros ->; rewrite (proj2 (eqb_ok _ _) eq_refl) in E; discriminate). split.
      * intros [X|[X Y]]; [auto|]. right. tauto.
      * intros [[X|X]|[X Y]]; [congruence|auto|]. right. tauto.
Qed.
(** Everything that is kept by the operations. *)
Definition tidy cap c : Prop := exists es, lru_rep eqb cap c es /\ fits32 (lru_list c) /\ NoDup (map fst (lru_table c)).
Lemma table_u32 cap c es k n : lru_rep eqb cap c es -> fm_get eqb (lru_table c) k = Some n -> u32 n.
Proof.
  intros R E. apply (lu_table _ _ _ _ R) in E. destruct E as [v E]. destruct (lu_list _ _ _ _ R) as [free HR].
  eapply rep_u32; [exact HR|]. change n with (fst (n, (k, v))). now apply in_map.
Qed.
Lemma fits_raise p n (l : llist (K * V)) val l' n' : fits32 l -> u32 n -> raise_key p n l val = Ok (l', n') -> fits32 l' /\ u32 n'.
Proof.
  intros F N E. unfold raise_key in E. inv_bind E. destruct a as [l1 x]. inv_bind E. destruct a as [k old]. inv_bind E. injection E as <- <-.
  pose proof (fits_remove _ _ _ _ _ F N Ha) as F1. assert (F2 : fits32 a) by (eapply fits_insert; [exact F1|apply F1|exact Ha1]). split; [exact F2|apply F2].
Qed.
Lemma tidy_new cap : 1 <= cap < 2 ^ 32 -> tidy cap (lru_new cap).
Proof. intros H. exists []. split; [now apply new_lru|]. split; [apply fits_new|constructor]. Qed.
Lemma tidy_do p cap c op c' a : tidy cap c -> lru_do eqb p c op = Ok (c', a) -> tidy cap c'.
Proof.
  intros (es & R & F & N) E.
  assert (S : exists es', lru_rep eqb cap c' es').
  { destruct op; cbn [lru_do] in E.
    - destruct (put_ok eqb eqb_ok cap c es k v p R) as (c1 & es' & E1 & R' & _). rewrite E1 in E. injection E as <- <-. eauto.
    - destruct (get_ok eqb eqb_ok cap c es k p R) as (c1 & es' & E1 & R' & _). rewrite E1 in E. injection E as <- <-. eauto.
    - destruct (get_mut_ok eqb eqb_ok cap c es k v p R) as (c1 & es' & E1 & R' & _). rewrite E1 in E. injection E as <- <-. eauto.
    - inv_bind E. injection E as <- <-. eauto.
    - destruct (remove_ok eqb eqb_ok cap c es k p R) as (c1 & es' & E1 & R' & _). rewrite E1 in E. injection E as <- <-. eauto.
    - injection E as <- <-. eauto. }
  destruct S as [es' R']. exists es'. split; [exact R'|]. clear R' es'.
  destruct op; cbn [lru_do] in E.
  - inv_bind E. injection E as <- <-. unfold lru_put in Ha. destruct (fm_get eqb (lru_table c) k) as [n|] eqn:G.
    + inv_bind Ha. destruct a as [l n']. injection Ha as <-. destruct (fits_raise _ _ _ _ _ _ F (table_u32 _ _ _ _ _ R G) Ha0) as [F' _].
      cbn [lru_list lru_table]. split; [exact F'|now apply nodup_insert].
    + inv_bind Ha. destruct a as [t l]. assert (TL : fits32 l /\ NoDup (map fst t)).
      { destruct (lru_capacity c <=? lru_len c); [|injection Ha0 as <- <-; auto]. inv_bind Ha0. inv_bind Ha0. destruct a1 as [k1 v1]. inv_bind Ha0. destruct a1 as [l1 x1].
        injection Ha0 as <- <-. split; [|now apply nodup_remove]. eapply fits_remove; [exact F| |exact Ha3]. apply F. }
      destruct TL as [Fl Nt]. inv_bind Ha. injection Ha as <-. cbn [lru_list lru_table]. split; [|now apply nodup_insert].
      eapply fits_insert; [exact Fl| |exact Ha1]. apply Fl.
  - inv_bind E. destruct a0 as [c1 v1]. injection E as <- <-. unfold lru_get in Ha. destruct (fm_get eqb (lru_table c) k) as [n|] eqn:G; [|injection Ha as <- <-; auto].
    inv_bind Ha. destruct a as [l n']. inv_bind Ha. injection Ha as <- <-. destruct (fits_raise _ _ _ _ _ _ F (table_u32 _ _ _ _ _ R G) Ha0) as [F' _].
    cbn [lru_list lru_table]. split; [exact F'|now apply nodup_insert].
  - inv_bind E. injection E as <- <-. unfold lru_get_mut_set in Ha. destruct (fm_get eqb (lru_table c) k) as [n|] eqn:G; [|injection Ha as <-; auto].
    inv_bind Ha. destruct a as [l n']. inv_bind Ha. inv_bind Ha. injection Ha as <-. destruct (fits_raise _ _ _ _ _ _ F (table_u32 _ _ _ _ _ R G) Ha0) as [F' _].
    cbn [lru_list lru_table]. split; [|now apply nodup_insert]. destruct (fits_at _ _ _ F' Ha1). eapply fits_put; [exact F'| |exact Ha2]. now split.
  - inv_bind E. injection E as <- <-. auto.
  - inv_bind E. destruct a0 as [c1 v1]. injection E as <- <-. unfold lru_remove in Ha. destruct (fm_get eqb (lru_table c) k) as [n|] eqn:G; [|injection Ha as <- <-; auto].
    inv_bind Ha. destruct a as [l x]. pose proof (fits_remove _ _ _ _ _ F (table_u32 _ _ _ _ _ R G) Ha0) as F'.
    destruct x as [[k' v']|]; injection Ha as <- <-; cbn [lru_list lru_table]; split; auto. now apply nodup_remove.
  - injection E as <- <-. auto.
Qed.
Lemma inverts_pair {A B : Type} pa pb ga gb (x : A) (y : B) : inverts ga (pa x) x -> inverts gb (pb y) y -> inverts (get_pair ga gb) (put_pair pa pb (x, y)) (x, y).
Proof.
  intros Ia Ib. unfold get_pair, put_pair. cbn [fst snd]. eapply inverts_bind; [exact Ia|]. rewrite <- (app_nil_r (pb y)). eapply inverts_bind; [exact Ib|]. apply inverts_ret.
Qed.
Lemma tidy_text pk pv gk gv cap c t : serialisable pk gk -> serialisable pv gv -> tidy cap c -> Permutation t (lru_table c) ->
  inverts (get_lru eqb gk gv) (put_lru pk pv t c) (mkLru (fold_left (fun m e => fm_insert eqb m (fst e) (snd e)) t []) (lru_list c) (lru_capacity c)).
Proof.
  intros Sk Sv (es & R & F & N) P. destruct (lu_list _ _ _ _ R) as [free HR].
  assert (SP : @serialisable (K * V) (put_pair pk pv) (get_pair gk gv)).
  { intros [k v]. destruct (inverts_pair pk pv gk gv k v (inverts_of k Sk) (inverts_of v Sv)) as [A B]. auto. }
  assert (Nt : NoDup (map fst t)) by (eapply Permutation_NoDup; [|exact N]; apply Permutation_map; now symmetry).
  assert (Ht : forall k n, In (k, n) t -> exists v, In (n, (k, v)) es).
  { intros k n Hin. apply (lu_table _ _ _ _ R). apply fm_get_In; [exact N|]. eapply Permutation_in; eauto. }
  assert (Hu : Forall (fun e => u32 (snd e)) t).
  { apply Forall_forall. intros [k n] Hin. eapply table_u32; [exact R|]. apply fm_get_In; [exact N|]. eapply Permutation_in; eauto. }
  assert (Hz : zlen t <= cap).
  { pose proof (lru_size _ _ _ _ R). enough (zlen t <= zlen es) by lia. unfold zlen. apply inj_le.
    rewrite <- (map_length (fun e : Z * (K * V) => (fst (snd e), fst e)) es). apply NoDup_incl_length; [eapply NoDup_map_inv; exact Nt|].
    intros [k n] Hin. destruct (Ht _ _ Hin) as [v Hv]. change (k, n) with ((fun e : Z * (K * V) => (fst (snd e), fst e)) (n, (k, v))). now apply in_map. }
  pose proof (lu_bound _ _ _ _ R) as CB. unfold get_lru, put_lru. eapply inverts_bind.
  { apply inverts_vec; [lia| |].
    - apply Forall_forall. intros [k n] Hin. rewrite Forall_forall in Hu. apply inverts_pair; [apply inverts_of, Sk|apply inverts_u32, (Hu _ Hin)].
    - apply Forall_forall. intros e _. unfold put_pair. rewrite app_length. cbn. lia. }
  eapply inverts_bind.
  { apply inverts_llist; [exact SP|exact F|]. pose proof (lu_mem _ _ _ _ R). lia. }
  rewrite <- (app_nil_r (put_u32 _)). eapply inverts_bind; [apply inverts_u32; rewrite (lu_cap _ _ _ _ R); unfold u32; lia|]. apply inverts_ret.
Qed.
Lemma tidy_loaded cap c t : tidy cap c -> Permutation t (lru_table c) ->
  exists es, lru_rep eqb cap c es /\ lru_rep eqb cap (mkLru (fold_left (fun m e => fm_insert eqb m (fst e) (snd e)) t []) (lru_list c) (lru_capacity c)) es /\
    tidy cap (mkLru (fold_left (fun m e => fm_insert eqb m (fst e) (snd e)) t []) (lru_list c) (lru_capacity c)).
Proof.
  intros (es & R & F & N) P. exists es. split; [exact R|].
  assert (Nt : NoDup (map fst t)) by (eapply Permutation_NoDup; [|exact N]; apply Permutation_map; now symmetry).
  destruct (fm_get_fold t Nt [] ltac:(constructor)) as [N' G].
  assert (R' : lru_rep eqb cap (mkLru (fold_left (fun m e => fm_insert eqb m (fst e) (snd e)) t []) (lru_list c) (lru_capacity c)) es).
  { destruct R as [C B L M Ks T]. constructor; cbn [lru_capacity lru_list lru_table]; auto. intros k n. rewrite <- T, G. rewrite (fm_get_In (lru_table c) k n N). cbn [fm_get].
    split; [intros [X|[_ X]]; [|discriminate X]; eapply Permutation_in; eauto|]. intros X. left. eapply Permutation_in; [symmetry; exact P|exact X]. }
  split; [exact R'|]. exists es. cbn [lru_list lru_table]. auto.
Qed.
Lemma rep_runs p cap c es ops : lru_rep eqb cap c es -> lru_run eqb p c ops = Ok (cache_run eqb cap (map snd es) ops).
Proof.
  revert c es. induction ops as [|op ops IH]; intros c es R; [reflexivity|]. cbn [lru_run cache_run].
  assert (S : exists c' es', lru_do eqb p c op = Ok (c', snd (cache_do eqb cap (map snd es) op)) /\ lru_rep eqb cap c' es' /\
    map snd es' = fst (cache_do eqb cap (map snd es) op)).
  { destruct op; cbn [lru_do].
    - destruct (put_ok eqb eqb_ok cap c es k v p R) as (c' & es' & -> & R' & E'). cbn [bind]. eauto.
    - destruct (get_ok eqb eqb_ok cap c es k p R) as (c' & es' & -> & R' & E'). cbn [bind]. eauto.
    - destruct (get_mut_ok eqb eqb_ok cap c es k v p R) as (c' & es' & -> & R' & E'). cbn [bind]. eauto.
    - rewrite (lookup_ok eqb eqb_ok cap c es k R). cbn [bind]. eauto.
    - destruct (remove_ok eqb eqb_ok cap c es k p R) as (c' & es' & -> & R' & E'). cbn [bind]. eauto.
    - exists c, es. split; [|auto]. destruct (lu_list _ _ _ _ R) as [free HR]. unfold lru_len. rewrite (lr_len _ _ _ HR). cbn [cache_do snd].
      do 3 f_equal. unfold zlen. now rewrite map_length. }
  destruct S as (c' & es' & -> & R' & E'). cbn [bind]. destruct (cache_do eqb cap (map snd es) op) as [l' a]. cbn [fst snd] in *.
  rewrite (IH c' es' R'), E'. reflexivity.
Qed.
End Cache.

(** ** C77: caches *)
(** [cached c]: a cache after any operations, serialised and deserialised any number of times in between; the hash table
    may list its entries in any order. *)
Inductive cached {K V : Type} (eqb : K -> K -> bool) pk pv gk gv (p : profile) (cap : Z) : lru K V -> Prop :=
| CachedNew : cached eqb pk pv gk gv p cap (lru_new cap)
| CachedDid c op c' a : cached eqb pk pv gk gv p cap c -> lru_do eqb p c op = Ok (c', a) -> cached eqb pk pv gk gv p cap c'
| CachedLoaded c order c' rest : cached eqb pk pv gk gv p cap c -> Permutation order (lru_table c) ->
    get_lru eqb gk gv (put_lru pk pv order c ++ rest) = Some (c', rest) -> cached eqb pk pv gk gv p cap c'.
(** Serialising a cache and deserialising it gives a cache that no operation can tell from the original. *)
Theorem C77_cache : forall (K V : Type) (eqb : K -> K -> bool) pk pv gk gv p cap (c : lru K V) order,
  (forall a b, eqb a b = true <-> a = b) -> serialisable pk gk -> serialisable pv gv -> 1 <= cap < 2 ^ 32 ->
  cached eqb pk pv gk gv p cap c -> Permutation order (lru_table c) ->
  exists c', (forall rest, get_lru eqb gk gv (put_lru pk pv order c ++ rest) = Some (c', rest)) /\
    (forall k, (k < length (put_lru pk pv order c))%nat -> get_lru eqb gk gv (firstn k (put_lru pk pv order c)) = None) /\
    forall ops, exists answers, lru_run eqb p c ops = Ok answers /\ lru_run eqb p c' ops = Ok answers.
Proof.
  intros K V eqb pk pv gk gv p cap c order He Sk Sv Hc HC P.
  assert (T : tidy eqb cap c).
  { clear order P. induction HC as [|c op c' a HC IH E|c order c' rest HC IH P E]; [now apply tidy_new|eapply tidy_do; eauto|].
    rewrite (inv_read _ _ _ (tidy_text eqb He pk pv gk gv cap c order Sk Sv IH P)) in E. injection E as <-.
    destruct (tidy_loaded eqb He cap c order IH P) as (es & _ & _ & T). exact T. }
  destruct (tidy_text eqb He pk pv gk gv cap c order Sk Sv T P) as [A B].
  destruct (tidy_loaded eqb He cap c order T P) as (es & R & R' & _).
  eexists. split; [exact A|]. split; [exact B|]. intros ops. exists (cache_run eqb cap (map snd es) ops). split; now apply rep_runs.
Qed.
Print Assumptions C77_cache.

(** [bool] is such a type: one byte.  A list of three with a freed node, and a cache of two with its table in either order. *)
Definition put_bool (b : bool) : list Z := put_u8 (if b then 1 else 0).
Definition get_bool : parser bool := pmap (fun x => x =? 1) get_u8.
Lemma bool_serialisable : serialisable put_bool get_bool.
Proof.
  assert (I : forall b, inverts get_bool (put_bool b) b).
  { intros [|].
    - exact (inverts_map get_u8 (fun x => x =? 1) _ 1 (inverts_uint 1 1 ltac:(cbn; lia))).
    - exact (inverts_map get_u8 (fun x => x =? 1) _ 0 (inverts_uint 1 0 ltac:(cbn; lia))). }
  intros b. destruct (I b). auto.
Qed.
Example C77_applies : exists (l : llist bool) (c : lru bool bool),
  handled Debug 4 l /\ entries l = Ok [(1, false); (2, true)] /\ length (put_llist put_bool l) = 77%nat /\
  cached Bool.eqb put_bool put_bool get_bool get_bool Debug 2 c /\
  Permutation [(true, 0); (false, 1)] (lru_table c) /\ Permutation [(false, 1); (true, 0)] (lru_table c).
Proof.
  assert (H0 : handled Debug 0 (@ll_new bool)) by constructor.
  next H0 (AddRear true) H1. next H1 (AddRear false) H2. next H2 (AddRear true) H3. next H3 (@TakeFront bool) H4.
  assert (C0 : cached Bool.eqb put_bool put_bool get_bool get_bool Debug 2 (lru_new 2 : lru bool bool)) by constructor.
  Ltac next_cache H o H' := match type of H with cached _ _ _ _ _ _ _ ?c =>
    let r := eval vm_compute in (lru_do Bool.eqb Debug c o) in match r with Ok (?c', ?ans) =>
      assert (H' : cached Bool.eqb put_bool put_bool get_bool get_bool Debug 2 c') by (refine (CachedDid _ _ _ _ _ _ _ _ o _ ans H _); vm_compute; reflexivity) end end.
  next_cache C0 (@Put bool bool true true) C1. next_cache C1 (@Put bool bool false true) C2.
  eexists _, _. split; [exact H4|]. split; [vm_compute; reflexivity|]. split; [vm_compute; reflexivity|]. split; [exact C2|]. cbn [lru_table].
  split; [apply perm_swap|apply Permutation_refl].
Qed.
