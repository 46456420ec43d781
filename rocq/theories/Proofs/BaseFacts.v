(** * General facts about the base definitions *)
From Coq Require Import ZArith List Bool Lia.
From Verif Require Import Model.Base.
Import ListNotations.
Open Scope Z_scope.

(** ** Lengths *)
Lemma zlen_nonneg {A} (l : list A) : 0 <= zlen l.
Proof. unfold zlen; lia. Qed.
Lemma zlen_nil {A} : zlen (@nil A) = 0.
Proof. reflexivity. Qed.
Lemma zlen_cons {A} (a : A) l : zlen (a :: l) = 1 + zlen l.
Proof. unfold zlen; cbn [length]; lia. Qed.
Lemma zlen_app {A} (a b : list A) : zlen (a ++ b) = zlen a + zlen b.
Proof. unfold zlen; rewrite app_length; lia. Qed.
Lemma zlen_map {A B} (f : A -> B) l : zlen (map f l) = zlen l.
Proof. unfold zlen; now rewrite map_length. Qed.
Lemma zlen_repeat {A} (a : A) n : zlen (repeat a n) = Z.of_nat n.
Proof. unfold zlen; now rewrite repeat_length. Qed.
Lemma zlen_rev {A} (l : list A) : zlen (rev l) = zlen l.
Proof. unfold zlen; now rewrite rev_length. Qed.
Lemma to_nat_zlen {A} (l : list A) : Z.to_nat (zlen l) = length l.
Proof. unfold zlen; lia. Qed.
Lemma zlen_firstn {A} n (l : list A) : zlen (firstn n l) = Z.min (Z.of_nat n) (zlen l).
Proof. unfold zlen; rewrite firstn_length; lia. Qed.
Lemma zlen_skipn {A} n (l : list A) : zlen (skipn n l) = Z.max 0 (zlen l - Z.of_nat n).
Proof. unfold zlen; rewrite skipn_length; lia. Qed.
Lemma zlen_zero_nil {A} (l : list A) : zlen l = 0 -> l = [].
Proof. destruct l; [reflexivity | rewrite zlen_cons; pose proof (zlen_nonneg l); lia]. Qed.

Global Hint Rewrite @zlen_nil @zlen_cons @zlen_app @zlen_map @zlen_repeat @zlen_rev
  @to_nat_zlen : zlen.

(** ** Ranges *)
Lemma range_0 : range 0 = []. Proof. reflexivity. Qed.
Lemma range_neg n : n <= 0 -> range n = [].
Proof. intros; unfold range; now replace (Z.to_nat n) with 0%nat by lia. Qed.
Lemma range_succ n : 0 <= n -> range (n + 1) = range n ++ [n].
Proof.
  intros; unfold range. replace (Z.to_nat (n + 1)) with (S (Z.to_nat n)) by lia.
  rewrite seq_S, map_app. cbn. do 2 f_equal. lia.
Qed.
Lemma length_range n : length (range n) = Z.to_nat n.
Proof. unfold range; now rewrite map_length, seq_length. Qed.
Lemma zlen_range n : zlen (range n) = Z.max 0 n.
Proof. unfold zlen; rewrite length_range; lia. Qed.
Lemma in_range n i : In i (range n) <-> 0 <= i < n.
Proof.
  unfold range; rewrite in_map_iff; split.
  - intros (k & <- & Hk); rewrite in_seq in Hk; lia.
  - intros; exists (Z.to_nat i); rewrite in_seq; lia.
Qed.
Lemma nth_range n i d : 0 <= i < n -> nth (Z.to_nat i) (range n) d = i.
Proof.
  intros H; unfold range.
  rewrite (nth_indep _ d (Z.of_nat 0)) by (rewrite map_length, seq_length; lia).
  rewrite map_nth, seq_nth by lia. lia.
Qed.
Lemma range_shift n : 0 <= n -> range (n + 1) = 0 :: map (Z.add 1) (range n).
Proof.
  intros; unfold range. replace (Z.to_nat (n + 1)) with (S (Z.to_nat n)) by lia.
  cbn. f_equal. rewrite <- seq_shift, !map_map. apply map_ext; intros; lia.
Qed.

(** ** Indexing *)
Lemma index_ok {A} (l : list A) i d :
  0 <= i < zlen l -> index l i = Ok (nth (Z.to_nat i) l d).
Proof.
  intros H; unfold index.
  destruct (Z.leb_spec 0 i), (Z.ltb_spec i (zlen l)); try lia; cbn.
  destruct (nth_error l (Z.to_nat i)) eqn:E.
  - now rewrite (nth_error_nth _ _ d E).
  - apply nth_error_None in E. unfold zlen in *; lia.
Qed.
Lemma index_inv {A} (l : list A) i a : index l i = Ok a -> 0 <= i < zlen l /\ nth_error l (Z.to_nat i) = Some a.
Proof.
  unfold index.
  destruct (Z.leb_spec 0 i), (Z.ltb_spec i (zlen l)); cbn; try discriminate.
  destruct (nth_error l (Z.to_nat i)) eqn:E; intros [= ->]; split; [lia | reflexivity].
Qed.
Lemma index_oob {A} (l : list A) i : ~ (0 <= i < zlen l) -> index l i = Panic IndexOutOfBounds.
Proof.
  unfold index; intros.
  destruct (Z.leb_spec 0 i), (Z.ltb_spec i (zlen l)); cbn; try reflexivity; lia.
Qed.

Lemma length_replace_nth {A} n (l : list A) a : length (replace_nth n l a) = length l.
Proof. revert n; induction l; destruct n; cbn; auto. Qed.
Lemma zlen_replace_nth {A} n (l : list A) a : zlen (replace_nth n l a) = zlen l.
Proof. unfold zlen; now rewrite length_replace_nth. Qed.
Global Hint Rewrite @zlen_replace_nth : zlen.
Lemma nth_replace_same {A} n (l : list A) a d :
  (n < length l)%nat -> nth n (replace_nth n l a) d = a.
Proof. revert n; induction l; destruct n; cbn; intros; try lia; auto. apply IHl; lia. Qed.
Lemma nth_replace_other {A} n m (l : list A) a d :
  n <> m -> nth m (replace_nth n l a) d = nth m l d.
Proof.
  revert n m; induction l; destruct n, m; cbn; intros; try congruence; auto.
Qed.
Lemma nth_replace {A} n m (l : list A) a d :
  nth m (replace_nth n l a) d =
  if (Nat.eqb n m && Nat.ltb n (length l))%bool then a else nth m l d.
Proof.
  destruct (Nat.eqb_spec n m) as [->|]; cbn [andb].
  - destruct (Nat.ltb_spec m (length l)).
    + now apply nth_replace_same.
    + rewrite !nth_overflow; auto. now rewrite length_replace_nth.
  - now apply nth_replace_other.
Qed.
Lemma nth_error_replace_same {A} n (l : list A) a :
  (n < length l)%nat -> nth_error (replace_nth n l a) n = Some a.
Proof. revert n; induction l; destruct n; cbn; intros; try lia; auto. apply IHl; lia. Qed.
Lemma nth_error_replace_other {A} n m (l : list A) a :
  n <> m -> nth_error (replace_nth n l a) m = nth_error l m.
Proof.
  revert n m; induction l; destruct n, m; cbn; intros; try congruence; auto.
Qed.
Lemma replace_nth_app_l {A} n (l r : list A) a :
  (n < length l)%nat -> replace_nth n (l ++ r) a = replace_nth n l a ++ r.
Proof. revert n; induction l; destruct n; cbn; intros; try lia; auto. f_equal; apply IHl; lia. Qed.
Lemma replace_nth_app_r {A} n (l r : list A) a :
  (length l <= n)%nat -> replace_nth n (l ++ r) a = l ++ replace_nth (n - length l) r a.
Proof.
  revert n; induction l; cbn; intros; [now rewrite Nat.sub_0_r|].
  destruct n; [lia|]. cbn. f_equal; apply IHl; lia.
Qed.
Lemma replace_nth_last {A} (l : list A) x a : replace_nth (length l) (l ++ [x]) a = l ++ [a].
Proof. rewrite replace_nth_app_r, Nat.sub_diag by lia; reflexivity. Qed.

Lemma store_ok {A} (l : list A) i a :
  0 <= i < zlen l -> store l i a = Ok (replace_nth (Z.to_nat i) l a).
Proof.
  intros; unfold store.
  destruct (Z.leb_spec 0 i), (Z.ltb_spec i (zlen l)); cbn; auto; lia.
Qed.
Lemma store_inv {A} (l : list A) i a l' :
  store l i a = Ok l' -> 0 <= i < zlen l /\ l' = replace_nth (Z.to_nat i) l a.
Proof.
  unfold store.
  destruct (Z.leb_spec 0 i), (Z.ltb_spec i (zlen l)); cbn; try discriminate.
  intros [= <-]; split; [lia | reflexivity].
Qed.

(** ** Bind *)
Lemma bind_ok {A B} (m : outcome A) (k : A -> outcome B) b :
  bind m k = Ok b -> exists a, m = Ok a /\ k a = Ok b.
Proof. destruct m; cbn; intros; try discriminate; eauto. Qed.
Lemma bind_Ok {A B} (a : A) (k : A -> outcome B) : bind (Ok a) k = k a.
Proof. reflexivity. Qed.
Lemma bind_assoc {A B C} (m : outcome A) (f : A -> outcome B) (g : B -> outcome C) :
  bind (bind m f) g = bind m (fun a => bind (f a) g).
Proof. destruct m; reflexivity. Qed.

Ltac inv_bind H :=
  let a := fresh "a" in let Ha := fresh "Ha" in
  apply bind_ok in H; destruct H as (a & Ha & H).

(** ** Checked arithmetic that stays in range *)
Lemma uchk_ok p w x : 0 <= x < 2 ^ w -> uchk p w x = Ok x.
Proof.
  intros; unfold uchk, in_u.
  destruct (Z.leb_spec 0 x), (Z.ltb_spec x (2 ^ w)); cbn; auto; lia.
Qed.
Lemma schk_ok p w x : - 2 ^ (w - 1) <= x < 2 ^ (w - 1) -> schk p w x = Ok x.
Proof.
  intros; unfold schk, in_s.
  destruct (Z.leb_spec (- 2 ^ (w - 1)) x), (Z.ltb_spec x (2 ^ (w - 1))); cbn; auto; lia.
Qed.
Lemma uwrap_small w x : 0 <= x < 2 ^ w -> uwrap w x = x.
Proof. intros; now apply Z.mod_small. Qed.
Lemma swrap_small w x : 0 < w -> - 2 ^ (w - 1) <= x < 2 ^ (w - 1) -> swrap w x = x.
Proof.
  intros; unfold swrap. rewrite Z.mod_small; [lia|].
  replace (2 ^ w) with (2 * 2 ^ (w - 1)); [lia|].
  rewrite <- Z.pow_succ_r by lia. f_equal; lia.
Qed.
Lemma swrap_range w x : 0 < w -> - 2 ^ (w - 1) <= swrap w x < 2 ^ (w - 1).
Proof.
  intros; unfold swrap.
  assert (2 ^ w = 2 * 2 ^ (w - 1)) by (rewrite <- Z.pow_succ_r by lia; f_equal; lia).
  assert (0 < 2 ^ w) by (apply Z.pow_pos_nonneg; lia).
  pose proof (Z.mod_pos_bound (x + 2 ^ (w - 1)) (2 ^ w)). lia.
Qed.
Lemma uwrap_range w x : 0 <= w -> 0 <= uwrap w x < 2 ^ w.
Proof.
  intros; unfold uwrap. apply Z.mod_pos_bound. apply Z.pow_pos_nonneg; lia.
Qed.
Lemma swrap_uwrap w x : 0 < w -> swrap w (uwrap w x) = swrap w x.
Proof.
  intros; unfold swrap, uwrap.
  now rewrite Z.add_mod_idemp_l by (apply Z.pow_nonzero; lia).
Qed.
Lemma uwrap_swrap w x : 0 < w -> uwrap w (swrap w x) = uwrap w x.
Proof.
  intros; unfold swrap, uwrap.
  rewrite Zminus_mod_idemp_l. f_equal; lia.
Qed.
Lemma udiv_ok x y : y <> 0 -> udiv x y = Ok (x / y).
Proof. intros; unfold udiv. destruct (Z.eqb_spec y 0); congruence. Qed.
Lemma zclamp_id x lo hi : lo <= x <= hi -> zclamp x lo hi = x.
Proof.
  intros; unfold zclamp.
  destruct (Z.ltb_spec x lo), (Z.ltb_spec hi x); lia.
Qed.
Lemma zclamp_range x lo hi : lo <= hi -> lo <= zclamp x lo hi <= hi.
Proof.
  intros; unfold zclamp.
  destruct (Z.ltb_spec x lo), (Z.ltb_spec hi x); lia.
Qed.
Lemma zclamp_eq x lo hi : lo <= hi -> zclamp x lo hi = Z.max lo (Z.min hi x).
Proof.
  intros; unfold zclamp.
  destruct (Z.ltb_spec x lo), (Z.ltb_spec hi x); lia.
Qed.
Lemma pow2_128 : 2 ^ 128 = 340282366920938463463374607431768211456. Proof. reflexivity. Qed.
Lemma pow2_64 : 2 ^ 64 = 18446744073709551616. Proof. reflexivity. Qed.
Lemma pow2_63 : 2 ^ 63 = 9223372036854775808. Proof. reflexivity. Qed.
Lemma pow2_127 : 2 ^ 127 = 170141183460469231731687303715884105728. Proof. reflexivity. Qed.
Lemma pow2_32 : 2 ^ 32 = 4294967296. Proof. reflexivity. Qed.

(** ** mapM, foldM *)
Lemma mapM_ok {A B} (f : A -> outcome B) (g : A -> B) l :
  (forall a, In a l -> f a = Ok (g a)) -> mapM f l = Ok (map g l).
Proof.
  induction l; cbn; intros H; auto.
  rewrite H by auto; cbn. rewrite IHl by auto. reflexivity.
Qed.
Lemma mapM_inv {A B} (f : A -> outcome B) l bs :
  mapM f l = Ok bs -> Forall2 (fun a b => f a = Ok b) l bs.
Proof.
  revert bs; induction l; cbn; intros bs H.
  - injection H as <-. constructor.
  - inv_bind H. inv_bind H. injection H as <-. constructor; auto.
Qed.
Lemma foldM_app {S A} (f : S -> A -> outcome S) l1 l2 s :
  foldM f (l1 ++ l2) s = bind (foldM f l1 s) (foldM f l2).
Proof.
  revert s; induction l1; cbn; intros; auto.
  destruct (f s a); cbn; auto.
Qed.
Lemma foldM_inv {S A} (P : S -> Prop) (f : S -> A -> outcome S) l s s' :
  (forall s a s', In a l -> P s -> f s a = Ok s' -> P s') ->
  P s -> foldM f l s = Ok s' -> P s'.
Proof.
  revert s; induction l; cbn; intros s H H0 E.
  - congruence.
  - inv_bind E. eapply IHl; [| |exact E]; eauto.
Qed.
