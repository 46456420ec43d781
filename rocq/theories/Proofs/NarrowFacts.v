(** * A target with little memory does the same or runs out of memory *)
From Coq Require Import ZArith List Bool Lia.
From Verif Require Import Model.Base Model.F32 Model.Sample Model.BitStream Model.NibbleList Model.BitVec Model.CircularStack
  Model.Frame Model.Adhoc Model.Bincode Model.Wav Model.Narrow Spec.Files Spec.Targets Proofs.BaseFacts Proofs.Oversize Proofs.AnyState Proofs.TypeFacts Proofs.FileFacts Proofs.ResourceFacts Proofs.WavSeek.
Import ListNotations.
Open Scope Z_scope.

(** ** Outcomes that agree *)
Definition agree {A} (I : A -> Prop) (m m' : outcome A) : Prop :=
  m = Panic OutOfMemory \/ (m = m' /\ forall a, m' = Ok a -> I a).
Lemma agree_same {A} (I : A -> Prop) m : (forall a, m = Ok a -> I a) -> agree I m m.
Proof. right. auto. Qed.
Lemma agree_ok {A} (I : A -> Prop) a : I a -> agree I (Ok a) (Ok a).
Proof. intros H. apply agree_same. intros b E. injection E as <-. exact H. Qed.
Lemma agree_panic {A} (I : A -> Prop) r : agree I (Panic r) (Panic r).
Proof. apply agree_same. discriminate. Qed.
Lemma agree_fuel {A} (I : A -> Prop) : agree I OutOfFuel OutOfFuel.
Proof. apply agree_same. discriminate. Qed.
Lemma agree_bind {A B} (I : A -> Prop) (J : B -> Prop) m m' k k' :
  agree I m m' -> (forall a, I a -> agree J (k a) (k' a)) -> agree J (bind m k) (bind m' k').
Proof.
  intros [->|[-> H]] K; [now left|]. destruct m' as [a|r|]; [|apply agree_panic|apply agree_fuel]. apply K. now apply H.
Qed.
Lemma agree_step {A B} (J : B -> Prop) (m : outcome A) k k' :
  (forall a, m = Ok a -> agree J (k a) (k' a)) -> agree J (bind m k) (bind m k').
Proof. intros K. destruct m as [a|r|]; [|apply agree_panic|apply agree_fuel]. now apply K. Qed.
Lemma agree_weaken {A} (I J : A -> Prop) m m' : (forall a, I a -> J a) -> agree I m m' -> agree J m m'.
Proof. intros H [->|[-> K]]; [now left|right]. auto. Qed.
Lemma agree_let {A B} (I : A -> Prop) (J : B -> Prop) m a k (M : outcome B) :
  agree I m (Ok a) -> (I a -> agree J (k a) M) -> agree J (bind m k) M.
Proof. intros [->|[-> H]] K; [now left|]. apply K. now apply H. Qed.
Lemma agree_foldM {S X} (I : S -> Prop) (f f' : S -> X -> outcome S) l : forall s,
  (forall s x, In x l -> I s -> agree I (f s x) (f' s x)) -> I s -> agree I (foldM f l s) (foldM f' l s).
Proof.
  induction l as [|x l IH]; intros s H Hs; cbn [foldM]; [now apply agree_ok|].
  eapply agree_bind; [apply H; [now left|exact Hs]|]. intros s' Hs'. apply IH; auto. intros; apply H; auto. now right.
Qed.
Lemma agree_or {A} (I : A -> Prop) m m' : agree I m m' -> same_or_memory m m'.
Proof. intros [->|[-> _]]; [now left|now right]. Qed.

Lemma in_range x n : In x (range n) -> 0 <= x < n.
Proof. unfold range. intros H. apply in_map_iff in H. destruct H as (k & <- & H). apply in_seq in H. lia. Qed.
Lemma mapM_ext {A B} (f g : A -> outcome B) l : (forall x, In x l -> f x = g x) -> mapM f l = mapM g l.
Proof.
  induction l as [|x l IH]; intros H; cbn [mapM]; [reflexivity|]. rewrite (H x) by now left. rewrite IH; auto. intros; apply H. now right.
Qed.

Section Facts.
Variable w : Z.
Variable alloc : Z -> bool.
Hypothesis T : target w alloc.

Let HW : 32 <= w <= 64. Proof. apply T. Qed.
Let HA : forall n, alloc n = true -> n < 2 ^ (w - 1). Proof. apply T. Qed.
Lemma pow_w : 2 ^ (w - 1) * 2 = 2 ^ w.
Proof. rewrite Z.mul_comm, <- Z.pow_succ_r by lia. f_equal. lia. Qed.
Lemma pow_lo : 2 ^ 32 <= 2 ^ w.
Proof. apply Z.pow_le_mono_r; lia. Qed.
Lemma pow_hi : 2 ^ w <= 2 ^ 64.
Proof. apply Z.pow_le_mono_r; lia. Qed.
Ltac pows := pose proof pow_w; pose proof pow_lo; pose proof pow_hi; change (2 ^ 32) with 4294967296 in *; change (2 ^ 64) with 18446744073709551616 in *.

Lemma push_agree {A} size (l : list A) a : agree (fun l' => zlen l' = zlen l + 1 /\ size * zlen l' < 2 ^ (w - 1)) (t_push alloc size l a) (Ok (l ++ [a])).
Proof.
  unfold t_push. destruct (alloc _) eqn:E; [|now left]. apply agree_ok. apply HA in E. rewrite zlen_app. change (zlen [a]) with 1. auto.
Qed.
Lemma reserve_agree n : agree (fun _ => n < 2 ^ (w - 1)) (t_reserve alloc n) (Ok tt).
Proof. unfold t_reserve. destruct (alloc n) eqn:E; [|now left]. apply agree_ok. now apply HA. Qed.

(** ** The bit stream *)
Definition roomy (s : bitstream) : Prop :=
  0 <= bs_cursor s /\ bs_cursor s / 128 <= zlen (bs_binary s) /\ 16 * zlen (bs_binary s) < 2 ^ (w - 1).
Definition after (s s' : bitstream) : Prop := roomy s' /\ zlen (bs_binary s) <= zlen (bs_binary s').
Lemma roomy_index s : roomy s -> t_chunk_index w s = chunk_index s /\ chunk_index s = bs_cursor s / 128 /\
  forall p, uchk p w (bs_cursor s / 128 + 1) = Ok (bs_cursor s / 128 + 1) /\ uchk p 64 (bs_cursor s / 128 + 1) = Ok (bs_cursor s / 128 + 1).
Proof.
  intros (C & D & E). assert (0 <= bs_cursor s / 128) by (apply Z.div_pos; lia). pows. unfold t_chunk_index, chunk_index.
  rewrite !uwrap_small by (change (2 ^ 64) with 18446744073709551616; lia).
  split; [reflexivity|]. split; [reflexivity|]. intros p. split; apply uchk_ok; change (2 ^ 64) with 18446744073709551616; lia.
Qed.
Lemma allocate_agree s i : 16 * zlen (bs_binary s) < 2 ^ (w - 1) -> i <= zlen (bs_binary s) ->
  agree (fun s' => bs_cursor s' = bs_cursor s /\ i < zlen (bs_binary s') /\ zlen (bs_binary s) <= zlen (bs_binary s') /\ 16 * zlen (bs_binary s') < 2 ^ (w - 1))
    (t_allocate alloc s i) (Ok (allocate_if_needed s i)).
Proof.
  intros H Hi. unfold t_allocate, allocate_if_needed. destruct (Z.leb_spec (zlen (bs_binary s)) i) as [L|L].
  - eapply agree_let; [apply push_agree|]. intros [E1 E2]. apply agree_ok. cbn [set_binary bs_cursor bs_binary]. lia.
  - apply agree_ok. lia.
Qed.
Lemma offset_val p s n s' : 0 <= bs_cursor s -> bs_cursor s + n < 2 ^ 100 -> 0 <= n -> offset_bit_cursor p s n = Ok s' ->
  bs_cursor s' = bs_cursor s + n /\ bs_binary s' = bs_binary s.
Proof.
  intros C B N H. unfold offset_bit_cursor in H. assert (2 ^ 100 < 2 ^ 127) by (apply Z.pow_lt_mono_r; lia).
  assert (2 ^ 127 < 2 ^ 128) by (apply Z.pow_lt_mono_r; lia).
  rewrite swrap_small in H by (change (128 - 1) with 127; lia). rewrite schk_ok in H by (change (128 - 1) with 127; lia).
  cbn [bind] in H. rewrite uwrap_small in H by lia. injection H as <-. auto.
Qed.
Lemma roomy_small s : roomy s -> bs_cursor s + 1000 < 2 ^ 100.
Proof.
  intros (C & D & E). pows. assert (bs_cursor s < 128 * (bs_cursor s / 128) + 128) by (pose proof (Z.mod_pos_bound (bs_cursor s) 128); pose proof (Z.div_mod (bs_cursor s) 128); lia).
  change (2 ^ 100) with 1267650600228229401496703205376. lia.
Qed.
Lemma zlen_store {A} (l : list A) i a l' : store l i a = Ok l' -> zlen l' = zlen l.
Proof. intros H. apply store_inv in H. destruct H as [_ ->]. unfold zlen. now rewrite length_replace_nth. Qed.
Lemma div_add a n k : 0 <= a -> 0 <= n -> n <= 128 * k -> (a + n) / 128 <= a / 128 + k.
Proof. intros. apply Z.lt_succ_r. apply Z.div_lt_upper_bound; [lia|]. pose proof (Z.mod_pos_bound a 128). pose proof (Z.div_mod a 128). lia. Qed.

Lemma write_bits_agree p s v n : roomy s -> 0 <= n <= 128 -> agree (after s) (t_write_bits w alloc p s v n) (write_bits p s v n).
Proof.
  intros R N. pose proof (roomy_small s R) as SM. destruct (roomy_index s R) as (E1 & E2 & E3). destruct R as (C & D & E).
  unfold t_write_bits, write_bits. rewrite E1, E2. destruct (E3 p) as [-> ->]. cbn [bind].
  set (cur := bs_cursor s / 128) in *. set (bi := chunk_bit_index s).
  eapply (agree_let _ _ _ (allocate_if_needed s cur)); [apply allocate_agree; auto|]. intros (A1 & A2 & A3 & A4).
  set (s1 := allocate_if_needed s cur) in *. clearbody s1.
  eapply (agree_let _ _ _ (allocate_if_needed s1 (cur + 1))); [apply allocate_agree; auto; lia|]. intros (B1 & B2 & B3 & B4).
  set (s2 := allocate_if_needed s1 (cur + 1)) in *. clearbody s2.
  apply agree_same. intros s' H. inv_bind H. inv_bind H. inv_bind H.
  assert (X : bs_cursor a1 = bs_cursor s /\ zlen (bs_binary a1) = zlen (bs_binary s2)).
  { apply zlen_store in Ha0. destruct (_ <? _).
    - do 5 inv_bind Ha1. injection Ha1 as <-. cbn [set_binary bs_binary bs_cursor] in *.
      repeat match goal with Hx : store _ _ _ = Ok _ |- _ => apply zlen_store in Hx end. split; congruence.
    - injection Ha1 as <-. cbn [set_binary bs_binary bs_cursor] in *. split; congruence. }
  destruct X as [X1 X2]. apply offset_val in H; [|lia..]. destruct H as [H1 H2].
  pose proof (div_add (bs_cursor s) n 1). fold cur in H. unfold after, roomy. rewrite H1, H2, X1, X2. lia.
Qed.
Lemma write_bit_agree p s v : roomy s -> agree (after s) (t_write_bit w alloc p s v) (write_bit p s v).
Proof.
  intros R. pose proof (roomy_small s R) as SM. destruct (roomy_index s R) as (E1 & E2 & E3). destruct R as (C & D & E).
  unfold t_write_bit, write_bit. rewrite E1, E2.
  set (cur := bs_cursor s / 128) in *. set (bi := chunk_bit_index s).
  eapply (agree_let _ _ _ (allocate_if_needed s cur)); [apply allocate_agree; auto|]. intros (A1 & A2 & A3 & A4).
  set (s1 := allocate_if_needed s cur) in *. clearbody s1.
  apply agree_same. intros s' H. inv_bind H. inv_bind H. apply zlen_store in Ha0. apply offset_val in H; cbn [set_binary bs_cursor bs_binary] in *; [|lia..].
  destruct H as [H1 H2]. pose proof (div_add (bs_cursor s) 1 1). fold cur in H. unfold after, roomy. rewrite H1, H2, A1, Ha0. lia.
Qed.
Lemma peek_agree p s n : roomy s ->
  agree (fun '(s', _) => after s s' /\ bs_cursor s' = bs_cursor s /\ bs_cursor s / 128 + 2 <= zlen (bs_binary s')) (t_peek_bits w alloc p s n) (peek_bits p s n).
Proof.
  intros R. destruct (roomy_index s R) as (E1 & E2 & E3). destruct R as (C & D & E).
  unfold t_peek_bits, peek_bits. rewrite E1, E2. destruct (E3 p) as [-> ->]. cbn [bind].
  set (cur := bs_cursor s / 128) in *. set (bi := chunk_bit_index s).
  eapply (agree_let _ _ _ (allocate_if_needed s cur)); [apply allocate_agree; auto|]. intros (A1 & A2 & A3 & A4).
  set (s1 := allocate_if_needed s cur) in *. clearbody s1.
  eapply (agree_let _ _ _ (allocate_if_needed s1 (cur + 1))); [apply allocate_agree; auto; lia|]. intros (B1 & B2 & B3 & B4).
  set (s2 := allocate_if_needed s1 (cur + 1)) in *. clearbody s2.
  assert (X : after s s2 /\ bs_cursor s2 = bs_cursor s /\ cur + 2 <= zlen (bs_binary s2)).
  { unfold after, roomy. rewrite B1, A1. fold cur. lia. }
  apply agree_same. intros [s' v'] H. destruct (_ <=? _); [injection H as <- _; exact X|].
  do 2 inv_bind H. injection H as <- _. exact X.
Qed.
Lemma after_refl s : roomy s -> after s s.
Proof. intros. split; [auto|lia]. Qed.
Lemma after_trans a b c : after a b -> after b c -> after a c.
Proof. intros [_ H] [R K]. split; [auto|lia]. Qed.
Lemma read_bit_agree p s : roomy s -> agree (fun '(s', _) => after s s') (t_read_bit w p s) (read_bit p s).
Proof.
  intros R. pose proof (roomy_small s R) as SM. destruct (roomy_index s R) as (E1 & E2 & E3). pose proof R as (C & D & E).
  unfold t_read_bit, read_bit. rewrite E1, E2. apply agree_same. intros [s' v] H.
  destruct (Z.leb_spec (zlen (bs_binary s)) (bs_cursor s / 128)) as [L|L]; [injection H as <- _; now apply after_refl|].
  do 2 inv_bind H. injection H as <- _. apply offset_val in Ha; [|lia..]. destruct Ha as [H1 H2].
  pose proof (div_add (bs_cursor s) 1 1). unfold after, roomy. rewrite H1, H2. lia.
Qed.
Lemma read_bits_agree p s n : roomy s -> 0 <= n <= 128 -> agree (fun '(s', _) => after s s') (t_read_bits w alloc p s n) (read_bits p s n).
Proof.
  intros R N. pose proof (roomy_small s R) as SM. unfold t_read_bits, read_bits. eapply agree_bind; [now apply peek_agree|].
  intros [s1 v] ((R1 & L1) & C1 & B1). apply agree_same. intros [s' v'] H. inv_bind H. injection H as <- _.
  destruct R1 as (X1 & X2 & X3). apply offset_val in Ha; [|lia..]. destruct Ha as [H1 H2].
  pose proof (div_add (bs_cursor s) n 1). rewrite C1 in *. unfold after, roomy. rewrite H1, H2. lia.
Qed.
Lemma write_unary_agree p fuel : forall s q, roomy s -> agree (after s) (t_write_unary w alloc p fuel s q) (write_unary p fuel s q).
Proof.
  induction fuel as [|fuel IH]; intros s q R; cbn [t_write_unary write_unary]; [apply agree_fuel|].
  destruct (Z.ltb_spec 0 q); [|apply agree_ok; now apply after_refl]. destruct (Z.ltb_spec 128 q).
  - eapply agree_bind; [apply write_bits_agree; auto; lia|]. intros s1 H1. eapply agree_weaken; [|apply IH; apply H1]. intros s2. now apply after_trans.
  - apply write_bits_agree; auto; lia.
Qed.
Lemma write_compressed_agree p s e v : roomy s -> 0 <= e < 16 -> agree (after s) (t_write_compressed w alloc p s e v) (write_compressed p s e v).
Proof.
  intros R He. unfold t_write_compressed, write_compressed.
  assert (U : uwrap w e = e /\ uwrap 64 e = e) by (pows; split; apply uwrap_small; change (2 ^ 64) with 18446744073709551616; lia).
  do 5 (apply agree_step; intros ? _). destruct U as [-> ->].
  eapply agree_bind; [now apply write_bit_agree|]. intros s1 H1. eapply agree_bind; [apply write_unary_agree; apply H1|]. intros s2 H2.
  eapply agree_bind; [apply write_bit_agree; apply H2|]. intros s3 H3. eapply agree_weaken; [|apply write_bits_agree; [apply H3|lia]].
  intros s4 H4. eauto using after_trans.
Qed.
Lemma skip_ones_agree p fuel : forall s q, roomy s ->
  agree (fun '(s', _, _) => after s s' /\ bs_cursor s' / 128 + 2 <= zlen (bs_binary s')) (t_skip_ones w alloc p fuel s q) (skip_ones p fuel s q).
Proof.
  induction fuel as [|fuel IH]; intros s q R; cbn [t_skip_ones skip_ones]; [apply agree_fuel|].
  pose proof (roomy_small s R) as SM. eapply agree_bind; [now apply peek_agree|]. intros [s1 v] (H1 & C1 & B1).
  destruct (v =? _).
  - apply agree_step. intros s2 H2. destruct H1 as [(X1 & X2 & X3) X4]. apply offset_val in H2; [|lia..]. destruct H2 as [H2 H3].
    assert (R2 : after s s2) by (pose proof (div_add (bs_cursor s) 128 1); rewrite C1 in H2; unfold after, roomy; rewrite H2, H3; destruct R; lia).
    apply agree_step. intros q2 _. eapply agree_weaken; [|apply IH; apply R2]. intros [[s3 q3] v3] [K1 K2]. split; [|auto]. now apply (after_trans s s2).
  - apply agree_ok. rewrite C1. auto.
Qed.
Lemma ones_range fuel x : 0 <= trailing_ones fuel x <= Z.of_nat fuel.
Proof. revert x; induction fuel as [|fuel IH]; intros x; cbn [trailing_ones]; [lia|]. destruct (Z.odd x); [|lia]. specialize (IH (Z.shiftr x 1)). lia. Qed.
Lemma read_compressed_agree p s e : roomy s -> 0 <= e < 16 -> agree (fun '(s', _) => after s s') (t_read_compressed w alloc p s e) (read_compressed p s e).
Proof.
  intros R He. unfold t_read_compressed, read_compressed. eapply agree_bind; [now apply read_bit_agree|]. intros [s1 b] H1.
  apply agree_step. intros d _. eapply agree_bind; [apply skip_ones_agree; apply H1|]. intros [[s2 q] ck] [H2 B2].
  pose proof (ones_range 128 ck) as O. change (Z.of_nat 128) with 128 in O. set (z := trailing_ones 128 ck) in *. clearbody z.
  apply agree_step. intros s3 H3. pose proof (roomy_small s2 (proj1 H2)) as SM. destruct H2 as [(X1 & X2 & X3) X4].
  apply offset_val in H3; [|lia..]. destruct H3 as [H3 H4].
  assert (R3 : after s1 s3) by (pose proof (div_add (bs_cursor s2) (z + 1) 2); unfold after, roomy; rewrite H3, H4; lia).
  apply agree_step. intros q2 _. rewrite (uwrap_small 32 e) by (change (2 ^ 32) with 4294967296; lia).
  eapply agree_bind; [apply read_bits_agree; [apply R3|lia]|]. intros [s4 r] H5.
  apply agree_same. intros [s' v'] H. do 7 inv_bind H. injection H as <- _. eauto using after_trans.
Qed.

(** ** Frame headers *)
Definition cur_in (n cu : Z) : Prop := 0 <= cu /\ cu / 128 <= n.
Record tabled (n : Z) (hs : frame_headers) : Prop := {
  tb_cursors : Forall (cur_in n) (fhs_cursors hs);
  tb_bits : 0 <= bv_cursor (fhs_inits hs);
  tb_words : bv_cursor (fhs_inits hs) / 64 <= zlen (bv_binary (fhs_inits hs));
  tb_count : 0 <= nl_count (fhs_exps hs) < 2 ^ 32;
  tb_cursor : 0 <= fhs_cursor hs;
  tb_len1 : 8 * zlen (bv_binary (fhs_inits hs)) < 2 ^ (w - 1);
  tb_len2 : zlen (nl_data (fhs_exps hs)) < 2 ^ (w - 1);
  tb_len3 : zlen (fhs_sizes hs) < 2 ^ (w - 1);
  tb_len4 : zlen (fhs_cursors hs) < 2 ^ (w - 1);
  tb_len5 : zlen (fhs_hists hs) < 2 ^ (w - 1) }.
Lemma tabled_more n n' hs : n <= n' -> tabled n hs -> tabled n' hs.
Proof. intros L []. constructor; auto. eapply Forall_impl; [|eassumption]. unfold cur_in. intros; lia. Qed.
Lemma tabled_set n hs i : 0 <= i -> tabled n hs -> tabled n (fhs_set_cursor hs i).
Proof. intros L []. constructor; auto. Qed.
Lemma uchk_range p v x y : 0 <= v -> uchk p v x = Ok y -> 0 <= y < 2 ^ v.
Proof.
  intros V H. unfold uchk, in_u in H. destruct (_ && _) eqn:E.
  - injection H as <-. apply andb_prop in E. lia.
  - destruct p; [discriminate|]. injection H as <-. now apply uwrap_range.
Qed.
Lemma zlen_pos {A} (l : list A) : 0 <= zlen l.
Proof. unfold zlen. lia. Qed.

Lemma nl_push_agree p n v : 0 <= nl_count n < 2 ^ 32 -> zlen (nl_data n) < 2 ^ (w - 1) ->
  agree (fun n' => 0 <= nl_count n' < 2 ^ 32 /\ zlen (nl_data n') < 2 ^ (w - 1)) (t_nl_push alloc p n v) (nl_push p n v).
Proof.
  intros C L. unfold t_nl_push, nl_push.
  assert (X : agree (fun d => zlen d < 2 ^ (w - 1)) (if zlen (nl_data n) <=? nl_count n / 2 then t_push alloc 1 (nl_data n) 0 else Ok (nl_data n))
                (Ok (if zlen (nl_data n) <=? nl_count n / 2 then nl_data n ++ [0] else nl_data n))).
  { destruct (_ <=? _); [|now apply agree_ok]. eapply agree_weaken; [|apply push_agree]. intros d [_ H]. cbn beta in *. lia. }
  eapply agree_let; [exact X|]. intros D. set (data := if _ <=? _ then _ else _) in *. clearbody data.
  apply agree_same. intros n' H. do 3 inv_bind H. injection H as <-. cbn [nl_count nl_data]. apply zlen_store in Ha0.
  apply uchk_range in Ha1; [|lia]. rewrite Ha0. auto.
Qed.
Definition bits_in (v : bitvec) : Prop :=
  0 <= bv_cursor v /\ bv_cursor v / 64 <= zlen (bv_binary v) /\ 8 * zlen (bv_binary v) < 2 ^ (w - 1).
Lemma bv_push_agree p v b : bits_in v -> agree bits_in (t_bv_push w alloc p v b) (bv_push p v b).
Proof.
  intros (C & D & E). unfold t_bv_push, bv_push. assert (Q : 0 <= bv_cursor v / 64) by (apply Z.div_pos; lia).
  assert (U : t_bv_chunk_index w (bv_cursor v) = bv_cursor v / 64 /\ bv_chunk_index (bv_cursor v) = bv_cursor v / 64)
    by (pows; unfold t_bv_chunk_index, bv_chunk_index; split; apply uwrap_small; change (2 ^ 64) with 18446744073709551616; lia).
  destruct U as [-> ->]. set (ci := bv_cursor v / 64) in *.
  assert (X : agree (fun d => ci < zlen d /\ 8 * zlen d < 2 ^ (w - 1)) (if zlen (bv_binary v) <=? ci then t_push alloc 8 (bv_binary v) 0 else Ok (bv_binary v))
                (Ok (if zlen (bv_binary v) <=? ci then bv_binary v ++ [0] else bv_binary v))).
  { destruct (Z.leb_spec (zlen (bv_binary v)) ci); [|apply agree_ok; lia]. eapply agree_weaken; [|apply push_agree]. intros d [H1 H2]. cbn beta in *. lia. }
  eapply agree_let; [exact X|]. intros [D1 D2]. set (data := if _ <=? _ then _ else _) in *. clearbody data.
  apply agree_same. intros v' H. do 2 inv_bind H. apply zlen_store in Ha0. unfold bv_offset_cursor in H. cbn [bv_cursor bv_binary] in H.
  assert (SM : bv_cursor v + 1 < 2 ^ 100).
  { assert (bv_cursor v < 64 * ci + 64) by (unfold ci; pose proof (Z.mod_pos_bound (bv_cursor v) 64); pose proof (Z.div_mod (bv_cursor v) 64); lia).
    pows. change (2 ^ 100) with 1267650600228229401496703205376. lia. }
  assert (2 ^ 100 < 2 ^ 127) by (apply Z.pow_lt_mono_r; lia). assert (2 ^ 127 < 2 ^ 128) by (apply Z.pow_lt_mono_r; lia).
  rewrite swrap_small in H by (change (128 - 1) with 127; lia). rewrite schk_ok in H by (change (128 - 1) with 127; lia).
  cbn [bind] in H. rewrite uwrap_small in H by lia. injection H as <-. unfold bits_in. cbn [bv_cursor bv_binary]. rewrite Ha0.
  split; [lia|]. split; [|lia]. apply Z.lt_succ_r, Z.div_lt_upper_bound; [lia|]. unfold ci in *. pose proof (Z.mod_pos_bound (bv_cursor v) 64). pose proof (Z.div_mod (bv_cursor v) 64). lia.
Qed.
Lemma small_word i : 0 <= i < 2 ^ 32 -> t_bv_chunk_index w i = i / 64 /\ bv_chunk_index i = i / 64.
Proof.
  intros H. assert (0 <= i / 64 <= i) by (split; [apply Z.div_pos; lia|apply Z.div_le_upper_bound; lia]). pows.
  unfold t_bv_chunk_index, bv_chunk_index. split; apply uwrap_small; change (2 ^ 64) with 18446744073709551616; lia.
Qed.
Lemma bv_get_same v i : 0 <= i < 2 ^ 32 -> t_bv_get w v i = bv_get v i.
Proof. intros H. unfold t_bv_get, bv_get. destruct (small_word i H) as [-> ->]. reflexivity. Qed.
Lemma bv_set_same v i b : 0 <= i < 2 ^ 32 -> t_bv_set w v i b = bv_set v i b.
Proof. intros H. unfold t_bv_set, bv_set. destruct (small_word i H) as [-> ->]. reflexivity. Qed.
Lemma bv_set_in v i b : bits_in v -> bits_in (bv_set v i b).
Proof. intros H. unfold bv_set. destruct (_ <=? _); [exact H|]. unfold bits_in in *. cbn [bv_cursor bv_binary]. now rewrite zlen_replace_nth. Qed.
Lemma Forall_set {A} (P : A -> Prop) l i a l' : Forall P l -> P a -> store l i a = Ok l' -> Forall P l'.
Proof.
  intros F Pa H. apply store_inv in H. destruct H as [_ ->]. generalize (Z.to_nat i). clear i.
  induction F as [|x l Px F IH]; intros [|n]; cbn [replace_nth]; auto.
Qed.
Lemma Forall_at {A} (P : A -> Prop) l i a : Forall P l -> index l i = Ok a -> P a.
Proof.
  intros F H. unfold index in H. destruct (_ && _); [|discriminate]. destruct (nth_error l (Z.to_nat i)) eqn:E; [|discriminate].
  injection H as <-. rewrite Forall_forall in F. eapply F, nth_error_In, E.
Qed.
Lemma fhs_push_agree p n hs h : tabled n hs -> cur_in n (fh_bit_cursor h) -> agree (tabled n) (t_fhs_push w alloc p hs h) (fhs_push p hs h).
Proof.
  intros TB [CU CV]. pose proof TB as [T1 T2 T3 T4 T5 T6 T7 T8 T9 T10]. unfold t_fhs_push, fhs_push.
  assert (CW : cur_in n (uwrap 64 (fh_bit_cursor h))).
  { unfold uwrap. pose proof (Z.mod_pos_bound (fh_bit_cursor h) (2 ^ 64) ltac:(lia)). split; [lia|].
    assert (fh_bit_cursor h mod 2 ^ 64 <= fh_bit_cursor h) by (apply Z.mod_le; lia).
    assert (fh_bit_cursor h mod 2 ^ 64 / 128 <= fh_bit_cursor h / 128) by (apply Z.div_le_mono; lia). lia. }
  set (c64 := uwrap 64 (fh_bit_cursor h)) in *. clearbody c64.
  apply (agree_bind (tabled n)).
  - destruct (Z.leb_spec (fhs_len hs) (fhs_cursor hs)) as [L|L].
    + eapply agree_bind; [apply nl_push_agree; auto|]. intros e [E1 E2]. eapply agree_bind; [apply bv_push_agree; split; auto|]. intros b (B1 & B2 & B3).
      eapply (agree_let _ _ _ (fhs_sizes hs ++ [fh_size h])); [apply push_agree|]. intros [S1 S2].
      eapply (agree_let _ _ _ (fhs_cursors hs ++ [c64])); [apply push_agree|]. intros [U1 U2].
      eapply (agree_let _ _ _ (fhs_hists hs ++ [fh_history h])); [apply push_agree|]. intros [V1 V2].
      apply agree_ok. constructor; cbn [fhs_cursors fhs_inits fhs_exps fhs_cursor fhs_sizes fhs_hists]; auto; try (pose proof (zlen_pos (fhs_sizes hs)); pose proof (zlen_pos (fhs_cursors hs)); pose proof (zlen_pos (fhs_hists hs)); lia).
      apply Forall_app. auto.
    + unfold fhs_len, nl_len in L. rewrite bv_set_same by lia.
      apply agree_same. intros hs' H. do 3 inv_bind H. injection H as <-.
      assert (BI : bits_in (bv_set (fhs_inits hs) (fhs_cursor hs) (if fh_is_init h then 1 else 0))) by (apply bv_set_in; split; auto).
      destruct BI as (B1 & B2 & B3).
      constructor; cbn [fhs_cursors fhs_inits fhs_exps fhs_cursor fhs_sizes fhs_hists]; auto.
      * eapply Forall_set; [exact T1|exact CW|eassumption].
      * unfold nl_set. destruct (_ <=? _); auto.
      * unfold nl_set. destruct (_ <=? _); auto. cbn [nl_data]. now rewrite zlen_replace_nth.
      * apply zlen_store in Ha. lia.
      * apply zlen_store in Ha0. lia.
      * apply zlen_store in Ha1. lia.
  - intros f' F'. apply agree_same. intros f2 H. inv_bind H. injection H as <-. apply uchk_range in Ha; [|lia]. apply tabled_set; [lia|auto].
Qed.
Lemma fhs_get_same n hs i : tabled n hs -> 0 <= i -> t_fhs_get w hs i = fhs_get hs i.
Proof.
  intros TB Hi. unfold t_fhs_get, fhs_get. destruct (Z.ltb_spec i (fhs_len hs)) as [L|L]; [|reflexivity].
  pose proof (tb_count _ _ TB) as C. unfold fhs_len, nl_len in L. rewrite bv_get_same by lia. reflexivity.
Qed.
Lemma nl_get_range l i : 0 <= nl_get l i < 16.
Proof.
  unfold nl_get. destruct (_ <=? _); [lia|]. change 15 with (Z.ones 4). rewrite Z.land_ones by lia.
  pose proof (Z.mod_pos_bound (Z.shiftr (nth (Z.to_nat (i / 2)) (nl_data l) 0) (4 * (i mod 2))) (2 ^ 4)). change (2 ^ 4) with 16 in *. lia.
Qed.
Lemma fhs_get_in n hs i h : tabled n hs -> fhs_get hs i = Ok (Some h) -> cur_in n (fh_bit_cursor h) /\ 0 <= fh_exponent h < 16 /\ i < fhs_len hs.
Proof.
  intros TB H. unfold fhs_get in H. destruct (Z.ltb_spec i (fhs_len hs)) as [L|L]; [|discriminate]. do 3 inv_bind H. injection H as <-. cbn [fh_bit_cursor fh_exponent].
  split; [eapply Forall_at; [apply (tb_cursors _ _ TB)|eassumption]|]. split; [apply nl_get_range|exact L].
Qed.
Lemma fhs_next_agree p n hs : tabled n hs ->
  agree (fun '(hs', oh) => tabled n hs' /\ forall h, oh = Some h -> 0 <= fh_exponent h < 16) (t_fhs_next w p hs) (fhs_next p hs).
Proof.
  intros TB. unfold t_fhs_next, fhs_next. destruct (Z.ltb_spec (fhs_cursor hs) (fhs_len hs)) as [L|L].
  - pose proof (tb_count _ _ TB) as C. pose proof (tb_cursor _ _ TB) as C2. unfold fhs_len, nl_len in L. rewrite bv_get_same by lia.
    apply agree_same. intros [hs' oh] H. do 4 inv_bind H. injection H as <- <-. apply uchk_range in Ha2; [|lia]. split; [apply tabled_set; [lia|auto]|].
    intros h E. injection E as <-. apply nl_get_range.
  - apply agree_ok. split; [auto|discriminate].
Qed.

(** ** Frames *)
Definition goods (s : bitstream) (x : bitstream * frame_headers) : Prop := after s (fst x) /\ tabled (zlen (bs_binary (fst x))) (snd x).
Lemma encode_samples_agree p e l : 0 <= e < 16 -> forall s h, roomy s ->
  agree (fun '(s', _) => after s s') (t_encode_samples w alloc p s h e l) (encode_samples p s h e l).
Proof.
  intros He. induction l as [|x l IH]; intros s h R; cbn [t_encode_samples encode_samples]; [apply agree_ok; now apply after_refl|].
  eapply agree_bind; [now apply write_compressed_agree|]. intros s1 H1. eapply agree_weaken; [|apply IH; apply H1]. intros [s2 h2] H2. eauto using after_trans.
Qed.
Lemma encode_raw_agree p pcm ks : forall s h, roomy s ->
  agree (fun '(s', _) => after s s') (t_encode_raw w alloc p s h pcm ks) (encode_raw p s h pcm ks).
Proof.
  induction ks as [|k ks IH]; intros s h R; cbn [t_encode_raw encode_raw]; [apply agree_ok; now apply after_refl|].
  apply agree_step. intros x _. eapply agree_bind; [apply (write_bits_agree p s); auto; lia|]. intros s1 H1.
  eapply agree_weaken; [|apply IH; apply H1]. intros [s2 h2] H2. eauto using after_trans.
Qed.
Lemma exponent_range p h l e : compute_optimal_divisor_exponent p h l = Ok e -> 0 <= e < 16.
Proof. unfold compute_optimal_divisor_exponent. intros H. inv_bind H. injection H as <-. apply pick_range. Qed.
Lemma encode_frame_agree p c s hs pcm : roomy s -> tabled (zlen (bs_binary s)) hs ->
  agree (fun '(_, s', hs') => after s s' /\ tabled (zlen (bs_binary s')) hs') (t_encode_frame w alloc p c s hs pcm) (encode_frame p c s hs pcm).
Proof.
  intros R TB. unfold t_encode_frame, encode_frame. destruct (fc_state c); [| |apply agree_panic].
  - eapply agree_bind; [now apply encode_raw_agree|]. intros [s1 h1] H1. do 2 (apply agree_step; intros ? ?).
    apply exponent_range in H0. eapply agree_bind.
    { apply (fhs_push_agree p (zlen (bs_binary s1))); [apply (tabled_more (zlen (bs_binary s))); [apply H1|exact TB]|].
      cbn [fh_bit_cursor]. unfold bit_cursor. destruct R as (C & D & E), H1. split; lia. }
    intros hs1 K1. eapply agree_bind; [apply encode_samples_agree; [auto|apply H1]|]. intros [s2 h2] H2. apply agree_ok.
    split; [eauto using after_trans|]. eapply tabled_more; [apply H2|exact K1].
  - apply agree_step. intros e He. apply exponent_range in He. eapply agree_bind.
    { apply (fhs_push_agree p (zlen (bs_binary s))); [exact TB|]. cbn [fh_bit_cursor]. unfold bit_cursor. destruct R as (C & D & E). split; lia. }
    intros hs1 K1. eapply agree_bind; [apply encode_samples_agree; auto|]. intros [s2 h2] H2. apply agree_ok.
    split; [auto|]. eapply tabled_more; [apply H2|exact K1].
Qed.
Lemma decode_samples_agree p e n : 0 <= e < 16 -> forall s h buf, roomy s ->
  agree (fun '(s', _, _) => after s s') (t_decode_samples w alloc p s h buf e n) (decode_samples p s h buf e n).
Proof.
  intros He. induction n as [|n IH]; intros s h buf R; cbn [t_decode_samples decode_samples]; [apply agree_ok; now apply after_refl|].
  eapply agree_bind; [now apply read_compressed_agree|]. intros [s1 v] H1. cbn beta zeta.
  eapply agree_let; [apply push_agree|]. intros _. eapply agree_weaken; [|apply IH; apply H1]. intros [[s2 h2] b2] H2. eauto using after_trans.
Qed.
Lemma decode_raw_agree p n : forall s h, roomy s ->
  agree (fun '(s', _) => after s s') (t_decode_raw w alloc p s h n) (decode_raw p s h n).
Proof.
  induction n as [|n IH]; intros s h R; cbn [t_decode_raw decode_raw]; [apply agree_ok; now apply after_refl|].
  eapply agree_bind; [apply (read_bits_agree p s 16); auto; lia|]. intros [s1 v] H1. eapply agree_weaken; [|apply IH; apply H1]. intros [s2 h2] H2. eauto using after_trans.
Qed.
Lemma decode_frame_agree p c s hs : roomy s -> tabled (zlen (bs_binary s)) hs ->
  agree (fun '(_, s', hs') => after s s' /\ tabled (zlen (bs_binary s')) hs') (t_decode_frame w alloc p c s hs) (decode_frame p c s hs).
Proof.
  intros R TB. unfold t_decode_frame, decode_frame. eapply agree_bind; [apply fhs_next_agree; exact TB|]. intros [hs1 [hd|]] [T1 E1].
  2:{ apply agree_ok. split; [now apply after_refl|auto]. }
  specialize (E1 hd eq_refl). destruct (fc_state c); [|apply agree_panic|].
  - eapply agree_bind; [now apply decode_raw_agree|]. intros [s1 h1] H1. cbn beta zeta. eapply agree_let; [apply reserve_agree|]. intros _.
    eapply agree_bind; [apply decode_samples_agree; [auto|apply H1]|]. intros [[s2 h2] b2] H2. apply agree_ok.
    assert (after s s2) by eauto using after_trans. split; [auto|]. eapply tabled_more; [apply H|exact T1].
  - eapply agree_bind; [apply decode_samples_agree; auto|]. intros [[s2 h2] b2] H2. apply agree_ok. split; [auto|]. eapply tabled_more; [apply H2|exact T1].
Qed.

(** ** The codec *)
Definition dgood (d : dstate) : Prop := let '(_, s, hs) := d in roomy s /\ tabled (zlen (bs_binary s)) hs.
Lemma decode_channel_agree p d j : dgood d -> agree dgood (t_decode_channel w alloc p d j) (decode_channel p d j).
Proof.
  destruct d as [[chs s] hs]. intros [R TB]. unfold t_decode_channel, decode_channel. apply agree_step. intros fc _.
  eapply agree_bind; [now apply decode_frame_agree|]. intros [[fc1 s1] hs1] [A1 B1]. apply agree_step. intros chs1 _. apply agree_ok. split; [apply A1|exact B1].
Qed.
Lemma buffer_audio_agree p n fuel : forall d, dgood d -> agree (fun '(d', _) => dgood d') (t_buffer_audio w alloc p n fuel d) (buffer_audio p n fuel d).
Proof.
  induction fuel as [|fuel IH]; intros d G; cbn [t_buffer_audio buffer_audio]; [now apply agree_ok|].
  destruct d as [[chs s] hs] eqn:E. rewrite <- E in *. destruct (buffers_empty chs); [|now apply agree_ok].
  eapply agree_bind; [apply agree_foldM; [intros; now apply decode_channel_agree|exact G]|]. intros d1 G1.
  eapply agree_bind; [now apply IH|]. intros [d2 k] G2. now apply agree_ok.
Qed.
Lemma decode_loop_agree p n fuel : forall room d, dgood d -> agree (fun '(d', _) => dgood d') (t_decode_loop w alloc p n fuel room d) (decode_loop p n fuel room d).
Proof.
  induction fuel as [|fuel IH]; intros room d G; cbn [t_decode_loop decode_loop]; [apply agree_fuel|].
  destruct (0 <? room); [|now apply agree_ok]. eapply agree_bind; [now apply buffer_audio_agree|]. intros [d1 k] G1.
  destruct (_ <=? k)%nat; [now apply agree_ok|]. destruct d1 as [[chs s] hs]. apply agree_step. intros [chs1 out] _.
  eapply agree_bind; [apply (IH _ (chs1, s, hs)); exact G1|]. intros [d2 o2] G2. now apply agree_ok.
Qed.
Definition info_in (c : adhoc) : Prop := forall i, as_info (ad_stream c) = Some i -> 0 <= si_channels i < 2 ^ 32.
Definition cgood (c : adhoc) : Prop := dgood (ad_channels c, as_stream (ad_stream c), ad_headers c) /\ info_in c.
Lemma channels_same c i : cgood c -> ad_info c = Ok i -> uwrap w (si_channels i) = si_channels i /\ 0 <= si_channels i < 2 ^ 32.
Proof.
  intros [_ G] H. unfold ad_info, expect in H. destruct (as_info (ad_stream c)) eqn:E; [|discriminate]. injection H as ->. apply G in E.
  split; [|exact E]. apply uwrap_small. pows. lia.
Qed.
Lemma decode_agree p c buf : cgood c -> agree (fun '(c', _, _) => cgood c') (t_ad_decode w alloc p c buf) (ad_decode p c buf).
Proof.
  intros G. unfold t_ad_decode, ad_decode. apply agree_step. intros info HI. destruct (channels_same _ _ G HI) as [-> CH]. cbn beta zeta.
  apply agree_step. intros blocks _. eapply agree_bind; [apply decode_loop_agree; apply G|]. intros [[[chs s] hs] out] G1. apply agree_ok. split; [exact G1|apply G].
Qed.
Lemma deinterleave_same p pcm n j k : zlen pcm < 2 ^ w -> 0 <= j < n -> n * k <= zlen pcm -> t_deinterleave w p pcm n j k = deinterleave pcm n j k.
Proof.
  intros L J K. unfold t_deinterleave, deinterleave. apply mapM_ext. intros x H. apply in_range in H. pows.
  rewrite uchk_ok by nia. cbn [bind]. rewrite uchk_ok by nia. reflexivity.
Qed.
Lemma encode_channel_agree p pcm n k c j : zlen pcm < 2 ^ w -> 0 <= j < n -> n * k <= zlen pcm -> cgood c ->
  agree cgood (t_encode_channel w alloc p pcm n k c j) (encode_channel p pcm n k c j).
Proof.
  intros L J K [[R TB] GI]. unfold t_encode_channel, encode_channel. rewrite deinterleave_same by auto. apply agree_step. intros samples _.
  apply agree_step. intros [sq samples'] _. apply agree_step. intros fc _. eapply agree_bind; [now apply encode_frame_agree|].
  intros [[fc1 s1] hs1] [A1 B1]. apply agree_step. intros chs1 _. apply agree_ok. split; [split; [apply A1|exact B1]|exact GI].
Qed.
Lemma encode_agree p c pcm : 4 * zlen pcm < 2 ^ (w - 1) -> cgood c -> agree (fun '(c', _) => cgood c') (t_ad_encode w alloc p c pcm) (ad_encode p c pcm).
Proof.
  intros L G. unfold t_ad_encode, ad_encode. apply agree_step. intros info HI. destruct (channels_same _ _ G HI) as [-> CH]. cbn beta zeta.
  apply agree_step. intros k Hk. eapply agree_let; [apply reserve_agree|]. intros _. eapply agree_bind.
  - apply (agree_foldM cgood); [|exact G]. intros c1 j Hj G1. apply in_range in Hj. unfold udiv in Hk. destruct (_ =? 0); [discriminate|]. injection Hk as <-.
    apply encode_channel_agree; auto; [pows; pose proof (zlen_pos pcm); lia|]. apply Z.mul_div_le. lia.
  - intros c1 G1. now apply agree_ok.
Qed.
Lemma seek_walk_agree p hs n ch off len fuel : tabled n hs -> 0 < ch < 2 ^ 32 -> ch * len <= fhs_len hs -> forall sk idx, 0 <= idx <= len ->
  agree (fun '(_, idx') => 0 <= idx' <= len) (t_seek_walk w p hs ch off fuel sk idx len) (seek_walk p hs ch off fuel sk idx len).
Proof.
  intros TB CH LE. pose proof (tb_count _ _ TB) as C. unfold fhs_len, nl_len in LE.
  assert (U : uwrap w ch = ch) by (apply uwrap_small; pows; lia).
  induction fuel as [|fuel IH]; intros sk idx HI; cbn [t_seek_walk seek_walk]; [apply agree_fuel|].
  destruct (Z.ltb_spec idx len) as [L|L]; [|cbn [andb]; now apply agree_ok]. destruct (sk <? off); cbn [andb]; [|now apply agree_ok].
  rewrite U. pows. rewrite (uchk_ok p w) by nia. rewrite (uchk_ok p 64) by (change (2 ^ 64) with 18446744073709551616; nia). cbn [bind].
  rewrite (fhs_get_same n) by (auto; nia). apply agree_step. intros oh _. apply agree_step. intros h _. apply agree_step. intros sz _. apply agree_step. intros sum _.
  destruct (off <=? sum); [now apply agree_ok|]. rewrite uchk_ok by nia. cbn [bind]. apply IH. lia.
Qed.
Lemma agree_and {A} (I J : A -> Prop) m m' : agree I m m' -> (forall a, m' = Ok a -> J a) -> agree (fun a => I a /\ J a) m m'.
Proof. intros [H|[H1 H2]] HJ; [left; exact H|right]. split; auto. Qed.
Lemma seek_channel_agree p start d j : dgood d -> 0 <= start -> 0 <= j < 2 ^ 32 -> start + j < 2 ^ 32 ->
  agree (fun d' => dgood d' /\ (fhs_len (snd d') = fhs_len (snd d) /\ start + j < fhs_len (snd d))) (t_seek_channel w alloc p start d j) (seek_channel p start d j).
Proof.
  intros G HS HJ SJ. apply agree_and.
  - destruct d as [[chs s] hs]. destruct G as [R TB]. unfold t_seek_channel, seek_channel.
    assert (U : uwrap w j = j) by (apply uwrap_small; pows; lia). rewrite U. rewrite uchk_ok by (pows; lia). cbn [bind].
    rewrite (fhs_get_same _ _ _ TB) by lia. apply agree_step. intros oh E. apply agree_step. intros hd _. apply agree_step. intros fc _.
    destruct (fh_history hd) as [[h3 h2] h1]. eapply agree_bind; [now apply decode_frame_agree|]. intros [[fc1 s1] hs1] [A1 B1].
    apply agree_step. intros chs1 _. apply agree_ok. split; [apply A1|exact B1].
  - intros d' H. split; [apply same_table_len; eapply seek_channel_table; exact H|].
    destruct d as [[chs s] hs]. destruct G as [R TB]. unfold seek_channel in H. do 2 inv_bind H. destruct a as [h|]; [|discriminate].
    apply (fhs_get_in _ _ _ _ TB) in Ha. apply Ha.
Qed.
Lemma seek_fold_agree p start n : 0 <= start -> forall k d, dgood d -> start + Z.of_nat k <= fhs_len (snd d) ->
  agree dgood (foldM (t_seek_channel w alloc p start) (map Z.of_nat (seq k n)) d) (foldM (seek_channel p start) (map Z.of_nat (seq k n)) d).
Proof.
  intros HS. induction n as [|n IH]; intros k d G L; cbn [seq map foldM]; [now apply agree_ok|].
  assert (C : fhs_len (snd d) < 2 ^ 32) by (destruct d as [[chs s] hs]; destruct G as [_ TB]; apply (tb_count _ _ TB)).
  eapply agree_bind; [apply seek_channel_agree; auto; lia|]. intros d1 (G1 & E1 & L1). apply IH; auto. lia.
Qed.
Lemma init_good c : cgood c -> cgood (ad_init c).
Proof.
  intros [[(R1 & R2 & R3) TB] GI]. split; [|exact GI]. split.
  - split; [cbn; lia|]. split; [cbn; pose proof (zlen_pos (bs_binary (as_stream (ad_stream c)))); unfold zlen in *; cbn; lia|exact R3].
  - cbn [ad_init ad_headers ad_stream as_stream bs_seek_start bs_binary]. unfold fhs_reset. apply tabled_set; [lia|exact TB].
Qed.
Lemma seek_agree p c dt : cgood c -> agree cgood (t_ad_seek w alloc p c dt) (ad_seek p c dt).
Proof.
  intros G0. unfold t_ad_seek, ad_seek. apply agree_step. intros info HI. destruct (channels_same _ _ G0 HI) as [U CH]. cbn beta zeta. rewrite U.
  pose proof (init_good _ G0) as G. clear G0 HI. set (c0 := ad_init c) in *. clearbody c0. destruct dt as [dt|dt|dt]; try apply agree_panic.
  destruct (dt =? 0); [now apply agree_ok|]. apply agree_step. intros off _. apply agree_step. intros bl Hbl.
  destruct G as [[R TB] GI]. cbn beta iota zeta in R, TB. pose proof (tb_count _ _ TB) as C.
  unfold udiv in Hbl. destruct (Z.eqb_spec (si_channels info) 0) as [|NZ]; [discriminate|]. injection Hbl as <-.
  assert (LE : si_channels info * (fhs_len (ad_headers c0) / si_channels info) <= fhs_len (ad_headers c0)) by (apply Z.mul_div_le; lia).
  eapply agree_bind.
  { eapply seek_walk_agree; [exact TB|lia|exact LE|]. split; [lia|]. apply Z.div_pos; [|lia]. unfold fhs_len, nl_len. lia. }
  intros [sk idx] HX. set (bl := _ / _) in *. clearbody bl. unfold fhs_len, nl_len in LE.
  rewrite uchk_ok by (pows; nia). cbn [bind]. rewrite (fhs_get_same _ _ _ TB) by nia.
  apply agree_step. intros oh E. apply agree_step. intros hd E2. destruct oh as [h|]; [|discriminate]. injection E2 as ->.
  apply (fhs_get_in _ _ _ _ TB) in E. destruct E as ([CU CV] & _ & EL). eapply (agree_bind dgood).
  { unfold range. apply seek_fold_agree; [nia| |].
    - split; [|apply tabled_set; [apply uwrap_range; lia|exact TB]]. destruct R as (R1 & R2 & R3). unfold roomy, set_bit_cursor. cbn [bs_cursor bs_binary]. auto.
    - cbn [snd]. change (fhs_len (fhs_set_cursor (ad_headers c0) (uwrap 32 (idx * si_channels info)))) with (fhs_len (ad_headers c0)). unfold fhs_len, nl_len in *. lia. }
  intros [[chs s] hs] G1. apply agree_step. intros chs1 _. apply agree_ok. split; [exact G1|exact GI].
Qed.
Lemma count_agree p c : cgood c -> agree (fun _ => True) (t_ad_sample_count w p c) (ad_sample_count p c).
Proof.
  intros [[R TB] GI]. unfold t_ad_sample_count, ad_sample_count. apply agree_step. intros info _. eapply (agree_bind (fun _ => True)).
  - apply (agree_foldM (fun _ => True)); [|exact I]. intros acc i Hi _. apply in_range in Hi. cbn beta iota zeta in TB. rewrite (fhs_get_same _ _ _ TB) by lia. apply agree_same. auto.
  - intros t _. apply agree_same. auto.
Qed.
Lemma set_info_agree c i : info_fits i -> cgood c -> agree cgood (t_ad_set_info alloc c i) (Ok (ad_set_info c i)).
Proof.
  intros HI [[R TB] GI]. unfold t_ad_set_info. eapply agree_let; [apply reserve_agree|]. intros _. apply agree_ok.
  split; [split; [exact R|exact TB]|]. intros j E. cbn in E. injection E as <-. apply HI.
Qed.
Lemma new_good : cgood ad_new.
Proof.
  split; [|discriminate]. pose proof (pow_lo). split.
  - unfold roomy. cbn. pows. unfold zlen; cbn. lia.
  - constructor; cbn; unfold zlen; cbn; try (pows; lia). constructor.
Qed.

(** ** Loading *)
Definition covers {A} (t g : parser A) : Prop :=
  forall l, zlen l < 2 ^ w -> t l = g l /\ forall a r, g l = Some (a, r) -> zlen r <= zlen l.
Lemma covers_ret {A} (a : A) : covers (pret a) (pret a).
Proof. intros l _. split; [reflexivity|]. intros b r E. injection E as <- <-. lia. Qed.
Lemma covers_eats {A} (g : parser A) : eats g -> covers g g.
Proof. intros E l _. split; [reflexivity|]. intros a r H. apply E in H. unfold zlen. lia. Qed.
Lemma covers_bind {A B} (t g : parser A) (k h : A -> parser B) : covers t g -> (forall a, covers (k a) (h a)) -> covers (pbind t k) (pbind g h).
Proof.
  intros H1 H2 l L. unfold pbind. destruct (H1 l L) as [-> S]. destruct (g l) as [[a r]|]; [|split; [reflexivity|discriminate]].
  specialize (S a r eq_refl). destruct (H2 a r ltac:(lia)) as [-> S2]. split; [reflexivity|]. intros b q E. apply S2 in E. lia.
Qed.
Lemma covers_vec {A} (g : parser A) : eats g -> covers (t_get_vec w g) (get_vec g).
Proof.
  intros E. apply covers_bind; [apply covers_eats, eats_uint; lia|]. intros len l L. pows. split.
  - destruct (Z.leb_spec len (zlen l)); [|now rewrite andb_false_r]. destruct (Z.ltb_spec len (2 ^ w)); [reflexivity|lia].
  - destruct (len <=? zlen l); [|discriminate]. intros a r H2. apply (eats_n _ _ E) in H2. unfold zlen. lia.
Qed.
Lemma covers_codec : covers (t_get_codec w) get_codec.
Proof.
  unfold t_get_codec, get_codec. apply covers_bind; [apply covers_eats, eats_uint; lia|]. intros lvl. apply covers_bind.
  { unfold t_get_headers, get_headers. apply covers_bind.
    { apply covers_bind; [apply covers_vec, eats_uint; lia|]. intros d. apply covers_bind; [apply covers_eats, eats_uint; lia|]. intros; apply covers_ret. }
    intros e. apply covers_bind.
    { apply covers_bind; [apply covers_vec, eats_uint; lia|]. intros d. apply covers_bind; [apply covers_eats, eats_uint; lia|]. intros; apply covers_ret. }
    intros i. apply covers_bind; [apply covers_vec, eats_uint; lia|]. intros s. apply covers_bind; [apply covers_vec, eats_uint; lia|]. intros c.
    apply covers_bind; [apply covers_vec, eats_history|]. intros h. apply covers_bind; [apply covers_eats, eats_uint; lia|]. intros; apply covers_ret. }
  intros h. apply covers_bind.
  { apply covers_bind; [apply covers_eats, eats_uint; lia|]. intros t. destruct (t =? 0); [apply covers_ret|]. destruct (t =? 1); [|intros l L; split; [reflexivity|discriminate]].
    apply covers_bind; [apply covers_eats, eats_uint; lia|]. intros r. apply covers_bind; [apply covers_eats, eats_uint; lia|]. intros; apply covers_ret. }
  intros i. apply covers_bind; [|intros; apply covers_ret].
  apply covers_bind; [apply covers_vec, eats_uint; lia|]. intros b. apply covers_bind; [apply covers_eats, eats_uint; lia|]. intros c.
  apply covers_bind; [apply covers_eats, eats_uint; lia|]. intros; apply covers_ret.
Qed.
End Facts.

(** What every saved file is: the text of a codec whose cursors point into its stream. *)
Record sound (c : adhoc) : Prop := {
  so_typed : typed c;
  so_memory : in_memory c;
  so_cursor : 0 <= bs_cursor (as_stream (ad_stream c)) /\ bs_cursor (as_stream (ad_stream c)) / 128 <= zlen (bs_binary (as_stream (ad_stream c)));
  so_cursors : Forall (cur_in (zlen (bs_binary (as_stream (ad_stream c))))) (fhs_cursors (ad_headers c));
  so_words : bv_cursor (fhs_inits (ad_headers c)) / 64 <= zlen (bv_binary (fhs_inits (ad_headers c))) }.
Lemma good_sound w alloc c : target w alloc -> typed c -> cgood w c -> sound c.
Proof.
  intros T TY [[(R1 & R2 & R3) TB] GI]. assert (2 ^ (w - 1) < 2 ^ 64) by (destruct T; apply Z.pow_lt_mono_r; lia). destruct TB.
  constructor; auto. unfold in_memory. pose proof (zlen_pos (bv_binary (fhs_inits (ad_headers c)))). pose proof (zlen_pos (bs_binary (as_stream (ad_stream c)))). repeat split; lia.
Qed.
Lemma sound_fits c : sound c -> fits c.
Proof.
  intros [[(F & (S1 & S2 & S3) & T) L I] (M1 & M2 & M3 & M4 & M5 & M6) _ _ _]. destruct T. constructor; auto. constructor; auto.
Qed.
Definition from_sound (f : list Z) : Prop := exists c, sound c /\ f = ad_save c.
Lemma loaded_typed p f c : from_sound f -> ad_load p f = Ok (Some c) -> typed c.
Proof.
  intros (c0 & S0 & ->) H. pose proof (inverts_codec _ (sound_fits _ S0)) as [RD _]. specialize (RD []). rewrite app_nil_r in RD.
  unfold ad_load in H. rewrite RD in H. inv_bind H. destruct (so_typed _ S0) as [(F & SF & TF) L I].
  destruct (as_info (ad_stream c0)) as [info|] eqn:E; [|discriminate]. injection H as <-. apply init_typed. constructor; cbn [ad_level ad_stream ad_channels ad_headers as_info]; auto.
  - split; [|split; auto]. apply Forall_repeat. apply new_stack_fits.
  - intros i. rewrite E. auto.
Qed.
Lemma load_agree w alloc p f : target w alloc -> zlen f < 2 ^ w -> from_sound f ->
  agree (fun o => forall c, o = Some c -> cgood w c) (t_ad_load w alloc p f) (ad_load p f).
Proof.
  intros T LF (c0 & S0 & ->). unfold t_ad_load, ad_load. destruct (covers_codec w alloc T _ LF) as [-> _].
  pose proof (inverts_codec _ (sound_fits _ S0)) as [RD _]. specialize (RD []). rewrite app_nil_r in RD. rewrite RD.
  apply agree_step. intros sc _. cbn zeta. destruct (as_info (ad_stream c0)) as [info|] eqn:E; [|apply agree_ok; discriminate].
  destruct (forallb _ _) eqn:FA; [|left; reflexivity]. apply agree_ok. intros c HC. injection HC as <-. apply init_good.
  destruct T as [W T]. cbn [forallb t_vectors] in FA. repeat (apply andb_prop in FA; destruct FA as [?FA FA]). repeat match goal with H : alloc _ = true |- _ => apply T in H end.
  destruct S0 as [[(F & SF & TF) L I] _ [SC1 SC2] SCs SW]. destruct TF.
  split; [split|].
  - split; [exact SC1|]. split; [exact SC2|]. cbn [ad_stream as_stream]. lia.
  - pose proof (zlen_pos (fhs_sizes (ad_headers c0))). pose proof (zlen_pos (fhs_cursors (ad_headers c0))). pose proof (zlen_pos (fhs_hists (ad_headers c0))).
    constructor; cbn [ad_headers ad_stream]; auto; try lia; [apply tf_bits|apply tf_cursor].
  - intros i. cbn [ad_stream as_info]. rewrite E. intros X. injection X as <-. apply (I info E).
Qed.

(** ** Programs *)
Definition holds w (c : adhoc) : Prop := cgood w c /\ typed c.
Lemma level_typed c n : typed c -> typed (ad_with_level c n).
Proof. intros [D L I]. constructor; auto. pose proof (zclamp_range n 0 10). cbn [ad_with_level ad_level]. unfold in_range_u. change (2 ^ 32) with 4294967296. lia. Qed.
Lemma set_info_typed c i : info_fits i -> typed c -> typed (ad_set_info c i).
Proof.
  intros HI [(F & S & T) L I]. constructor; auto.
  - split; [|split; auto]. cbn [ad_set_info ad_channels]. unfold resize. destruct (_ <=? _).
    + apply Forall_app. split; [exact F|]. apply Forall_repeat. apply new_stack_fits.
    + apply Forall_forall. intros x Hx. rewrite Forall_forall in F. apply F. rewrite <- (firstn_skipn (Z.to_nat (si_channels i))). apply in_or_app. now left.
  - intros j E. cbn in E. injection E as <-. exact HI.
Qed.
Lemma perform_agree w alloc p c k : target w alloc -> passable w k -> (forall f, k = LoadFile f -> from_sound f) -> holds w c ->
  agree (fun '(c', r) => holds w c' /\ forall f, r = File f -> f = ad_save c') (perform (on w alloc p) c k) (perform (ideal p) c k).
Proof.
  intros T HP HL [G TY]. destruct k; cbn [perform on ideal lib_set_info lib_encode lib_decode lib_seek lib_count lib_load] in *; cbn [passable] in HP.
  - apply agree_ok. split; [|discriminate]. split; [split; [apply G|apply G]|]. now apply level_typed.
  - eapply agree_bind; [apply agree_and; [apply (set_info_agree w alloc T); eauto|]|].
    + intros a E. injection E as <-. apply set_info_typed; eauto.
    + intros c' H'. apply agree_ok. split; [exact H'|discriminate].
  - eapply agree_bind; [apply agree_and; [apply (encode_agree w alloc T); eauto|]|].
    + intros [c' n] E. apply encode_typed in E; [|exact TY]. instantiate (1 := fun '(c', _) => typed c'). exact E.
    + intros [c' n] H'. apply agree_ok. split; [exact H'|discriminate].
  - eapply agree_bind; [apply agree_and; [apply (decode_agree w alloc T); eauto|]|].
    + intros [[c' o] n] E. apply decode_typed in E; [|exact TY]. instantiate (1 := fun '(c', _, _) => typed c'). exact E.
    + intros [[c' o] n] H'. apply agree_ok. split; [exact H'|discriminate].
  - eapply agree_bind; [apply agree_and; [apply (seek_agree w alloc T); eauto|]|].
    + intros c' E. eapply seek_typed; eauto.
    + intros c' H'. apply agree_ok. split; [exact H'|discriminate].
  - apply agree_ok. split; [|discriminate]. split; [now apply init_good|now apply init_typed].
  - eapply agree_bind; [apply (count_agree w alloc T); eauto|]. intros n _. apply agree_ok. split; [split; auto|discriminate].
  - apply agree_ok. split; [split; auto|]. intros f E. now injection E as <-.
  - eapply agree_bind; [apply agree_and; [apply load_agree; eauto|]|].
    + intros o E. instantiate (1 := fun o => forall c', o = Some c' -> typed c'). intros c' ->. eapply loaded_typed; eauto.
    + intros [c'|] [H1 H2]; apply agree_ok; (split; [|discriminate]); split; auto.
Qed.
Lemma run_agree w alloc p ks : target w alloc -> (forall k, In k ks -> passable w k) -> (forall f, In (LoadFile f) ks -> from_sound f) -> forall c, holds w c ->
  agree (fun rs => forall f, In (File f) rs -> from_sound f) (run (on w alloc p) ks c) (run (ideal p) ks c).
Proof.
  intros T. induction ks as [|k ks IH]; intros HP HL c HC; cbn [run]; [apply agree_ok; intros f []|].
  eapply agree_bind; [apply perform_agree; auto with datatypes; intros f ->; auto with datatypes|]. intros [c' r] [H' HF].
  eapply agree_bind; [apply IH; auto with datatypes|]. intros rs HR. apply agree_ok. intros f [E|E]; auto.
  apply HF in E. subst f. exists c'. split; [|reflexivity]. destruct H'. eapply good_sound; eauto.
Qed.
Lemma new_typed0 : typed ad_new.
Proof.
  constructor.
  - split; [constructor|]. split; [split; [constructor|]; split; apply zero_fits; lia|]. constructor; try constructor; auto; try lia; reflexivity.
  - cbn. unfold in_range_u. change (2 ^ 32) with 4294967296. lia.
  - discriminate.
Qed.
Lemma new_holds w alloc : target w alloc -> holds w ad_new.
Proof. intros T. split; [exact (new_good w alloc T)|apply new_typed0]. Qed.
Lemma genuine_sound f : genuine f -> from_sound f.
Proof.
  revert f. fix IH 2. intros f [w alloc p ks rs f' T HP HL HR HF].
  pose proof (run_agree w alloc p ks T HP (fun g Hg => IH g (HL g Hg)) ad_new (new_holds _ _ T)) as [E|[E1 E2]].
  - unfold program in HR. congruence.
  - unfold program in HR. eapply E2; [|exact HF]. congruence.
Qed.
Theorem program_agree w alloc p ks : target w alloc -> (forall k, In k ks -> passable w k) -> (forall f, In (LoadFile f) ks -> genuine f) ->
  same_or_memory (program (on w alloc p) ks) (program (ideal p) ks).
Proof.
  intros T HP HL. pose proof (run_agree w alloc p ks T HP (fun g Hg => genuine_sound g (HL g Hg)) ad_new (new_holds _ _ T)) as [E|[E1 E2]]; [left|right]; auto.
Qed.

(** ** WavCodec *)
Definition wgood (w : Z) (v : wav) : Prop :=
  0 <= wav_cursor v <= wav_num_samples v /\ zlen (wav_pcm v) < 2 ^ (w - 1) /\ 0 <= si_channels (wav_info v) < 2 ^ 32.
Lemma pair_app {A} (l : list A) a b : l ++ [a; b] = (l ++ [a]) ++ [b].
Proof. now rewrite <- app_assoc. Qed.
Lemma half_add n : 0 <= n -> (n + 2) / 2 = n / 2 + 1.
Proof. intros. replace (n + 2) with (n + 1 * 2) by ring. apply Z.div_add. lia. Qed.
Lemma half_le n : 0 <= n -> 0 <= n / 2 /\ 2 * (n / 2) <= n.
Proof. intros. split; [apply Z.div_pos; lia|apply Z.mul_div_le; lia]. Qed.
Lemma wav_write_agree w alloc p v s : target w alloc -> wgood w v -> agree (wgood w) (t_wav_write_sample w alloc p v s) (wav_write_sample p v s).
Proof.
  intros T (C & L & CH). unfold t_wav_write_sample, wav_write_sample. unfold wav_num_samples in *.
  pose proof (zlen_pos (wav_pcm v)) as ZP. destruct (half_le _ ZP) as [H1 H2].
  assert (P : 2 ^ (w - 1) < 2 ^ w /\ 2 ^ (w - 1) <= 2 ^ 63) by (destruct T; split; [apply Z.pow_lt_mono_r|apply Z.pow_le_mono_r]; lia). destruct P as [P1 P2].
  rewrite (uwrap_small w (wav_cursor v)) by lia. rewrite Z.shiftl_mul_pow2 by lia. change (2 ^ 1) with 2.
  assert (OFF : forall pcm, zlen pcm < 2 ^ (w - 1) -> wav_cursor v + 1 <= zlen pcm / 2 ->
            agree (wgood w) (wav_offset_cursor p (mkWav (wav_info v) pcm (wav_cursor v)) 1) (wav_offset_cursor p (mkWav (wav_info v) pcm (wav_cursor v)) 1)).
  { intros pcm B1 B2. apply agree_same. intros v' H. unfold wav_offset_cursor in H. cbn [wav_cursor wav_info wav_pcm] in H. change (2 ^ 63) with 9223372036854775808 in P2.
    rewrite swrap_small in H by (change (2 ^ (64 - 1)) with 9223372036854775808; lia). rewrite schk_ok in H.
    2:{ change (2 ^ (64 - 1)) with 9223372036854775808. pose proof (zlen_pos pcm) as Z1. destruct (half_le _ Z1). lia. }
    cbn [bind] in H. injection H as <-. split; [|split; cbn [wav_pcm wav_info]; auto]. unfold wav_num_samples. cbn [wav_cursor wav_pcm]. lia. }
  destruct (Z.ltb_spec (wav_cursor v) (zlen (wav_pcm v) / 2)) as [LT|GE].
  - rewrite (uwrap_small w (_ * 2)) by lia. eapply (agree_bind (fun pcm => zlen pcm = zlen (wav_pcm v))).
    + rewrite uchk_ok by lia. cbn [bind].
      apply agree_same. intros pcm H. inv_bind H. apply zlen_store in Ha. apply zlen_store in H. congruence.
    + intros pcm EP. apply OFF; rewrite EP; lia.
  - eapply (agree_bind (fun pcm => zlen pcm = zlen (wav_pcm v) + 2 /\ zlen pcm < 2 ^ (w - 1))).
    + rewrite pair_app. eapply agree_let; [apply (push_agree w alloc T)|]. intros [_ B]. eapply agree_weaken; [|apply (push_agree w alloc T)]. intros q [E B2]. cbn beta in *. rewrite !zlen_app in *. change (zlen [lo_byte s]) with 1 in *. change (zlen [hi_byte s]) with 1 in *. lia.
    + intros pcm [E B]. apply OFF; [exact B|]. rewrite E, half_add by lia. lia.
Qed.
Lemma wav_encode_agree w alloc p v pcm : target w alloc -> wgood w v -> agree (fun '(v', _) => wgood w v') (t_wav_encode w alloc p v pcm) (wav_encode p v pcm).
Proof.
  intros T G. unfold t_wav_encode, wav_encode. assert (2 ^ 32 <= 2 ^ w) by (destruct T; apply Z.pow_le_mono_r; lia).
  rewrite (uwrap_small w) by (destruct G as (_ & _ & G); lia). apply agree_step. intros blocks _. cbn zeta. eapply agree_bind.
  - apply (agree_foldM (wgood w)); [|exact G]. intros v1 x _ G1. now apply wav_write_agree.
  - intros v1 G1. now apply agree_ok.
Qed.
Lemma wav_read_agree w pcm n len : forall c, 0 <= c <= len -> len < 2 ^ w -> agree (fun '(c', _) => 0 <= c' <= len) (t_wav_read w pcm n c len) (wav_read pcm n c len).
Proof.
  induction n as [|n IH]; intros c C L; cbn [t_wav_read wav_read]; [now apply agree_ok|]. destruct (Z.ltb_spec c len); [|now apply agree_ok].
  rewrite uwrap_small by lia. apply agree_step. intros s _. eapply agree_bind; [apply IH; lia|]. intros [c' r] C'. now apply agree_ok.
Qed.
Lemma wav_decode_agree w alloc v buf : target w alloc -> wgood w v -> agree (fun '(v', _, _) => wgood w v') (t_wav_decode w v buf) (wav_decode v buf).
Proof.
  intros T (C & L & CH). unfold t_wav_decode, wav_decode. assert (2 ^ 32 <= 2 ^ w) by (destruct T; apply Z.pow_le_mono_r; lia).
  assert (2 ^ (w - 1) < 2 ^ w) by (destruct T; apply Z.pow_lt_mono_r; lia). pose proof (zlen_pos (wav_pcm v)) as ZP. destruct (half_le _ ZP) as [H1 H2].
  rewrite (uwrap_small w) by lia. apply agree_step. intros blocks _. cbn zeta. eapply agree_bind.
  - apply wav_read_agree; [exact C|]. unfold wav_num_samples. lia.
  - intros [c' got] C'. apply agree_ok. split; [exact C'|]. split; auto.
Qed.
Lemma wav_seek_in w alloc p v dt v' : target w alloc -> wgood w v -> wav_seek p v dt = Ok v' -> wgood w v'.
Proof.
  intros T (C & L & CH) H. destruct (Z.ltb_spec (zlen (wav_pcm v)) 2) as [S|S].
  - destruct (seek_empty p v dt S) as [r E]. congruence.
  - assert (P2 : 2 ^ (w - 1) <= 2 ^ 63) by (destruct T; apply Z.pow_le_mono_r; lia). change (2 ^ 63) with 9223372036854775808 in P2.
    pose proof (zlen_pos (wav_pcm v)) as ZP. destruct (half_le _ ZP) as [H1 H2]. assert (N : 1 <= zlen (wav_pcm v) / 2) by (apply Z.div_le_lower_bound; lia).
    assert (FIN : forall x v2, (hi <- schk p 64 (swrap 64 (wav_num_samples v) - 1) ;; c <- clampP x 0 hi ;; Ok (mkWav (wav_info v) (wav_pcm v) (uwrap 64 c))) = Ok v2 -> wgood w v2).
    { intros x v2 E. unfold wav_num_samples in E. rewrite swrap_small in E by (change (2 ^ (64 - 1)) with 9223372036854775808; lia).
      rewrite schk_ok in E by (change (2 ^ (64 - 1)) with 9223372036854775808; lia). cbn [bind] in E. rewrite clampP_ok in E by lia. cbn [bind] in E. injection E as <-.
      pose proof (zclamp_range x 0 (zlen (wav_pcm v) / 2 - 1) ltac:(lia)) as R. rewrite uwrap_small by (change (2 ^ 64) with 18446744073709551616; lia).
      split; [|split; auto]. unfold wav_num_samples. cbn [wav_cursor wav_pcm]. lia. }
    unfold wav_seek in H. destruct dt; cbn zeta in H.
    + inv_bind H. eauto.
    + do 4 inv_bind H. eauto.
    + do 3 inv_bind H. eauto.
Qed.
Lemma wav_load_in p f v : wav_load p f = Ok (Some v) -> wav_cursor v = 0 /\ 0 <= si_channels (wav_info v) < 2 ^ 32.
Proof.
  unfold wav_load. destruct (_ <? _); [discriminate|]. destruct (find_tag _ _) as [d|]; [|discriminate]. intros H. do 5 inv_bind H.
  destruct (_ && _); [discriminate|]. destruct (negb _); [discriminate|]. inv_bind H. injection H as <-. cbn [wav_cursor wav_info si_channels]. split; [reflexivity|]. apply uwrap_range. lia.
Qed.
Lemma wperform_agree w alloc p v k : target w alloc -> wgood w v ->
  agree (fun '(v', _) => wgood w v') (wperform p (won w alloc p) v k) (wperform p (wideal p) v k).
Proof.
  intros T G. destruct k; cbn [wperform won wideal wlib_encode wlib_decode wlib_load].
  - eapply agree_bind; [now apply wav_encode_agree|]. intros [v' n] G'. now apply agree_ok.
  - eapply agree_bind; [eapply wav_decode_agree; eauto|]. intros [[v' o] n] G'. now apply agree_ok.
  - apply agree_step. intros v' E. apply agree_ok. eapply wav_seek_in; eauto.
  - apply agree_step. intros f _. now apply agree_ok.
  - unfold t_wav_load. destruct (wav_load p file) as [[v'|]|r|] eqn:E; cbn [bind].
    + destruct (alloc (zlen (wav_pcm v'))) eqn:A; [|left; reflexivity]. apply wav_load_in in E. destruct E as [E1 E2]. apply T in A. apply agree_ok.
      unfold wgood. rewrite E1. split; [|auto]. unfold wav_num_samples. pose proof (zlen_pos (wav_pcm v')) as ZP. pose proof (half_le _ ZP). lia.
    + now apply agree_ok.
    + apply agree_panic.
    + apply agree_fuel.
Qed.
Theorem wprogram_agree w alloc p info ks : target w alloc -> info_fits info ->
  same_or_memory (wprogram p (won w alloc p) info ks) (wprogram p (wideal p) info ks).
Proof.
  intros T HI. unfold wprogram.
  assert (G : wgood w (wav_new info)).
  { assert (0 < 2 ^ (w - 1)) by (apply Z.pow_pos_nonneg; destruct T; lia). split; [cbn; unfold wav_num_samples; cbn; lia|]. split; [exact H|apply HI]. }
  enough (X : forall v, wgood w v -> agree (fun _ => True) (wrun p (won w alloc p) ks v) (wrun p (wideal p) ks v)).
  { destruct (X _ G) as [E|[E _]]; [left|right]; auto. }
  clear G. induction ks as [|k ks IH]; intros v G; cbn [wrun]; [now apply agree_ok|].
  eapply agree_bind; [now apply wperform_agree|]. intros [v' r] G'. eapply agree_bind; [now apply IH|]. intros rs _. now apply agree_ok.
Qed.
