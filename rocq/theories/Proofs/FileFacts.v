(** * Facts about the .adhoc file format: reading back what was written, torn files, size *)
From Coq Require Import ZArith List Bool Lia.
From Verif Require Import Model.Base Model.F32 Model.Sample Model.BitStream Model.NibbleList Model.BitVec
  Model.CircularStack Model.Frame Model.Adhoc Model.Bincode Spec.Recording Spec.Files Proofs.BaseFacts.
Import ListNotations.
Open Scope Z_scope.

(** ** Integers *)
Lemma length_le_bytes n x : length (le_bytes n x) = n.
Proof. revert x; induction n; intros x; cbn [le_bytes length]; auto. Qed.
Lemma of_le_bytes_le n x : 0 <= x < 2 ^ (8 * Z.of_nat n) -> of_le_bytes (le_bytes n x) = x.
Proof.
  revert x; induction n as [|n IH]; intros x Hx.
  - change (8 * Z.of_nat 0) with 0 in Hx. cbn. lia.
  - cbn [le_bytes of_le_bytes]. replace (8 * Z.of_nat (S n)) with (8 + 8 * Z.of_nat n) in Hx by lia.
    rewrite Z.pow_add_r in Hx by lia. change (2 ^ 8) with 256 in Hx. rewrite IH.
    + pose proof (Z.div_mod x 256). lia.
    + split; [apply Z.div_pos; lia|]. apply Z.div_lt_upper_bound; lia.
Qed.

(** ** Parsers that invert printers *)
(** [get] reads back [a] whatever follows, and fails on every strict prefix of its text. *)
Record inverts {A} (get : parser A) (text : list Z) (a : A) : Prop := {
  inv_read : forall rest, get (text ++ rest) = Some (a, rest);
  inv_torn : forall k, (k < length text)%nat -> get (firstn k text) = None }.

Lemma inverts_ret {A} (a : A) : inverts (pret a) [] a.
Proof. split; [reflexivity|cbn; lia]. Qed.
Lemma inverts_bind {A B} (g : parser A) (f : A -> parser B) t1 t2 a b :
  inverts g t1 a -> inverts (f a) t2 b -> inverts (pbind g f) (t1 ++ t2) b.
Proof.
  intros [R1 T1] [R2 T2]. split.
  - intros rest. unfold pbind. rewrite <- app_assoc, R1. apply R2.
  - intros k Hk. rewrite app_length in Hk. rewrite firstn_app. unfold pbind.
    destruct (Nat.lt_ge_cases k (length t1)) as [L|L].
    + replace (k - length t1)%nat with O by lia. cbn [firstn]. rewrite app_nil_r, T1 by auto. reflexivity.
    + rewrite firstn_all2 by lia. rewrite R1. apply T2. lia.
Qed.
Lemma inverts_map {A B} (g : parser A) (f : A -> B) t a : inverts g t a -> inverts (pmap f g) t (f a).
Proof. intros H. unfold pmap. rewrite <- (app_nil_r t). eapply inverts_bind; eauto. apply inverts_ret. Qed.
Lemma inverts_uint n x : 0 <= x < 2 ^ (8 * Z.of_nat n) -> inverts (get_uint n) (le_bytes n x) x.
Proof.
  intros Hx. split.
  - intros rest. unfold get_uint. rewrite app_length, length_le_bytes.
    destruct (Nat.leb_spec n (n + length rest)); [|lia].
    rewrite firstn_app, skipn_app, length_le_bytes, Nat.sub_diag. cbn [firstn skipn].
    rewrite firstn_all2 by (rewrite length_le_bytes; lia). rewrite skipn_all2 by (rewrite length_le_bytes; lia).
    rewrite app_nil_r, of_le_bytes_le by auto. reflexivity.
  - intros k Hk. rewrite length_le_bytes in Hk. unfold get_uint. rewrite firstn_length, length_le_bytes.
    destruct (Nat.leb_spec n (Nat.min k n)); [lia|reflexivity].
Qed.
Lemma inverts_i16 x : -32768 <= x <= 32767 -> inverts get_i16 (put_i16 x) x.
Proof.
  intros Hx. assert (E : swrap 16 (uwrap 16 x) = x).
  { rewrite swrap_uwrap by lia. apply swrap_small; [lia|]. change (2 ^ (16 - 1)) with 32768. lia. }
  rewrite <- E at 2. unfold get_i16, put_i16. apply inverts_map. apply inverts_uint.
  apply (uwrap_range 16). lia.
Qed.
Lemma inverts_n {A} (g : parser A) (put : A -> list Z) l :
  Forall (fun a => inverts g (put a) a) l -> inverts (get_n g (length l)) (flat_map put l) l.
Proof.
  induction 1 as [|a l Ha H IH]; cbn [length get_n flat_map]; [apply inverts_ret|].
  eapply inverts_bind; [exact Ha|]. rewrite <- (app_nil_r (flat_map put l)).
  eapply inverts_bind; [exact IH|]. apply inverts_ret.
Qed.
Lemma flat_map_ge {A} (put : A -> list Z) l : Forall (fun a => (1 <= length (put a))%nat) l -> zlen l <= zlen (flat_map put l).
Proof.
  induction 1; cbn [flat_map]; [reflexivity|]. rewrite zlen_cons, zlen_app. unfold zlen in *. lia.
Qed.
Lemma inverts_vec {A} (g : parser A) (put : A -> list Z) l : zlen l < 2 ^ 64 ->
  Forall (fun a => inverts g (put a) a) l -> Forall (fun a => (1 <= length (put a))%nat) l ->
  inverts (get_vec g) (put_vec put l) l.
Proof.
  intros Hl HI HP. unfold get_vec, put_vec. eapply inverts_bind.
  - apply inverts_uint. change (8 * Z.of_nat 8) with 64. pose proof (zlen_nonneg l). lia.
  - pose proof (inverts_n g put l HI) as [R T]. pose proof (flat_map_ge put l HP). split.
    + intros rest. rewrite zlen_app. pose proof (zlen_nonneg rest).
      destruct (Z.leb_spec (zlen l) (zlen (flat_map put l) + zlen rest)); [|lia].
      rewrite to_nat_zlen. apply R.
    + intros k Hk. destruct (_ <=? _); [|reflexivity]. rewrite to_nat_zlen. auto.
Qed.

(** ** The whole file *)
Lemma u_range w x : in_range_u w x -> 0 <= x < 2 ^ w.
Proof. auto. Qed.
Lemma inverts_history t : history_fits t -> inverts get_history (put_history t) t.
Proof.
  destruct t as [[a b] c]. intros (Ha & Hb & Hc). unfold get_history, put_history.
  eapply inverts_bind; [apply inverts_i16; exact Ha|]. eapply inverts_bind; [apply inverts_i16; exact Hb|].
  rewrite <- (app_nil_r (put_i16 c)). eapply inverts_bind; [apply inverts_i16; exact Hc|]. apply inverts_ret.
Qed.
Ltac inverts_tail := match goal with |- inverts (pbind _ _) (?f ?x) _ => rewrite <- (app_nil_r (f x)) end.
Lemma Forall_uint n l : Forall (in_range_u (8 * Z.of_nat n)) l -> Forall (fun a => inverts (get_uint n) (le_bytes n a) a) l.
Proof. intros H. eapply Forall_impl; [|exact H]. intros a Ha. now apply inverts_uint. Qed.
Lemma Forall_len n l : (1 <= n)%nat -> Forall (fun a => (1 <= length (le_bytes n a))%nat) l.
Proof. intros H. apply Forall_forall. intros. now rewrite length_le_bytes. Qed.
Lemma inverts_uvec n l : (1 <= n)%nat -> zlen l < 2 ^ 64 -> Forall (in_range_u (8 * Z.of_nat n)) l ->
  inverts (get_vec (get_uint n)) (put_vec (le_bytes n) l) l.
Proof. intros. apply inverts_vec; auto using Forall_uint, Forall_len. Qed.
Lemma inverts_headers h : headers_fit h -> inverts get_headers (put_headers h) h.
Proof.
  destruct h as [[nd nc] [bb bc] sz cu hi hc]. intros H. destruct H as [H1 H2 H3 H4 H5 H6 H7 H8 H9 H10 H11 H12 H13].
  cbn [fhs_exps fhs_inits fhs_sizes fhs_cursors fhs_hists fhs_cursor nl_data nl_count bv_binary bv_cursor] in *.
  unfold get_headers, put_headers.
  cbn [fhs_exps fhs_inits fhs_sizes fhs_cursors fhs_hists fhs_cursor].
  eapply inverts_bind.
  { unfold get_nibble_list, put_nibble_list. cbn [nl_data nl_count]. eapply inverts_bind; [apply inverts_uvec; auto|].
    inverts_tail. eapply inverts_bind; [apply inverts_uint; auto|apply inverts_ret]. }
  eapply inverts_bind.
  { unfold get_bitvec, put_bitvec. cbn [bv_binary bv_cursor]. eapply inverts_bind; [apply inverts_uvec; auto; lia|].
    inverts_tail. eapply inverts_bind; [apply inverts_uint; auto|apply inverts_ret]. }
  eapply inverts_bind; [apply inverts_uvec; auto; lia|].
  eapply inverts_bind; [apply inverts_uvec; auto; lia|].
  eapply inverts_bind.
  { apply inverts_vec; auto.
    - eapply Forall_impl; [|exact H12]. apply inverts_history.
    - apply Forall_forall. intros [[a b] c] _. unfold put_history, put_i16. rewrite !app_length, !length_le_bytes. lia. }
  inverts_tail. eapply inverts_bind; [apply inverts_uint; auto|apply inverts_ret].
Qed.
Lemma inverts_codec c : fits c -> inverts get_codec (ad_save c) (ad_level c, ad_headers c, ad_stream c).
Proof.
  intros [Hl Hh Hi Hb1 Hb2 Hb3 Hb4]. unfold get_codec, ad_save.
  eapply inverts_bind; [apply inverts_uint; exact Hl|].
  eapply inverts_bind; [apply inverts_headers; exact Hh|].
  destruct (ad_stream c) as [info [bin cur cap]]. cbn [as_info as_stream bs_binary bs_cursor bs_capacity] in *.
  eapply inverts_bind with (a := info).
  - unfold get_info, put_info. destruct info as [[r ch]|].
    + destruct (Hi _ eq_refl) as [Hr Hch]. cbn [si_rate si_channels] in *.
      eapply inverts_bind; [apply inverts_uint; lia|]. cbn [Z.eqb Z.compare].
      eapply inverts_bind; [apply inverts_uint; exact Hr|]. inverts_tail.
      eapply inverts_bind; [apply inverts_uint; exact Hch|]. apply inverts_ret.
    + inverts_tail. eapply inverts_bind; [apply inverts_uint; lia|]. apply inverts_ret.
  - rewrite <- (app_nil_r (put_bitstream _)). eapply inverts_bind; [|apply inverts_ret].
    unfold get_bitstream, put_bitstream. cbn [bs_binary bs_cursor bs_capacity].
    eapply inverts_bind; [apply inverts_uvec; auto; lia|].
    eapply inverts_bind; [apply inverts_uint; auto|]. inverts_tail.
    eapply inverts_bind; [apply inverts_uint; auto|]. apply inverts_ret.
Qed.

(** ** Size *)
Lemma zlen_le_bytes n x : zlen (le_bytes n x) = Z.of_nat n.
Proof. unfold zlen. now rewrite length_le_bytes. Qed.
Lemma zlen_put_vec {A} (put : A -> list Z) m l : (forall a, zlen (put a) = m) -> zlen (put_vec put l) = 8 + m * zlen l.
Proof.
  intros H. unfold put_vec, put_u64. rewrite zlen_app, zlen_le_bytes. change (Z.of_nat 8) with 8. f_equal.
  induction l as [|a l IH]; cbn [flat_map]; [unfold zlen; cbn; lia|]. rewrite zlen_app, zlen_cons, H, IH. lia.
Qed.
Lemma zlen_save c info : as_info (ad_stream c) = Some info ->
  zlen (ad_save c) = 117 + zlen (nl_data (fhs_exps (ad_headers c))) + 8 * zlen (bv_binary (fhs_inits (ad_headers c)))
    + 2 * zlen (fhs_sizes (ad_headers c)) + 8 * zlen (fhs_cursors (ad_headers c)) + 6 * zlen (fhs_hists (ad_headers c))
    + 16 * zlen (bs_binary (as_stream (ad_stream c))).
Proof.
  intros Hi. unfold ad_save, put_headers, put_nibble_list, put_bitvec, put_bitstream, put_info. rewrite Hi.
  unfold put_u8, put_u16, put_u32, put_u64, put_u128.
  rewrite !zlen_app, !zlen_le_bytes.
  rewrite (zlen_put_vec (le_bytes 1) 1), (zlen_put_vec (le_bytes 2) 2), !(zlen_put_vec (le_bytes 8) 8), (zlen_put_vec (le_bytes 16) 16),
    (zlen_put_vec put_history 6) by (intros; try apply zlen_le_bytes; destruct a as [[? ?] ?]; cbn; reflexivity).
  lia.
Qed.
