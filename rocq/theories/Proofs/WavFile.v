(** * Facts about WavCodec::load and save_to *)
From Coq Require Import ZArith List Bool Lia.
From Verif Require Import Model.Base Model.F32 Model.Sample Model.Adhoc Model.Bincode Model.Wav Spec.Recording Spec.Wave.
From Verif Require Import Proofs.BaseFacts Proofs.WavFacts.
Import ListNotations.
Open Scope Z_scope.

(** ** The tag *)
Lemma list_eqb_eq a b : list_eqb a b = true <-> a = b.
Proof.
  revert b; induction a as [|x a IH]; intros [|y b]; cbn [list_eqb]; try (split; congruence).
  rewrite andb_true_iff, Z.eqb_eq, IH. split; [intros [-> ->]; reflexivity|intros E; injection E; auto].
Qed.
Lemma tag_length l k : tag_at l k -> (k + 4 <= length l)%nat.
Proof. unfold tag_at. intros H. apply (f_equal (@length Z)) in H. rewrite firstn_length, skipn_length in H. cbn [data_tag length] in H. lia. Qed.
Lemma find_tag_spec l : forall pos,
  match find_tag l pos with
  | Some q => exists k, q = pos + Z.of_nat k /\ tag_at l k /\ forall i, (i < k)%nat -> ~ tag_at l i
  | None => forall i, ~ tag_at l i
  end.
Proof.
  induction l as [|a l IH]; intros pos; cbn [find_tag]; [intros i H; apply tag_length in H; cbn [length] in H; lia|].
  destruct l as [|b [|c [|d l]]]; try (intros i H; apply tag_length in H; cbn [length] in H; lia).
  destruct (list_eqb [a; b; c; d] TAG_DATA) eqn:E.
  - exists 0%nat. split; [lia|]. split; [|intros i Hi; lia]. apply list_eqb_eq in E. exact E.
  - assert (N0 : ~ tag_at (a :: b :: c :: d :: l) 0).
    { intros H. unfold tag_at in H. cbn [skipn firstn] in H. change data_tag with TAG_DATA in H. apply list_eqb_eq in H. congruence. }
    specialize (IH (pos + 1)). destruct (find_tag (b :: c :: d :: l) (pos + 1)) as [q|].
    + destruct IH as (k & -> & T & N). exists (S k). split; [lia|]. split; [exact T|]. intros [|i] Hi; [exact N0|]. intros H. apply (N i); [lia|exact H].
    + intros [|i]; [exact N0|]. intros H. apply (IH i). exact H.
Qed.
Lemma find_first file pos : first_tag file pos -> find_tag (firstn 256 file) 0 = Some (Z.of_nat pos).
Proof.
  intros [T N]. pose proof (find_tag_spec (firstn 256 file) 0) as F. destruct (find_tag (firstn 256 file) 0) as [q|].
  - destruct F as (k & -> & T' & N'). f_equal. rewrite Z.add_0_l. f_equal. destruct (Nat.lt_trichotomy k pos) as [H|[H|H]]; auto; exfalso.
    + now apply (N k).
    + now apply (N' pos).
  - exfalso. now apply (F pos).
Qed.

(** ** The expansion of 8-bit samples *)
Lemma replace_skipn {A} n (l : list A) a : (n < length l)%nat -> skipn n (replace_nth n l a) = a :: skipn (S n) l.
Proof. revert n; induction l as [|x l IH]; intros [|n] H; cbn [length] in H; try lia; [reflexivity|]. cbn [replace_nth skipn]. apply IH. lia. Qed.
Lemma replace_firstn {A} k n (l : list A) a : (k <= n)%nat -> firstn k (replace_nth n l a) = firstn k l.
Proof.
  revert k l; induction n as [|n IH]; intros k l H; [now replace k with 0%nat by lia|].
  destruct l as [|x l]; [reflexivity|]. destruct k as [|k]; [reflexivity|]. cbn [replace_nth firstn]. rewrite IH by lia. reflexivity.
Qed.
Lemma replace_skipn_before {A} k n (l : list A) a : (n < k)%nat -> skipn k (replace_nth n l a) = skipn k l.
Proof.
  revert k l; induction n as [|n IH]; intros k l H; destruct k as [|k]; try lia; destruct l as [|x l]; try reflexivity.
  cbn [replace_nth skipn]. apply IH. lia.
Qed.
Lemma expand_loop raw : forall k s, (k <= length raw)%nat -> length s = (2 * length raw)%nat ->
  firstn k s = firstn k raw -> skipn (2 * k) s = pcm_bytes (map expand8 (skipn k raw)) ->
  foldM expand_step (rev (range (Z.of_nat k))) s = Ok (pcm_bytes (map expand8 raw)).
Proof.
  induction k as [|k IH]; intros s Hk Hl HF HS.
  - rewrite Nat.mul_0_r in HS. cbn [skipn] in HS. rewrite <- HS. reflexivity.
  - rewrite Nat2Z.inj_succ, <- Z.add_1_r, range_succ, rev_app_distr by lia. cbn [rev app foldM]. unfold expand_step at 1.
    assert (LZ : zlen s = 2 * zlen raw) by (unfold zlen; lia). assert (KZ : Z.of_nat k < zlen raw) by (unfold zlen; lia).
    rewrite (index_ok s (Z.of_nat k) 0) by lia. rewrite Nat2Z.id. cbn [bind].
    assert (E : nth k s 0 = nth k raw 0).
    { rewrite <- (firstn_skipn (S k) s), <- (firstn_skipn (S k) raw), HF. rewrite !app_nth1; auto; rewrite firstn_length; lia. }
    rewrite E. rewrite store_ok by lia. cbn [bind]. rewrite store_ok by (rewrite zlen_replace_nth; lia). cbn [bind].
    replace (Z.to_nat (2 * Z.of_nat k)) with (2 * k)%nat by lia. replace (Z.to_nat (2 * Z.of_nat k + 1)) with (S (2 * k)) by lia.
    apply IH; [lia|now rewrite !length_replace_nth| |].
    + rewrite !replace_firstn by lia. apply (f_equal (firstn k)) in HF. rewrite !firstn_firstn in HF. now replace (Nat.min k (S k)) with k in HF by lia.
    + rewrite (skipn_cons_nth (replace_nth (S (2 * k)) _ _) (2 * k) 0) by (rewrite !length_replace_nth; lia).
      rewrite replace_skipn by (rewrite length_replace_nth; lia). rewrite replace_skipn_before by lia.
      rewrite nth_replace_other by lia. rewrite nth_replace_same by lia.
      replace (S (S (2 * k))) with (2 * S k)%nat by lia. rewrite HS.
      rewrite (skipn_cons_nth raw k 0) by lia. cbn [map pcm_bytes flat_map bytes16 app]. now rewrite lo_byte_mod, hi_byte_mod.
Qed.
Lemma expand_ok raw : expand_pcm raw = Ok (pcm_bytes (map expand8 raw)).
Proof.
  unfold expand_pcm. apply (expand_loop raw (length raw)).
  - lia.
  - rewrite app_length, repeat_length. lia.
  - rewrite firstn_app, Nat.sub_diag. cbn [firstn]. apply app_nil_r.
  - rewrite !skipn_all2; [reflexivity|lia|rewrite app_length, repeat_length; lia].
Qed.

(** ** Header fields *)
Lemma number_of l : of_le_bytes l = number l.
Proof. induction l as [|b l IH]; [reflexivity|]. cbn [of_le_bytes number]. now rewrite IH. Qed.
Lemma field_number file o n : (o + n <= 256)%nat -> field (firstn 256 file) o n = number_at file o n.
Proof.
  intros H. unfold field, number_at. rewrite number_of. f_equal. rewrite !firstn_skipn_comm, firstn_firstn. do 2 f_equal. lia.
Qed.
Lemma number_range l : Forall is_byte l -> 0 <= number l < 256 ^ zlen l.
Proof.
  induction 1 as [|b l Hb HF IH]; [cbn; lia|]. cbn [number]. rewrite zlen_cons, Z.pow_add_r by (pose proof (zlen_nonneg l); lia). unfold is_byte in Hb. lia.
Qed.
Lemma number_at_range file o n : Forall is_byte file -> 0 <= number_at file o n < 256 ^ Z.of_nat n.
Proof.
  intros H. unfold number_at. assert (F : Forall is_byte (firstn n (skipn o file))).
  { apply Forall_forall. intros b Hb. eapply Forall_forall; [exact H|]. rewrite <- (firstn_skipn o file). apply in_or_app. right.
    rewrite <- (firstn_skipn n (skipn o file)). apply in_or_app. now left. }
  pose proof (number_range _ F) as R. assert (256 ^ zlen (firstn n (skipn o file)) <= 256 ^ Z.of_nat n); [|lia].
  apply Z.pow_le_mono_r; [lia|]. unfold zlen. rewrite firstn_length. lia.
Qed.

(** ** Load *)
(** What [load] reads from the header. *)
Definition loaded_info (file : list Z) : stream_info :=
  mkInfo (uwrap 32 (swrap 32 (number_at file 24 4))) (uwrap 32 (swrap 16 (number_at file 22 2))).
Lemma load_short p file : zlen file < 256 -> wav_load p file = Ok None.
Proof. intros H. unfold wav_load. destruct (Z.ltb_spec (zlen file) 256); [reflexivity|lia]. Qed.
Lemma load_no_tag p file : (forall pos, ~ first_tag file pos) -> wav_load p file = Ok None.
Proof.
  intros H. unfold wav_load. destruct (zlen file <? 256); [reflexivity|]. cbv zeta.
  pose proof (find_tag_spec (firstn 256 file) 0) as F. destruct (find_tag (firstn 256 file) 0) as [q|]; [|reflexivity].
  destruct F as (k & _ & T & N). exfalso. apply (H k). split; auto.
Qed.
Lemma header_len (file : list Z) : 256 <= zlen file -> zlen (firstn 256 file) = 256.
Proof. intros H. rewrite zlen_firstn. lia. Qed.
Lemma load_late_tag p file pos : 256 <= zlen file -> first_tag file pos -> (248 < pos)%nat -> wav_load p file = Panic IndexOutOfBounds.
Proof.
  intros Hl HT Hp. unfold wav_load. destruct (Z.ltb_spec (zlen file) 256) as [|_]; [lia|]. cbv zeta. rewrite (find_first _ _ HT).
  pose proof (header_len file Hl) as HL. destruct HT as [T _]. apply tag_length in T. unfold zlen in HL.
  set (h := firstn 256 file) in *. unfold slice_from.
  destruct (Z.leb_spec 0 (Z.of_nat pos + 4)); [|lia]. destruct (Z.leb_spec (Z.of_nat pos + 4) (zlen h)) as [_|]; [|unfold zlen in *; lia]. cbn [andb bind].
  set (t := skipn _ h). assert (LT : zlen t <= 3) by (subst t; unfold zlen; rewrite skipn_length; lia).
  assert (I : forall i, 0 <= i -> (exists x, index t i = Ok x) \/ index t i = Panic IndexOutOfBounds).
  { intros i Hi. destruct (Z.lt_ge_cases i (zlen t)); [left; rewrite (index_ok t i 0) by lia; eauto|right; apply index_oob; lia]. }
  destruct (I 0 ltac:(lia)) as [[x0 ->]| ->]; [|reflexivity]. cbn [bind].
  destruct (I 1 ltac:(lia)) as [[x1 ->]| ->]; [|reflexivity]. cbn [bind].
  destruct (I 2 ltac:(lia)) as [[x2 ->]| ->]; [|reflexivity]. cbn [bind].
  rewrite index_oob by lia. reflexivity.
Qed.
Lemma load_tag p file pos : 256 <= zlen file -> first_tag file pos -> (pos <= 248)%nat ->
  wav_load p file =
  (let bits := swrap 16 (number_at file 34 2) in
   if (bits =? 16) || (bits =? 8) then
     if swrap 16 (number_at file 20 2) =? 1 then
       let raw := skipn (pos + 8) file in
       Ok (Some (mkWav (loaded_info file) (if bits =? 8 then pcm_bytes (map expand8 raw) else raw) 0))
     else Ok None
   else Ok None).
Proof.
  intros Hl HT Hp. unfold wav_load. destruct (Z.ltb_spec (zlen file) 256) as [|_]; [lia|]. cbv zeta. rewrite (find_first _ _ HT).
  rewrite !field_number by lia. fold (loaded_info file).
  pose proof (header_len file Hl) as HL. destruct HT as [T _]. apply tag_length in T. unfold zlen in HL.
  set (h := firstn 256 file) in *. unfold slice_from.
  destruct (Z.leb_spec 0 (Z.of_nat pos + 4)); [|lia]. destruct (Z.leb_spec (Z.of_nat pos + 4) (zlen h)) as [_|]; [|unfold zlen in *; lia]. cbn [andb bind].
  set (t := skipn _ h). assert (LT : 4 <= zlen t) by (subst t; unfold zlen; rewrite skipn_length; lia).
  rewrite !(index_ok t _ 0) by lia. cbn [bind].
  replace (Z.to_nat (Z.of_nat pos + 8)) with (pos + 8)%nat by lia.
  generalize (swrap 16 (number_at file 34 2)). intros bits.
  destruct (Z.eqb_spec bits 16) as [->|]; cbn [negb andb orb Z.eqb Pos.eqb].
  - destruct (swrap 16 (number_at file 20 2) =? 1); reflexivity.
  - destruct (Z.eqb_spec bits 8) as [->|]; cbn [negb andb orb Z.eqb Pos.eqb]; [|reflexivity].
    destruct (swrap 16 (number_at file 20 2) =? 1); [|reflexivity]. cbn [negb]. now rewrite expand_ok.
Qed.
Lemma load_ok p file pos : 256 <= zlen file -> first_tag file pos -> (pos <= 248)%nat -> exists o, wav_load p file = Ok o.
Proof.
  intros H1 H2 H3. rewrite (load_tag p file pos H1 H2 H3). cbv zeta. destruct (_ || _); [|eauto]. destruct (_ =? 1); eauto.
Qed.

(** ** Save *)
Lemma digits_le n x : digits n x = le_bytes n x.
Proof. revert x; induction n as [|n IH]; intros x; [reflexivity|]. cbn [digits le_bytes]. now rewrite IH. Qed.
Lemma digits_wrap n x : digits n (uwrap (8 * Z.of_nat n) x) = digits n x.
Proof.
  unfold uwrap. revert x; induction n as [|n IH]; intros x; [reflexivity|]. cbn [digits].
  replace (8 * Z.of_nat (S n)) with (8 + 8 * Z.of_nat n) by lia. rewrite Z.pow_add_r by lia. change (2 ^ 8) with 256.
  assert (0 < 2 ^ (8 * Z.of_nat n)) by (apply Z.pow_pos_nonneg; lia).
  rewrite Z.rem_mul_r by lia. f_equal.
  - rewrite Z.mul_comm, Z.mod_add, Z.mod_mod by lia. reflexivity.
  - rewrite <- (IH (x / 256)). f_equal. rewrite Z.mul_comm, Z.div_add by lia. rewrite Z.div_small by (apply Z.mod_pos_bound; lia). apply Z.add_0_l.
Qed.
Lemma header_ok p w : format_fits (wav_info w) -> zlen (wav_pcm w) < 2 ^ 32 - 36 ->
  wav_header p w = Ok (canonical_header (si_rate (wav_info w)) (si_channels (wav_info w)) (zlen (wav_pcm w))).
Proof.
  intros (Hc & Hr & Hp) Hn. pose proof (zlen_nonneg (wav_pcm w)). unfold wav_header.
  set (n := zlen (wav_pcm w)) in *. set (rate := si_rate (wav_info w)) in *. set (ch := si_channels (wav_info w)) in *.
  assert (rate < 2 ^ 27) by nia.
  rewrite (uwrap_small 32 n) by lia. rewrite uchk_ok by lia. cbn [bind].
  rewrite (swrap_small 32 rate) by lia. rewrite (swrap_small 16 ch) by lia.
  rewrite schk_ok by (change (2 ^ (32 - 1)) with (2 ^ 31); nia). cbn [bind].
  rewrite schk_ok by (change (2 ^ (32 - 1)) with (2 ^ 31); nia). cbn [bind].
  rewrite schk_ok by (change (2 ^ (16 - 1)) with (2 ^ 15); nia). cbn [bind].
  rewrite !Z.quot_div_nonneg by nia. f_equal. unfold canonical_header, put_u32, put_i16, put_i32. rewrite <- !digits_le.
  rewrite !(digits_wrap 4) || rewrite ?(digits_wrap 4). rewrite ?(digits_wrap 2).
  replace (rate * ch * 16 / 8) with (rate * ch * 2) by (rewrite <- (Z.div_mul (rate * ch * 2) 8) by lia; f_equal; lia).
  replace (ch * 16 / 8) with (ch * 2) by (rewrite <- (Z.div_mul (ch * 2) 8) by lia; f_equal; lia).
  change (uwrap (8 * Z.of_nat 4)) with (uwrap 32). change (uwrap (8 * Z.of_nat 2)) with (uwrap 16).
  replace (44 - 8 + n) with (36 + n) by lia. reflexivity.
Qed.
Lemma length_digits n x : length (digits n x) = n.
Proof. revert x; induction n as [|n IH]; intros x; [reflexivity|]. cbn [digits length]. now rewrite IH. Qed.
Lemma header_len_any p w h : wav_header p w = Ok h -> length h = 44%nat.
Proof.
  unfold wav_header. intros H. repeat match type of H with bind ?o _ = Ok _ => destruct o; cbn [bind] in H; try discriminate H end.
  injection H as <-. reflexivity.
Qed.

(** ** Load after save *)
Lemma number_digits k x : number (digits k x) = x mod 256 ^ Z.of_nat k.
Proof.
  revert x; induction k as [|k IH]; intros x; [cbn; now rewrite Z.mod_1_r|]. cbn [digits number]. rewrite IH.
  rewrite Nat2Z.inj_succ, Z.pow_succ_r by lia. rewrite Z.rem_mul_r by lia. reflexivity.
Qed.
Definition any_header (d0 d1 d2 d3 c0 c1 r0 r1 r2 r3 b0 b1 b2 b3 k0 k1 : Z) (tail : list Z) : list Z :=
  82 :: 73 :: 70 :: 70 :: d0 :: d1 :: d2 :: d3 :: 87 :: 65 :: 86 :: 69 :: 102 :: 109 :: 116 :: 32 :: 16 :: 0 :: 0 :: 0 :: 1 :: 0 ::
  c0 :: c1 :: r0 :: r1 :: r2 :: r3 :: b0 :: b1 :: b2 :: b3 :: k0 :: k1 :: 16 :: 0 :: data_tag ++ tail.
Lemma early_tag d0 d1 d2 d3 c0 c1 r0 r1 r2 r3 b0 b1 b2 b3 k0 k1 tail i : c1 < 97 -> r3 < 97 -> b3 < 97 -> k1 < 97 -> (i < 36)%nat ->
  tag_at (any_header d0 d1 d2 d3 c0 c1 r0 r1 r2 r3 b0 b1 b2 b3 k0 k1 tail) i -> i = 4%nat /\ [d0; d1; d2; d3] = data_tag.
Proof.
  intros H1 H2 H3 H4 Hi. unfold tag_at, any_header, data_tag.
  do 36 (destruct i as [|i]; [cbn [skipn firstn app]; intros E; injection E; intros; first [exfalso; lia|split; [reflexivity|congruence]]|]).
  lia.
Qed.
Lemma canonical_any rate ch n tail : canonical_header rate ch n ++ tail =
  any_header ((36 + n) mod 256) ((36 + n) / 256 mod 256) ((36 + n) / 256 / 256 mod 256) ((36 + n) / 256 / 256 / 256 mod 256)
    (ch mod 256) (ch / 256 mod 256) (rate mod 256) (rate / 256 mod 256) (rate / 256 / 256 mod 256) (rate / 256 / 256 / 256 mod 256)
    (rate * ch * 2 mod 256) (rate * ch * 2 / 256 mod 256) (rate * ch * 2 / 256 / 256 mod 256) (rate * ch * 2 / 256 / 256 / 256 mod 256)
    (ch * 2 mod 256) (ch * 2 / 256 mod 256) (digits 4 n ++ tail).
Proof. unfold canonical_header. rewrite <- !app_assoc. reflexivity. Qed.
Lemma length_canonical rate ch n : length (canonical_header rate ch n) = 44%nat.
Proof. reflexivity. Qed.
(** The length for which the RIFF size field reads "data". *)
Definition unlucky : Z := 1635017024.
Section Saved.
Variables (info : stream_info) (pcm : list Z).
Hypothesis Hf : format_fits info.
Hypothesis Hb : 212 <= zlen pcm < 2 ^ 32 - 36.
Let rate := si_rate info.
Let ch := si_channels info.
Let n := zlen pcm.
Let file := canonical_header rate ch n ++ pcm.
Let top := firstn 256 file.
Lemma top_any : top = canonical_header rate ch n ++ firstn 212 pcm.
Proof. unfold top, file. rewrite firstn_app. rewrite length_canonical. rewrite firstn_all2 by (rewrite length_canonical; lia). reflexivity. Qed.
Lemma small_bytes : ch / 256 mod 256 < 97 /\ rate / 256 / 256 / 256 mod 256 < 97 /\ rate * ch * 2 / 256 / 256 / 256 mod 256 < 97 /\ ch * 2 / 256 mod 256 < 97.
Proof.
  destruct Hf as (Hc & Hr & Hp). fold ch in Hc. fold rate in Hr. fold rate in Hp. fold ch in Hp. assert (rate < 2 ^ 27) by nia.
  rewrite !Z.div_div by lia. repeat split.
  - apply Z.le_lt_trans with (ch / 256); [apply Z.mod_le; [apply Z.div_pos; lia|lia]|apply Z.div_lt_upper_bound; lia].
  - apply Z.le_lt_trans with (rate / (256 * (256 * 256))); [rewrite Z.mul_assoc; apply Z.mod_le; [apply Z.div_pos; lia|lia]|apply Z.div_lt_upper_bound; lia].
  - apply Z.le_lt_trans with (rate * ch * 2 / (256 * (256 * 256))); [rewrite Z.mul_assoc; apply Z.mod_le; [apply Z.div_pos; lia|lia]|apply Z.div_lt_upper_bound; lia].
  - apply Z.le_lt_trans with (ch * 2 / 256); [apply Z.mod_le; [apply Z.div_pos; lia|lia]|apply Z.div_lt_upper_bound; lia].
Qed.
Lemma digits4_inj x y : 0 <= x < 2 ^ 32 -> 0 <= y < 2 ^ 32 -> digits 4 x = digits 4 y -> x = y.
Proof.
  intros Hx Hy E. apply (f_equal number) in E. rewrite !number_digits in E. change (256 ^ Z.of_nat 4) with (2 ^ 32) in E.
  rewrite !Z.mod_small in E by lia. exact E.
Qed.
Lemma first_tag_saved : n <> unlucky -> first_tag file 36.
Proof.
  intros Hu. unfold first_tag. fold top. rewrite top_any, canonical_any. destruct small_bytes as (B1 & B2 & B3 & B4). split; [reflexivity|].
  intros i Hi T. apply early_tag in T; auto. destruct T as [_ E]. apply Hu. change (digits 4 (36 + n) = data_tag) in E.
  change data_tag with (digits 4 (36 + unlucky)) in E. apply digits4_inj in E; unfold unlucky in *; lia.
Qed.
Lemma first_tag_unlucky : n = unlucky -> first_tag file 4.
Proof.
  intros Hu. unfold first_tag. fold top. rewrite top_any, canonical_any. destruct small_bytes as (B1 & B2 & B3 & B4). split.
  - unfold tag_at. change (digits 4 (36 + n) = data_tag). rewrite Hu. reflexivity.
  - intros i Hi T. apply early_tag in T; auto; lia.
Qed.
Lemma field_bits : swrap 16 (number_at file 34 2) = 16.
Proof. reflexivity. Qed.
Lemma field_format : swrap 16 (number_at file 20 2) = 1.
Proof. reflexivity. Qed.
Lemma field_channels : number_at file 22 2 = ch.
Proof. change (number_at file 22 2) with (number (digits 2 ch)). rewrite number_digits. destruct Hf as (Hc & _). fold ch in Hc. apply Z.mod_small. lia. Qed.
Lemma field_rate : number_at file 24 4 = rate.
Proof.
  change (number_at file 24 4) with (number (digits 4 rate)). rewrite number_digits. destruct Hf as (Hc & Hr & Hp). fold ch in Hc. fold rate in Hr. fold rate in Hp. fold ch in Hp.
  apply Z.mod_small. assert (rate < 2 ^ 27) by nia. change (256 ^ Z.of_nat 4) with (2 ^ 32). lia.
Qed.
Lemma info_saved : loaded_info file = info.
Proof.
  unfold loaded_info. rewrite field_channels, field_rate. destruct Hf as (Hc & Hr & Hp). fold ch in Hc. fold rate in Hr. fold rate in Hp. fold ch in Hp.
  assert (rate < 2 ^ 27) by nia. rewrite (swrap_small 32) by lia. rewrite (swrap_small 16) by lia. rewrite !(uwrap_small 32) by lia. destruct info. reflexivity.
Qed.
Lemma zlen_file : zlen file = 44 + n.
Proof. unfold file. rewrite zlen_app. reflexivity. Qed.
Lemma load_saved q : n <> unlucky -> wav_load q file = Ok (Some (mkWav info pcm 0)).
Proof.
  intros Hu. rewrite (load_tag q file 36); [|rewrite zlen_file; lia|now apply first_tag_saved|lia]. rewrite field_bits, field_format. cbn [Z.eqb Pos.eqb orb].
  cbv zeta. rewrite info_saved. reflexivity.
Qed.
Lemma load_unlucky q : n = unlucky -> wav_load q file = Ok (Some (mkWav info (skipn 12 file) 0)).
Proof.
  intros Hu. rewrite (load_tag q file 4); [|rewrite zlen_file; lia|now apply first_tag_unlucky|lia]. rewrite field_bits, field_format. cbn [Z.eqb Pos.eqb orb].
  cbv zeta. rewrite info_saved. reflexivity.
Qed.
End Saved.
