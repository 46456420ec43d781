(** * Properties C01-C05, C53: the bit stream and its entropy codes *)
From Coq Require Import ZArith List Bool.
From Verif Require Import Model.Base Model.BitStream Spec.Bits Spec.StreamOps
  Proofs.BaseFacts Proofs.StreamOpsFacts.
Import ListNotations.
Open Scope Z_scope.

(** C01.  Raw writes: [IBit], [IBits], [ITyped]. *)
Definition raw_item (i : item) : Prop :=
  match i with IBit _ | IBits _ _ | ITyped _ _ => True | _ => False end.
Definition raw_width (i : item) : Z :=
  match i with IBit _ => 1 | IBits _ n => n | ITyped _ n => n | _ => 0 end.
Definition raw_written (i : item) : Z :=
  match i with IBit v => v | IBits v _ => v | ITyped v _ => v | _ => 0 end.

Theorem C01_bitstream_append_log : forall p l,
  Forall raw_item l -> Forall (item_ok p) l ->
  fold_right Z.add 0 (map raw_width l) + 512 < 2 ^ 64 ->
  exists s s',
    write_items p bs_new l = Ok s /\
    bs_len s = fold_right Z.add 0 (map raw_width l) /\
    read_items p (bs_seek_start s) l
      = Ok (s', map (fun i => raw_written i mod 2 ^ raw_width i) l) /\
    bs_cursor s' = bs_len s.
Proof.
  intros p l HR HO HB.
  assert (W : total_bits l = fold_right Z.add 0 (map raw_width l)).
  { clear HB. unfold total_bits. induction l as [|a l IH]; [reflexivity|].
    inversion HR; inversion HO; subst. cbn [flat_map map fold_right]. rewrite zlen_app, IH by auto.
    f_equal. destruct a; try contradiction; cbn [item_bits raw_width item_ok] in *;
      rewrite BitLog.zlen_bits_le, ?Z2Nat.id; try reflexivity.
    - apply H5.
    - destruct H5 as [_ H5]. cbn in H5. intuition; subst; discriminate. }
  assert (V : map item_value l = map (fun i => raw_written i mod 2 ^ raw_width i) l).
  { clear HB W. apply map_ext_Forall. apply Forall_forall. intros i Hi.
    rewrite Forall_forall in HR, HO. specialize (HR i Hi). specialize (HO i Hi).
    destruct i; try contradiction; cbn [item_value raw_written raw_width]; auto.
    symmetry. apply Z.mod_small. apply HO. }
  destruct (read_back_anywhere p [] l []) as (s & s' & E1 & E2 & E3 & E4);
    try constructor; auto.
  { change (total_bits []) with 0. rewrite W. now rewrite Z.add_0_r. }
  rewrite app_nil_r in E1. change (total_bits []) with 0 in *.
  rewrite Z.add_0_r, Z.add_0_l in *.
  exists s, s'. rewrite <- V, <- W, E2. repeat split; auto.
Qed.
Print Assumptions C01_bitstream_append_log.

(** 150 bits of [true], a u8, a wide write across a chunk boundary. *)
Example C01_not_vacuous :
  Forall raw_item [IBits (2 ^ 128 - 1) 128; ITyped 200 8; IBits 12345 100; IBit 255] /\
  Forall (item_ok Debug) [IBits (2 ^ 128 - 1) 128; ITyped 200 8; IBits 12345 100; IBit 255].
Proof. repeat constructor; cbn; auto; intuition discriminate. Qed.

(** C02.  Code words (of any mix of exponents) between arbitrary other content: they read
    back as the values written, and the cursor stops exactly behind the last one. *)
Theorem C02_entropy_roundtrip : forall p pre codes post,
  Forall (item_ok p) pre -> Forall (item_ok p) post ->
  Forall (fun c => 0 <= fst c <= 15 /\ (p = Debug -> fst c <= 14) /\ -32767 <= snd c <= 32767) codes ->
  let items := map (fun c => IRice (fst c) (snd c)) codes in
  total_bits pre + total_bits items + total_bits post + 512 < 2 ^ 64 ->
  exists s s',
    write_items p bs_new (pre ++ items ++ post) = Ok s /\
    read_items p (set_bit_cursor s (total_bits pre)) items = Ok (s', map snd codes) /\
    bs_cursor s' = total_bits pre + total_bits items.
Proof.
  intros p pre codes post H1 H2 H3 items HB.
  destruct (read_back_anywhere p pre items post) as (s & s' & E1 & E2 & E3 & E4); auto.
  { subst items. rewrite Forall_forall in *. intros i Hi. apply in_map_iff in Hi.
    destruct Hi as (c & <- & Hc). exact (H3 c Hc). }
  exists s, s'. repeat split; auto. rewrite E3. do 2 f_equal.
  subst items. rewrite map_map. reflexivity.
Qed.
Print Assumptions C02_entropy_roundtrip.

Example C02_not_vacuous :
  let codes := [(0, 300); (14, -32767); (3, 0); (7, 1234)] in
  Forall (fun c => 0 <= fst c <= 15 /\ (Debug = Debug -> fst c <= 14) /\ -32767 <= snd c <= 32767) codes /\
  total_bits (map (fun c => IRice (fst c) (snd c)) codes) = 302 + (1 + 16) + 5 + (9 + 9).
Proof. split; [repeat constructor; cbn; intuition discriminate|reflexivity]. Qed.

(** The exponent 15 is out of reach where overflow checks are on: the mask [(1 << 15) - 1] is
    computed in i16. *)
Theorem C02_checked_exponent_15 : forall s v, write_compressed Debug s 15 v = Panic ArithmeticOverflow.
Proof.
  intros s v. unfold write_compressed. unfold schk at 1 2. destruct (in_s 16 (Z.abs v)); reflexivity.
Qed.
Print Assumptions C02_checked_exponent_15.

(** C03.  The emitted bits, their number, and prefix freeness. *)
Theorem C03_code_shape : forall p e v,
  0 <= e <= 15 -> (p = Debug -> e <= 14) -> -32767 <= v <= 32767 ->
  exists s s',
    write_compressed p bs_new e v = Ok s /\
    bs_len s = Z.abs v / 2 ^ e + e + 2 /\
    read_bools p (bs_seek_start s) (Z.to_nat (bs_len s)) =
      Ok (s', (v <? 0) :: repeat true (Z.to_nat (Z.abs v / 2 ^ e)) ++ false ::
              bits_le (Z.to_nat e) (Z.abs v mod 2 ^ e)).
Proof. exact code_shape. Qed.
Print Assumptions C03_code_shape.

Theorem C03_prefix_free : forall e v w x y,
  0 <= e -> rice e v ++ x = rice e w ++ y -> v = w /\ x = y.
Proof. intros e v w x y He H. destruct (rice_prefix e v w x y He H) as (_ & H1 & H2). auto. Qed.
Print Assumptions C03_prefix_free.

(** In terms of streams: a code word followed by anything can never be confused with
    another value's code word followed by anything. *)
Theorem C03_prefix_free_stream : forall p e v w post post',
  0 <= e <= 15 -> (p = Debug -> e <= 14) ->
  -32767 <= v <= 32767 -> -32767 <= w <= 32767 -> v <> w ->
  flat_map item_bits (IRice e v :: post) <> flat_map item_bits (IRice e w :: post').
Proof.
  intros p e v w post post' He Hp Hv Hw HN E. cbn [flat_map item_bits] in E.
  apply rice_prefix in E; [|apply He]. destruct E as (_ & _ & E). contradiction.
Qed.
Print Assumptions C03_prefix_free_stream.

Example C03_case :
  (match write_compressed Release bs_new 2 (-13) with Ok s => bs_len s | _ => 0 end) = 3 + 2 + 2 /\
  rice 2 (-13) = [true; true; true; true; false; true; false].
Proof. split; reflexivity. Qed.

(** C04.  The capped code at any position: inside the capped range the value comes back;
    outside, either the value or its clamp. *)
Theorem C04_capped_roundtrip : forall p pre k v post,
  Forall (item_ok p) pre -> Forall (item_ok p) post ->
  0 <= k <= 14 -> -32767 <= v <= 32767 ->
  total_bits pre + total_bits [ICapped k v] + total_bits post + 512 < 2 ^ 64 ->
  exists s s' r,
    write_items p bs_new (pre ++ [ICapped k v] ++ post) = Ok s /\
    read_compressed_capped p (set_bit_cursor s (total_bits pre)) (2 ^ k) = Ok (s', r) /\
    bs_cursor s' = total_bits pre + total_bits [ICapped k v] /\
    (CAPPED_MIN <= v <= CAPPED_MAX -> r = v) /\
    (r = v \/ r = Z.max CAPPED_MIN (Z.min CAPPED_MAX v)).
Proof. exact capped_anywhere. Qed.
Print Assumptions C04_capped_roundtrip.

Example C04_not_vacuous :
  exists s, write_compressed_capped Debug bs_new (2 ^ 3) (-8000) = Ok s /\ bs_len s = 15 /\
  match read_compressed_capped Debug (bs_seek_start s) (2 ^ 3) with Ok (_, r) => r = -8000 | _ => False end.
Proof. eexists; split; [reflexivity|split; reflexivity]. Qed.

(** C05.  Overwriting: the exact law, the safe case, and a corrupting history. *)
Theorem C05_overwrite_law : forall p s v n,
  typed_stream s -> 0 <= v < 2 ^ 128 -> 0 <= n <= 128 -> bs_cursor s + 512 < 2 ^ 64 ->
  let room := 128 - bs_cursor s mod 128 in
  exists s0 old s1 s2,
    read_bits p s n = Ok (s0, old) /\
    write_bits p s v n = Ok s1 /\
    read_bits p (set_bit_cursor s1 (bs_cursor s)) n
      = Ok (s2, Z.lor (v mod 2 ^ n) (old / 2 ^ room * 2 ^ room)).
Proof. exact overwrite_law. Qed.
Print Assumptions C05_overwrite_law.

Theorem C05_exact_when_clear_ahead : forall p s l,
  typed_stream s -> clear_ahead s -> Forall (item_ok p) l ->
  bs_cursor s + total_bits l + 512 < 2 ^ 64 ->
  exists s1 s2,
    write_items p s l = Ok s1 /\
    read_items p (set_bit_cursor s1 (bs_cursor s)) l = Ok (s2, map item_value l).
Proof. exact write_ahead_clear. Qed.
Print Assumptions C05_exact_when_clear_ahead.

(** 256 ones, rewind, then two 100-bit zeros: the second one does not read as zero. *)
Definition reuse_history (p : profile) : outcome Z :=
  s <- write_items p bs_new [IBits (2 ^ 128 - 1) 128; IBits (2 ^ 128 - 1) 128] ;;
  s <- write_items p (bs_seek_start s) [IBits 0 100; IBits 0 100] ;;
  '(s, _) <- read_bits p (bs_seek_start s) 100 ;;
  '(s, v) <- read_bits p s 100 ;;
  Ok v.
Theorem C05_reuse_refuted : forall p, exists v, reuse_history p = Ok v /\ v <> 0.
Proof. destruct p; eexists; (split; [vm_compute; reflexivity|discriminate]). Qed.
Print Assumptions C05_reuse_refuted.

(** C53.  After [zero] and a rewind a used stream behaves like a new one. *)
Theorem C53_zero_makes_reuse_safe : forall p old l,
  Forall (item_ok p) old -> Forall (item_ok p) l ->
  total_bits old + 512 < 2 ^ 64 -> total_bits l + 512 < 2 ^ 64 ->
  exists s s1 s2,
    write_items p bs_new old = Ok s /\
    write_items p (bs_seek_start (bs_zero s)) l = Ok s1 /\
    read_items p (bs_seek_start s1) l = Ok (s2, map item_value l).
Proof. exact zero_reuse. Qed.
Print Assumptions C53_zero_makes_reuse_safe.

Example C53_case :
  (s <- write_items Debug bs_new [IBits (2 ^ 128 - 1) 128; IBits (2 ^ 128 - 1) 128] ;;
   s <- write_items Debug (bs_seek_start (bs_zero s)) [IBits 0 100; IBits 0 100] ;;
   '(s, vs) <- read_items Debug (bs_seek_start s) [IBits 0 100; IBits 0 100] ;;
   Ok vs) = Ok [0; 0].
Proof. vm_compute. reflexivity. Qed.
