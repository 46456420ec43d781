(** * Which texts the readers accept, and what the writers make of the values *)
From Coq Require Import ZArith List Bool Lia.
From Verif Require Import Model.Base Model.F32 Model.Sample Model.BitStream Model.NibbleList Model.BitVec
  Model.CircularStack Model.Frame Model.Adhoc Model.Bincode Spec.Recording Spec.Files Spec.Damage Spec.Wave Spec.AdhocFile
  Proofs.BaseFacts Proofs.FileFacts Proofs.DamageFile Proofs.WavFile.
Import ListNotations.
Open Scope Z_scope.

(** ** Accepted texts are read whole and written back the same *)
Definition prints {A} (g : parser A) (put : A -> list Z) (L : list Z -> Prop) (P : A -> Prop) : Prop :=
  forall x r, Forall byte x -> L x -> exists a, g (x ++ r) = Some (a, r) /\ put a = x /\ P a.
(** ** Nothing else is accepted *)
Definition shaped {A} (g : parser A) (L : list Z -> Prop) : Prop :=
  forall l a r, Forall byte l -> g l = Some (a, r) -> exists x, l = x ++ r /\ L x.

Lemma zlen_len (l : list Z) n : zlen l = Z.of_nat n -> length l = n.
Proof. unfold zlen. lia. Qed.
Lemma get_uint_app n x r : length x = n -> get_uint n (x ++ r) = Some (of_le_bytes x, r).
Proof.
  intros <-. unfold get_uint. rewrite app_length. destruct (Nat.leb_spec (length x) (length x + length r)); [|lia].
  now rewrite firstn_app, Nat.sub_diag, firstn_all, skipn_app, skipn_all, Nat.sub_diag, app_nil_r.
Qed.
Lemma prints_uint n : prints (get_uint n) (le_bytes n) (fun x => zlen x = Z.of_nat n) (in_range_u (8 * Z.of_nat n)).
Proof.
  intros x r B E. exists (of_le_bytes x). pose proof (zlen_len _ _ E) as E'. rewrite get_uint_app by auto. split; [reflexivity|]. split.
  - rewrite <- E'. now apply le_of_le.
  - pose proof (of_le_range x B) as R. rewrite E in R. exact R.
Qed.
Lemma shaped_uint n : shaped (get_uint n) (fun x => zlen x = Z.of_nat n).
Proof.
  intros l a r _ E. unfold get_uint in E. destruct (Nat.leb_spec n (length l)); [|discriminate E]. injection E as <- <-.
  exists (firstn n l). split; [now rewrite firstn_skipn|]. unfold zlen. rewrite firstn_length. lia.
Qed.
Lemma split_len (x : list Z) a b : zlen x = a + b -> 0 <= a -> 0 <= b -> exists y z, x = y ++ z /\ zlen y = a /\ zlen z = b.
Proof.
  intros E Ha Hb. exists (firstn (Z.to_nat a) x), (skipn (Z.to_nat a) x). split; [now rewrite firstn_skipn|].
  unfold zlen in *. rewrite firstn_length, skipn_length. lia.
Qed.
Lemma prints_n {A} (g : parser A) put w P : 0 <= w -> prints g put (fun x => zlen x = w) P ->
  forall n, prints (get_n g n) (flat_map put) (fun x => zlen x = w * Z.of_nat n) (fun v => Forall P v /\ length v = n).
Proof.
  intros Hw Hg. induction n as [|n IH]; intros x r B E.
  - exists []. cbn [get_n flat_map]. rewrite Z.mul_0_r in E. destruct x; [|rewrite zlen_cons in E; pose proof (zlen_nonneg x); lia]. auto.
  - destruct (split_len x w (w * Z.of_nat n)) as (y & z & -> & Ey & Ez); [lia|lia|lia|]. apply Forall_app in B. destruct B as [By Bz].
    destruct (Hg y (z ++ r) By Ey) as (a & G & Pa & Qa). destruct (IH z r Bz Ez) as (v & Gn & Pv & Qv & Lv).
    exists (a :: v). cbn [get_n flat_map length]. unfold pbind, pret. rewrite <- app_assoc, G, Gn, Pa, Pv. auto.
Qed.
Lemma shaped_n {A} (g : parser A) w : (forall l a r, g l = Some (a, r) -> Forall byte l -> Forall byte r) -> shaped g (fun x => zlen x = w) ->
  forall n, shaped (get_n g n) (fun x => zlen x = w * Z.of_nat n).
Proof.
  intros HB Hg. induction n as [|n IH]; intros l a r B E; cbn [get_n] in E.
  - injection E as <- <-. exists []. cbn. split; [reflexivity|]. lia.
  - unfold pbind at 1 in E. destruct (g l) as [[b r1]|] eqn:G; [|discriminate E]. destruct (Hg _ _ _ B G) as (x & -> & Hx).
    unfold pbind in E. destruct (get_n g n r1) as [[v r2]|] eqn:Gn; [|discriminate E]. injection E as <- <-.
    apply Forall_app in B. destruct (IH _ _ _ (proj2 B) Gn) as (y & -> & Hy). exists (x ++ y). rewrite app_assoc. split; [reflexivity|].
    rewrite zlen_app. lia.
Qed.
Lemma prints_vec {A} (g : parser A) put w P : 1 <= w -> prints g put (fun x => zlen x = w) P ->
  prints (get_vec g) (put_vec put) (table w) (fun v => Forall P v /\ zlen v < 2 ^ 64).
Proof.
  intros Hw Hg x r B (count & entries & -> & Ec & Ee). apply Forall_app in B. destruct B as [Bc Be].
  pose proof (of_le_range count Bc) as R. rewrite number_of, Ec in R. change (8 * 8) with 64 in R.
  destruct (prints_n g put w P ltac:(lia) Hg (Z.to_nat (number count)) entries r Be) as (v & G & Pv & Qv & Lv); [lia|].
  exists v. unfold get_vec, get_u64, pbind. rewrite <- app_assoc, get_uint_app by now apply zlen_len. rewrite number_of.
  rewrite zlen_app. pose proof (zlen_nonneg r). destruct (Z.leb_spec (number count) (zlen entries + zlen r)); [|nia].
  rewrite G. split; [reflexivity|]. assert (Zv : zlen v = number count) by (unfold zlen; lia). split; [|split; [auto|lia]].
  unfold put_vec, put_u64. rewrite Pv, Zv, <- number_of. f_equal. rewrite <- (zlen_len count 8) by (rewrite Ec; reflexivity). now apply le_of_le.
Qed.
Lemma rest_bytes {A} (g : parser A) L : shaped g L -> forall l a r, g l = Some (a, r) -> Forall byte l -> Forall byte r.
Proof. intros H l a r E B. destruct (H _ _ _ B E) as (x & -> & _). apply Forall_app in B. apply B. Qed.
Lemma shaped_vec {A} (g : parser A) w : shaped g (fun x => zlen x = w) -> shaped (get_vec g) (table w).
Proof.
  intros Hg l v r B E. unfold get_vec, pbind in E. destruct (get_u64 l) as [[n r1]|] eqn:G; [|discriminate E].
  destruct (shaped_uint 8 _ _ _ B G) as (count & -> & Ec). unfold get_u64 in G. rewrite get_uint_app in G by now apply zlen_len. injection G as <-.
  apply Forall_app in B. destruct B as [Bc Br]. pose proof (of_le_range count Bc) as R. rewrite number_of in R, E.
  destruct (_ <=? _); [|discriminate E]. destruct (shaped_n g w (rest_bytes g _ Hg) Hg _ _ _ _ Br E) as (y & -> & Hy).
  exists (count ++ y). rewrite app_assoc. split; [reflexivity|]. exists count, y. rewrite Z2Nat.id in Hy by lia. auto.
Qed.
Lemma prints_i16 : prints get_i16 put_i16 (fun x => zlen x = 2) (fun x => -32768 <= x <= 32767).
Proof.
  intros x r B E. destruct (prints_uint 2 x r B E) as (a & G & Pa & Qa). exists (swrap 16 a). unfold get_i16, pmap, pbind. rewrite G.
  split; [reflexivity|]. split.
  - unfold put_i16. rewrite uwrap_swrap by lia. rewrite uwrap_small by exact Qa. exact Pa.
  - pose proof (swrap_range 16 a ltac:(lia)) as R. change (2 ^ (16 - 1)) with 32768 in R. lia.
Qed.
Lemma shaped_i16 : shaped get_i16 (fun x => zlen x = 2).
Proof.
  intros l a r B E. unfold get_i16, pmap, pbind in E. destruct (get_uint 2 l) as [[b r1]|] eqn:G; [|discriminate E]. injection E as <- <-.
  exact (shaped_uint 2 _ _ _ B G).
Qed.
Lemma prints_history : prints get_history put_history (fun x => zlen x = 6) history_fits.
Proof.
  intros x r B E. destruct (split_len x 2 4) as (x1 & y & -> & E1 & E'); [lia|lia|lia|]. destruct (split_len y 2 2) as (x2 & x3 & -> & E2 & E3); [lia|lia|lia|].
  rewrite !Forall_app in B. destruct B as (B1 & B2 & B3).
  destruct (prints_i16 x1 (x2 ++ x3 ++ r) B1 E1) as (a & G1 & P1 & Q1). destruct (prints_i16 x2 (x3 ++ r) B2 E2) as (b & G2 & P2 & Q2).
  destruct (prints_i16 x3 r B3 E3) as (c & G3 & P3 & Q3). exists (a, b, c). unfold get_history, pbind, pret. rewrite <- !app_assoc, G1, G2, G3.
  unfold put_history. rewrite P1, P2, P3. unfold history_fits. auto.
Qed.
Ltac split_read E := unfold pbind at 1 in E; match type of E with match ?g with _ => _ end = _ => destruct g as [[? ?]|] eqn:?; [|discriminate E] end.
Lemma shaped_history : shaped get_history (fun x => zlen x = 6).
Proof.
  intros l a r B E. unfold get_history in E. split_read E. split_read E. split_read E. injection E as <- <-.
  destruct (shaped_i16 _ _ _ B Heqo) as (x1 & -> & E1). apply Forall_app in B. destruct B as [_ B].
  destruct (shaped_i16 _ _ _ B Heqo0) as (x2 & -> & E2). apply Forall_app in B. destruct B as [_ B].
  destruct (shaped_i16 _ _ _ B Heqo1) as (x3 & -> & E3). exists (x1 ++ x2 ++ x3). rewrite <- !app_assoc. split; [reflexivity|]. rewrite !zlen_app. lia.
Qed.

(** ** The whole file *)
Lemma codec_of t r : well_formed t -> Forall byte (file_of t) -> exists level h s info,
  get_codec (file_of t ++ r) = Some (level, h, s, r) /\ level = number (p_level t) /\ in_range_u 32 level /\ headers_fit h /\
  as_info s = Some info /\ info = mkInfo (number (p_rate t)) (number (p_channels t)) /\ in_range_u 32 (si_rate info) /\ in_range_u 32 (si_channels info) /\
  zlen (bs_binary (as_stream s)) < 2 ^ 64 /\ Forall (in_range_u 128) (bs_binary (as_stream s)) /\
  in_range_u 128 (bs_cursor (as_stream s)) /\ in_range_u 128 (bs_capacity (as_stream s)) /\
  put_u32 level ++ put_headers (fhs_reset h) ++ put_info (as_info s) ++ put_bitstream (bs_seek_start (as_stream s)) = file_of (rewound t).
Proof.
  intros W B. destruct t as [lv ni nc fl fc si ofs hi fr tag ra ch bi cu ca].
  destruct W as [W1 W2 W3 W4 W5 W6 W7 W8 W9 W10 W11 W12 W13 W14 W15]. unfold file_of, rewound in *.
  cbn [p_level p_nibbles p_nibble_count p_flags p_flag_count p_sizes p_offsets p_histories p_frame p_tag p_rate p_channels p_chunks p_bit p_capacity] in *.
  rewrite !Forall_app in B. destruct B as (B1 & B2 & B3 & B4 & B5 & B6 & B7 & B8 & B9 & B10 & B11 & B12 & B13 & B14 & B15). subst tag.
  destruct (prints_uint 4 lv (ni ++ nc ++ fl ++ fc ++ si ++ ofs ++ hi ++ fr ++ [1] ++ ra ++ ch ++ bi ++ cu ++ ca ++ r) B1 W1) as (level & G1 & P1 & Q1).
  destruct (prints_vec _ _ 1 _ ltac:(lia) (prints_uint 1) ni (nc ++ fl ++ fc ++ si ++ ofs ++ hi ++ fr ++ [1] ++ ra ++ ch ++ bi ++ cu ++ ca ++ r) B2 W2) as (nv & G2 & P2 & Q2 & L2).
  destruct (prints_uint 4 nc (fl ++ fc ++ si ++ ofs ++ hi ++ fr ++ [1] ++ ra ++ ch ++ bi ++ cu ++ ca ++ r) B3 W3) as (ncv & G3 & P3 & Q3).
  destruct (prints_vec _ _ 8 _ ltac:(lia) (prints_uint 8) fl (fc ++ si ++ ofs ++ hi ++ fr ++ [1] ++ ra ++ ch ++ bi ++ cu ++ ca ++ r) B4 W4) as (fv & G4 & P4 & Q4 & L4).
  destruct (prints_uint 16 fc (si ++ ofs ++ hi ++ fr ++ [1] ++ ra ++ ch ++ bi ++ cu ++ ca ++ r) B5 W5) as (fcv & G5 & P5 & Q5).
  destruct (prints_vec _ _ 2 _ ltac:(lia) (prints_uint 2) si (ofs ++ hi ++ fr ++ [1] ++ ra ++ ch ++ bi ++ cu ++ ca ++ r) B6 W6) as (sv & G6 & P6 & Q6 & L6).
  destruct (prints_vec _ _ 8 _ ltac:(lia) (prints_uint 8) ofs (hi ++ fr ++ [1] ++ ra ++ ch ++ bi ++ cu ++ ca ++ r) B7 W7) as (ov & G7 & P7 & Q7 & L7).
  destruct (prints_vec _ _ 6 _ ltac:(lia) prints_history hi (fr ++ [1] ++ ra ++ ch ++ bi ++ cu ++ ca ++ r) B8 W8) as (hv & G8 & P8 & Q8 & L8).
  destruct (prints_uint 4 fr ([1] ++ ra ++ ch ++ bi ++ cu ++ ca ++ r) B9 W9) as (frv & G9 & P9 & Q9).
  destruct (prints_uint 4 ra (ch ++ bi ++ cu ++ ca ++ r) B11 W11) as (rav & G11 & P11 & Q11).
  destruct (prints_uint 4 ch (bi ++ cu ++ ca ++ r) B12 W12) as (chv & G12 & P12 & Q12).
  destruct (prints_vec _ _ 16 _ ltac:(lia) (prints_uint 16) bi (cu ++ ca ++ r) B13 W13) as (biv & G13 & P13 & Q13 & L13).
  destruct (prints_uint 16 cu (ca ++ r) B14 W14) as (cuv & G14 & P14 & Q14).
  destruct (prints_uint 16 ca r B15 W15) as (cav & G15 & P15 & Q15).
  assert (V : forall n x v rest, zlen x = Z.of_nat n -> get_uint n (x ++ rest) = Some (v, rest) -> v = number x)
    by (intros n x v rest Hx G; rewrite get_uint_app in G by (apply zlen_len; exact Hx); assert (K : v = of_le_bytes x) by congruence; rewrite K; apply number_of).
  exists level, (mkFHS (mkNL nv ncv) (mkBV fv fcv) sv ov hv frv), (mkAS (Some (mkInfo rav chv)) (mkBS biv cuv cav)), (mkInfo rav chv).
  split.
  { unfold get_codec, get_headers, get_nibble_list, get_bitvec, get_info, get_bitstream, get_u8, get_u16, get_u32, get_u64, get_u128, pbind, pret.
    rewrite <- !app_assoc, G1, G2, G3, G4, G5, G6, G7, G8, G9. rewrite (get_uint_app 1 [1]) by reflexivity.
    change (of_le_bytes [1] =? 0) with false. change (of_le_bytes [1] =? 1) with true. cbv iota beta. now rewrite G11, G12, G13, G14, G15. }
  split; [eapply (V 4%nat); eauto|]. split; [exact Q1|]. split; [constructor; cbn [fhs_exps fhs_inits fhs_sizes fhs_cursors fhs_hists fhs_cursor nl_data nl_count bv_binary bv_cursor]; auto|].
  split; [reflexivity|]. split; [f_equal; eapply (V 4%nat); eauto|]. split; [exact Q11|]. split; [exact Q12|].
  cbn [as_stream bs_binary bs_cursor bs_capacity]. split; [exact L13|]. split; [exact Q13|]. split; [exact Q14|]. split; [exact Q15|].
  unfold put_headers, fhs_reset, fhs_set_cursor, put_nibble_list, put_bitvec, put_info, put_bitstream, bs_seek_start, set_bit_cursor.
  cbn [fhs_exps fhs_inits fhs_sizes fhs_cursors fhs_hists fhs_cursor nl_data nl_count bv_binary bv_cursor as_info as_stream si_rate si_channels bs_binary bs_cursor bs_capacity].
  unfold put_u8, put_u16, put_u32, put_u64, put_u128. rewrite P1, P2, P3, P4, P5, P6, P7, P8, P11, P12, P13, P15. rewrite <- !app_assoc. reflexivity.
Qed.

Definition followed (L1 L2 : list Z -> Prop) (x : list Z) : Prop := exists y z, x = y ++ z /\ L1 y /\ L2 z.
Lemma shaped_bind {A B} (g : parser A) (f : A -> parser B) L1 L2 : shaped g L1 -> (forall a, shaped (f a) L2) -> shaped (pbind g f) (followed L1 L2).
Proof.
  intros Hg Hf l b r Bl E. unfold pbind in E. destruct (g l) as [[a r1]|] eqn:G; [|discriminate E]. destruct (Hg _ _ _ Bl G) as (y & -> & Hy).
  apply Forall_app in Bl. destruct (Hf a _ _ _ (proj2 Bl) E) as (z & -> & Hz). exists (y ++ z). rewrite <- app_assoc. split; [reflexivity|]. now exists y, z.
Qed.
Lemma shaped_ret {A} (a : A) : shaped (pret a) (fun x => x = []).
Proof. intros l b r _ E. injection E as <- <-. now exists []. Qed.
Lemma shaped_then {A B} (g : parser A) (f : A -> B) L : shaped g L -> shaped (pbind g (fun a => pret (f a))) L.
Proof.
  intros H l b r Bl E. destruct (shaped_bind g _ L _ H (fun a => shaped_ret (f a)) _ _ _ Bl E) as (x & -> & y & z & -> & Hy & ->). rewrite app_nil_r. now exists y.
Qed.
Definition len (n : Z) (x : list Z) : Prop := zlen x = n.
Lemma shaped_headers : shaped get_headers
  (followed (followed (table 1) (len 4)) (followed (followed (table 8) (len 16)) (followed (table 2) (followed (table 8) (followed (table 6) (len 4)))))).
Proof.
  apply shaped_bind; [apply shaped_bind; [apply shaped_vec, (shaped_uint 1)|intros; apply shaped_then, (shaped_uint 4)]|]. intros e.
  apply shaped_bind; [apply shaped_bind; [apply shaped_vec, (shaped_uint 8)|intros; apply shaped_then, (shaped_uint 16)]|]. intros i.
  apply shaped_bind; [apply shaped_vec, (shaped_uint 2)|]. intros s. apply shaped_bind; [apply shaped_vec, (shaped_uint 8)|]. intros c.
  apply shaped_bind; [apply shaped_vec, shaped_history|]. intros h. apply shaped_then, (shaped_uint 4).
Qed.
Lemma shaped_bitstream : shaped get_bitstream (followed (table 16) (followed (len 16) (len 16))).
Proof.
  apply shaped_bind; [apply shaped_vec, (shaped_uint 16)|]. intros b. apply shaped_bind; [apply (shaped_uint 16)|]. intros c. apply shaped_then, (shaped_uint 16).
Qed.
Lemma info_shape l info r : Forall byte l -> get_info l = Some (Some info, r) -> exists ra ch, l = [1] ++ ra ++ ch ++ r /\ zlen ra = 4 /\ zlen ch = 4.
Proof.
  intros B E. unfold get_info in E. unfold pbind at 1 in E. destruct (get_u8 l) as [[tag r1]|] eqn:G; [|discriminate E].
  destruct (shaped_uint 1 _ _ _ B G) as (x & -> & Hx). destruct x as [|b [|? x]]; [discriminate Hx| |rewrite !zlen_cons in Hx; pose proof (zlen_nonneg x); lia].
  unfold get_u8 in G. rewrite get_uint_app in G by reflexivity. assert (tag = b) by (cbn [of_le_bytes] in G; injection G; lia). subst tag.
  destruct (b =? 0); [unfold pret in E; discriminate E|]. destruct (Z.eqb_spec b 1) as [->|]; [|discriminate E]. apply Forall_app in B.
  destruct (shaped_bind get_u32 _ _ _ (shaped_uint 4) (fun a => shaped_then get_u32 (fun c => Some (mkInfo a c)) _ (shaped_uint 4)) _ _ _ (proj2 B) E)
    as (x & -> & ra & ch & -> & H1 & H2). exists ra, ch. now rewrite <- app_assoc.
Qed.
Lemma codec_shape file level h s r info : Forall byte file -> get_codec file = Some (level, h, s, r) -> as_info s = Some info ->
  exists t, well_formed t /\ file = file_of t ++ r.
Proof.
  intros B E I. unfold get_codec in E. unfold pbind at 1 in E. destruct (get_u32 file) as [[lv r1]|] eqn:G1; [|discriminate E].
  unfold pbind at 1 in E. destruct (get_headers r1) as [[hh r2]|] eqn:G2; [|discriminate E].
  unfold pbind at 1 in E. destruct (get_info r2) as [[ii r3]|] eqn:G3; [|discriminate E].
  unfold pbind at 1 in E. destruct (get_bitstream r3) as [[ss r4]|] eqn:G4; [|discriminate E]. unfold pret in E. injection E as <- <- <- <-.
  cbn [as_info] in I. subst ii.
  destruct (shaped_uint 4 _ _ _ B G1) as (x1 & -> & H1). apply Forall_app in B. destruct B as [_ B].
  destruct (shaped_headers _ _ _ B G2) as (x2 & -> & H2). apply Forall_app in B. destruct B as [_ B].
  destruct (info_shape _ _ _ B G3) as (ra & ch & -> & H3 & H4). rewrite !Forall_app in B. destruct B as (_ & _ & _ & B).
  destruct (shaped_bitstream _ _ _ B G4) as (x3 & -> & H5).
  destruct H2 as (? & ? & -> & (ni & nc & -> & N1 & N2) & ? & ? & -> & (fl & fc & -> & F1 & F2) & si & ? & -> & S1 & ofs & ? & -> & O1 & hi & fr & -> & Hi & Fr).
  destruct H5 as (bi & ? & -> & C1 & cu & ca & -> & C2 & C3).
  exists (mkParts x1 ni nc fl fc si ofs hi fr 1 ra ch bi cu ca). split; [constructor; auto|].
  unfold file_of. cbn [p_level p_nibbles p_nibble_count p_flags p_flag_count p_sizes p_offsets p_histories p_frame p_tag p_rate p_channels p_chunks p_bit p_capacity].
  rewrite <- !app_assoc. reflexivity.
Qed.
