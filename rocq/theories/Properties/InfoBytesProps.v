(** * Property C87: the bytes of a StreamInfo *)
From Coq Require Import ZArith List Bool Lia.
From Verif Require Import Model.Base Model.Sample Model.Bincode Model.Layout Model.InfoBytes Spec.Files Spec.Wave Proofs.BaseFacts Proofs.WavFile.
Import ListNotations.
Open Scope Z_scope.

(** ** Lemmas *)
Lemma image_digits en x : 0 <= x < 2 ^ 32 -> int_image en 4 x = match en with Little => digits 4 x | Big => rev (digits 4 x) end.
Proof. intros H. unfold int_image. change (8 * Z.of_nat 4) with 32. rewrite (uwrap_small 32) by lia. reflexivity. Qed.
Lemma image_shape en x : 0 <= x < 2 ^ 32 -> exists a b c d, int_image en 4 x = [a; b; c; d].
Proof. intros H. rewrite image_digits by exact H. destruct en; cbn [digits rev app]; eauto. Qed.
Lemma digits4_inj x y : 0 <= x < 2 ^ 32 -> 0 <= y < 2 ^ 32 -> digits 4 x = digits 4 y -> x = y.
Proof.
  change (2 ^ 32) with 4294967296. intros Hx Hy E. cbn [digits] in E. injection E as E0 E1 E2 E3.
  assert (G : forall z, 0 <= z < 4294967296 -> z = z mod 256 + 256 * (z / 256 mod 256) + 65536 * (z / 256 / 256 mod 256) + 16777216 * (z / 256 / 256 / 256 mod 256)).
  { intros z Hz. pose proof (Z.div_mod z 256 ltac:(lia)). pose proof (Z.div_mod (z / 256) 256 ltac:(lia)). pose proof (Z.div_mod (z / 256 / 256) 256 ltac:(lia)).
    rewrite (Z.mod_small (z / 256 / 256 / 256) 256); [lia|]. split; [repeat apply Z.div_pos; lia|]. rewrite !Z.div_div by lia. apply Z.div_lt_upper_bound; lia. }
  rewrite (G x Hx), (G y Hy). congruence.
Qed.
Lemma image_inj en x y : 0 <= x < 2 ^ 32 -> 0 <= y < 2 ^ 32 -> int_image en 4 x = int_image en 4 y -> x = y.
Proof.
  intros Hx Hy. rewrite !image_digits by assumption. destruct en; intros E; apply digits4_inj; auto.
  apply (f_equal (@rev Z)) in E. now rewrite !rev_involutive in E.
Qed.
(** Without padding there are two layouts. *)
Lemma two_layouts l : layout_legal l -> il_size l = 8 -> l = mkLayout 8 0 4 \/ l = mkLayout 8 4 0.
Proof.
  destruct l as [s a b]. unfold layout_legal. cbn [il_size il_rate il_channels]. intros (Ha & Hb & Ma & Mb & _ & La & Lb & D) ->.
  apply Z.mod_divide in Ma, Mb; try lia. destruct Ma as [x ->], Mb as [y ->].
  assert (x = 0 /\ y = 1 \/ x = 1 /\ y = 0) as [[-> ->]|[-> ->]] by lia; auto.
Qed.
Lemma bytes_of en l i : layout_legal l -> il_size l = 8 -> info_fits i ->
  info_as_bytes en l i =
  map Some (if il_rate l =? 0 then int_image en 4 (si_rate i) ++ int_image en 4 (si_channels i)
            else int_image en 4 (si_channels i) ++ int_image en 4 (si_rate i)).
Proof.
  intros HL HS [Hr Hc]. unfold in_range_u in *.
  destruct (image_shape en (si_rate i) Hr) as (r0 & r1 & r2 & r3 & Er). destruct (image_shape en (si_channels i) Hc) as (c0 & c1 & c2 & c3 & Ec).
  destruct (two_layouts l HL HS) as [-> | ->]; unfold info_as_bytes; cbn [il_size il_rate il_channels]; change (range 8) with [0; 1; 2; 3; 4; 5; 6; 7];
    cbn [map Z.eqb]; unfold info_byte; cbn [il_rate il_channels]; rewrite Er, Ec; reflexivity.
Qed.

(** ** C87 *)
(** In a build that lays the struct out without padding (every compiler to date does): eight bytes, none of them
    uninitialised, four for each number in the machine's byte order, the rate first or the channels first. *)
Theorem C87_bytes : forall en l i, layout_legal l -> il_size l = 8 -> info_fits i ->
  let number x := match en with Little => digits 4 x | Big => rev (digits 4 x) end in
  info_as_bytes en l i = map Some (number (si_rate i) ++ number (si_channels i)) \/
  info_as_bytes en l i = map Some (number (si_channels i) ++ number (si_rate i)).
Proof.
  intros en l i HL HS HI number. rewrite (bytes_of en l i HL HS HI). pose proof HI as [Hr Hc]. unfold in_range_u in *.
  rewrite !image_digits by assumption. destruct (il_rate l =? 0); [left|right]; reflexivity.
Qed.
Print Assumptions C87_bytes.
(** Within one build different infos have different bytes, padding or not. *)
Theorem C87_injective : forall en l i j, layout_legal l -> info_fits i -> info_fits j ->
  info_as_bytes en l i = info_as_bytes en l j -> i = j.
Proof.
  intros en l [ri ci] [rj cj] (Ha & Hb & Ma & Mb & Ms & La & Lb & D) [Hri Hci] [Hrj Hcj] E. unfold in_range_u in *. cbn [si_rate si_channels] in *.
  assert (B : forall o, 0 <= o < il_size l -> info_byte en l (mkInfo ri ci) o = info_byte en l (mkInfo rj cj) o).
  { intros o Ho. unfold info_as_bytes in E. assert (N := f_equal (fun x => nth (Z.to_nat o) x None) E). cbv beta in N.
    rewrite !(nth_indep _ None (info_byte en l (mkInfo ri ci) 0)) in N by (rewrite map_length, length_range; lia). rewrite map_nth in N.
    rewrite (nth_indep _ _ (info_byte en l (mkInfo rj cj) 0)) in N by (rewrite map_length, length_range; lia). rewrite map_nth in N.
    rewrite nth_range in N by lia. try rewrite Z2Nat.id in N by lia. exact N. }
  assert (IM : forall x y, 0 <= x < 2 ^ 32 -> 0 <= y < 2 ^ 32 -> (forall k, 0 <= k < 4 -> nth (Z.to_nat k) (int_image en 4 x) 0 = nth (Z.to_nat k) (int_image en 4 y) 0) -> x = y).
  { intros x y Hx Hy H. apply (image_inj en); auto. destruct (image_shape en x Hx) as (a & b & c & d & Ex). destruct (image_shape en y Hy) as (a' & b' & c' & d' & Ey).
    rewrite Ex, Ey. rewrite Ex, Ey in H. pose proof (H 0 ltac:(lia)) as H0. pose proof (H 1 ltac:(lia)) as H1. pose proof (H 2 ltac:(lia)) as H2. pose proof (H 3 ltac:(lia)) as H3.
    change (a = a') in H0. change (b = b') in H1. change (c = c') in H2. change (d = d') in H3. congruence. }
  f_equal; apply IM; auto; intros k Hk.
  - specialize (B (il_rate l + k) ltac:(lia)). unfold info_byte in B. cbn [si_rate si_channels] in B.
    destruct (Z.leb_spec (il_rate l) (il_rate l + k)); [|lia]. destruct (Z.ltb_spec (il_rate l + k) (il_rate l + 4)); [|lia]. cbn [andb] in B.
    replace (il_rate l + k - il_rate l) with k in B by lia. congruence.
  - specialize (B (il_channels l + k) ltac:(lia)). unfold info_byte in B. cbn [si_rate si_channels] in B.
    replace ((il_rate l <=? il_channels l + k) && (il_channels l + k <? il_rate l + 4)) with false in B by (symmetry; apply andb_false_iff; destruct D; [right|left]; lia).
    destruct (Z.leb_spec (il_channels l) (il_channels l + k)); [|lia]. destruct (Z.ltb_spec (il_channels l + k) (il_channels l + 4)); [|lia]. cbn [andb] in B.
    replace (il_channels l + k - il_channels l) with k in B by lia. congruence.
Qed.
Print Assumptions C87_injective.
(** But they are no file format: another build or another machine may read another info from them.  The bytes of [i] here are
    those of [j] there, where [j] is [i] with rate and channels exchanged, in a build that orders the fields the other way;
    and a struct with padding, which the language allows, would expose uninitialised memory. *)
Theorem C87_portable_refuted :
  (forall i, info_fits i -> info_as_bytes Little (mkLayout 8 0 4) i = info_as_bytes Little (mkLayout 8 4 0) (mkInfo (si_channels i) (si_rate i))) /\
  info_as_bytes Little (mkLayout 8 0 4) (mkInfo 44100 2) <> info_as_bytes Little (mkLayout 8 4 0) (mkInfo 44100 2) /\
  info_as_bytes Little (mkLayout 8 0 4) (mkInfo 44100 2) = info_as_bytes Big (mkLayout 8 0 4) (mkInfo 1152122880 33554432) /\
  layout_legal (mkLayout 8 0 4) /\ layout_legal (mkLayout 8 4 0) /\ layout_legal (mkLayout 16 0 8) /\
  In None (info_as_bytes Little (mkLayout 16 0 8) (mkInfo 44100 2)).
Proof.
  assert (L1 : layout_legal (mkLayout 8 0 4)) by (unfold layout_legal; cbn; lia).
  assert (L2 : layout_legal (mkLayout 8 4 0)) by (unfold layout_legal; cbn; lia).
  split; [|split; [|split; [|split; [exact L1|split; [exact L2|split; [unfold layout_legal; cbn; lia|]]]]]].
  - intros [r c] [Hr Hc]. rewrite !bytes_of by (auto; split; assumption). reflexivity.
  - vm_compute. discriminate.
  - reflexivity.
  - vm_compute. tauto.
Qed.
Print Assumptions C87_portable_refuted.
Example C87_applies : layout_legal (mkLayout 8 4 0) /\ info_fits (mkInfo 44100 2) /\
  info_as_bytes Little (mkLayout 8 4 0) (mkInfo 44100 2) = map Some [2; 0; 0; 0; 68; 172; 0; 0].
Proof. split; [unfold layout_legal; cbn; lia|]. split; [split; unfold in_range_u; cbn; lia|reflexivity]. Qed.
