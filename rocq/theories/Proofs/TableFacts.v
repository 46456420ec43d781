(** * Playing a frame table whose lists may be too short *)
From Coq Require Import ZArith List Bool Lia.
From Verif Require Import Model.Base Model.F32 Model.Sample Model.BitStream Model.NibbleList Model.BitVec Model.Frame Model.Adhoc
  Spec.Tables Proofs.BaseFacts Proofs.AnyState Proofs.DecodeFacts Proofs.DamageFacts Proofs.Terminates Proofs.BombFacts.
Import ListNotations.
Open Scope Z_scope.

(** ** The same table, claiming only [m] frames *)
Definition cut_table (m : Z) (h : frame_headers) : frame_headers :=
  mkFHS (mkNL (nl_data (fhs_exps h)) m) (fhs_inits h) (fhs_sizes h) (fhs_cursors h) (fhs_hists h) (fhs_cursor h).
Definition cut_state (m : Z) (d : dstate) : dstate := let '(chs, s, hs) := d in (chs, s, cut_table m hs).

Lemma cut_same h : cut_table (fhs_len h) h = h.
Proof. destruct h as [[d k] i s c hi cu]. reflexivity. Qed.
Lemma cut_len m h : fhs_len (cut_table m h) = m.
Proof. reflexivity. Qed.
Lemma cut_set m h k : fhs_set_cursor (cut_table m h) k = cut_table m (fhs_set_cursor h k).
Proof. reflexivity. Qed.

Lemma next_cut p m h : 0 <= fhs_cursor h < m -> m <= fhs_len h -> m < 2 ^ 32 -> m <= entries h ->
  exists hd, fhs_next p (cut_table m h) = Ok (cut_table m (fhs_set_cursor h (fhs_cursor h + 1)), Some hd) /\
    fhs_next p h = Ok (fhs_set_cursor h (fhs_cursor h + 1), Some hd).
Proof.
  intros Hc Hm H32 He. unfold entries in He. unfold fhs_next. rewrite cut_len. cbn [cut_table fhs_cursor fhs_sizes fhs_cursors fhs_hists fhs_exps fhs_inits].
  destruct (Z.ltb_spec (fhs_cursor h) m); [|lia]. destruct (Z.ltb_spec (fhs_cursor h) (fhs_len h)); [|lia].
  rewrite !(index_ok (fhs_sizes h) _ 0), !(index_ok (fhs_cursors h) _ 0), !(index_ok (fhs_hists h) _ (0, 0, 0)) by lia. cbn [bind].
  rewrite uchk_ok by lia. cbn [bind]. eexists. split; reflexivity.
Qed.
Lemma frame_cut p m c s h c' s' h' : 0 <= fhs_cursor h < m -> m <= fhs_len h -> m < 2 ^ 32 -> m <= entries h ->
  decode_frame p c s (cut_table m h) = Ok (c', s', h') ->
  h' = cut_table m (fhs_set_cursor h (fhs_cursor h + 1)) /\ decode_frame p c s h = Ok (c', s', fhs_set_cursor h (fhs_cursor h + 1)).
Proof.
  intros Hc Hm H32 He E. destruct (next_cut p m h Hc Hm H32 He) as (hd & N1 & N2). unfold decode_frame in *. rewrite N1 in E. rewrite N2. cbn [bind] in *.
  destruct (fc_state c).
  - inv_bind E. destruct a as [s1 h1]. inv_bind E. destruct a as [[s2 h2] b2]. cbn [bind]. rewrite Ha. cbn [bind]. rewrite Ha0. cbn [bind].
    injection E as <- <- <-. split; reflexivity.
  - discriminate.
  - inv_bind E. destruct a as [[s2 h2] b2]. rewrite Ha. cbn [bind]. injection E as <- <- <-. split; reflexivity.
Qed.
Lemma channel_cut p m chs s h j d' : 0 <= fhs_cursor h < m -> m <= fhs_len h -> m < 2 ^ 32 -> m <= entries h ->
  decode_channel p (chs, s, cut_table m h) j = Ok d' ->
  exists chs' s', d' = (chs', s', cut_table m (fhs_set_cursor h (fhs_cursor h + 1))) /\
    decode_channel p (chs, s, h) j = Ok (chs', s', fhs_set_cursor h (fhs_cursor h + 1)).
Proof.
  intros Hc Hm H32 He E. unfold decode_channel in *. inv_bind E. inv_bind E. destruct a0 as [[c' s'] h']. inv_bind E.
  destruct (frame_cut p m _ _ _ _ _ _ Hc Hm H32 He Ha0) as [-> F]. rewrite Ha. cbn [bind]. rewrite F. cbn [bind]. rewrite Ha1. cbn [bind].
  injection E as <-. eexists _, _. split; reflexivity.
Qed.
Lemma fold_cut p m l : forall chs s h d', 0 <= fhs_cursor h -> fhs_cursor h + zlen l <= m -> m <= fhs_len h -> m < 2 ^ 32 -> m <= entries h ->
  foldM (decode_channel p) l (chs, s, cut_table m h) = Ok d' ->
  exists chs' s', d' = (chs', s', cut_table m (fhs_set_cursor h (fhs_cursor h + zlen l))) /\
    foldM (decode_channel p) l (chs, s, h) = Ok (chs', s', fhs_set_cursor h (fhs_cursor h + zlen l)).
Proof.
  induction l as [|j l IH]; intros chs s h d' H0 Hc Hm H32 He E; cbn [foldM] in *.
  - injection E as <-. change (zlen (@nil Z)) with 0. rewrite Z.add_0_r. exists chs, s. destruct h; split; reflexivity.
  - rewrite zlen_cons in Hc. pose proof (zlen_nonneg l). inv_bind E.
    destruct (channel_cut p m chs s h j _ ltac:(lia) Hm H32 He Ha) as (chs1 & s1 & -> & F). rewrite F. cbn [bind].
    destruct (IH chs1 s1 (fhs_set_cursor h (fhs_cursor h + 1)) d') as (chs2 & s2 & -> & G); auto; try (cbn [fhs_set_cursor fhs_cursor]; lia).
    rewrite G. cbn [fhs_set_cursor fhs_cursor fhs_exps fhs_inits fhs_sizes fhs_cursors fhs_hists]. rewrite zlen_cons.
    replace (fhs_cursor h + 1 + zlen l) with (fhs_cursor h + (1 + zlen l)) by lia. exists chs2, s2. split; reflexivity.
Qed.
(** The first frame without an entry. *)
Lemma channel_breaks p chs s h j : 0 <= j < zlen chs -> 0 <= fhs_cursor h < fhs_len h -> fhs_cursor h = entries h ->
  decode_channel p (chs, s, h) j = Panic IndexOutOfBounds.
Proof.
  intros Hj Hc He. unfold decode_channel. rewrite (index_ok _ j fc_new) by lia. cbn [bind].
  assert (N : fhs_next p h = Panic IndexOutOfBounds).
  { unfold fhs_next. destruct (Z.ltb_spec (fhs_cursor h) (fhs_len h)); [|lia]. unfold entries in He.
    assert (I : forall {A} (l : list A), zlen l <= fhs_cursor h -> index l (fhs_cursor h) = Panic IndexOutOfBounds).
    { intros A l Hl. unfold index. destruct (Z.ltb_spec (fhs_cursor h) (zlen l)); [lia|]. now rewrite andb_false_r. }
    destruct (Z.le_gt_cases (zlen (fhs_sizes h)) (fhs_cursor h)) as [Q|Q]; [now rewrite I|]. rewrite (index_ok (fhs_sizes h) _ 0) by lia. cbn [bind].
    destruct (Z.le_gt_cases (zlen (fhs_cursors h)) (fhs_cursor h)) as [R|R]; [now rewrite I|]. rewrite (index_ok (fhs_cursors h) _ 0) by lia. cbn [bind].
    rewrite I by lia. reflexivity. }
  unfold decode_frame. rewrite N. reflexivity.
Qed.

(** ** One turn over a long enough table *)
Definition sized (b : bool) (x : Z) : Z := if b then Z.max 3 x else x.
Definition first_of (st : Frame.codec_state) : bool := match st with CInit => true | _ => false end.
Definition buf_len (c : frame_codec) : Z := zlen (fc_buffer c).

(** After [j] channels: those have what their frame plays, the others are as they were. *)
Lemma turn_whole L n st : st <> CEncoding -> forall chs s h, good L (chs, s, h) -> zlen chs = n ->
  Forall (fun c => fc_state c = st /\ buf_len c = 0) chs ->
  forall j : nat, Z.of_nat j <= n -> exists chs' s' h', foldM (decode_channel Release) (range (Z.of_nat j)) (chs, s, h) = Ok (chs', s', h') /\
    good L (chs', s', h') /\ zlen chs' = n /\ h' = fhs_set_cursor h (Z.max (fhs_cursor h) (Z.min (fhs_cursor h + Z.of_nat j) (fhs_len h))) /\
    forall i, 0 <= i < n -> 
      let c := nth (Z.to_nat i) chs' fc_new in
      if (i <? Z.of_nat j) && (fhs_cursor h + i <? fhs_len h)
      then fc_state c = CDecoding /\ buf_len c = sized (first_of st) (nth (Z.to_nat (fhs_cursor h + i)) (fhs_sizes h) 0)
      else fc_state c = st /\ buf_len c = 0.
Proof.
  intros Hst chs s h HG HZ HC. induction j as [|j IH]; intros Hj.
  - exists chs, s, h. split; [reflexivity|]. split; [exact HG|]. split; [exact HZ|]. split.
    { pose proof (good_table _ _ HG) as T. destruct T as [T1 _ _ _ _ T6]. cbn [snd] in *.
      replace (Z.max (fhs_cursor h) (Z.min (fhs_cursor h + Z.of_nat 0) (fhs_len h))) with (fhs_cursor h) by lia. destruct h; reflexivity. }
    intros i Hi. cbv zeta. replace (i <? Z.of_nat 0) with false by (symmetry; apply Z.ltb_ge; lia). cbn [andb].
    rewrite Forall_forall in HC. apply HC, nth_In. unfold zlen in *. lia.
  - destruct IH as (chs1 & s1 & h1 & E & G1 & Z1 & EH & HI); [lia|].
    replace (Z.of_nat (S j)) with (Z.of_nat j + 1) by lia. rewrite range_succ, foldM_app, E by lia. cbn [bind foldM].
    destruct (decode_channel_good L (chs1, s1, h1) (Z.of_nat j) G1) as (d' & E' & G' & _ & Z' & c' & K & F); [unfold channels_of; cbn [fst]; lia|].
    rewrite E'. cbn [bind]. destruct d' as [[chs2 s2] h2]. unfold channels_of, headers_in in *. cbn [fst snd] in *.
    exists chs2, s2, h2. split; [reflexivity|]. split; [exact G'|]. split; [lia|].
    pose proof (good_table _ _ HG) as T. destruct T as [T1 T2 _ _ _ T6]. cbn [snd] in *.
    pose proof (HI (Z.of_nat j) ltac:(lia)) as HJ. cbv zeta in HJ. rewrite Z.ltb_irrefl in HJ. cbn [andb] in HJ. destruct HJ as [J1 J2].
    unfold frame_shape in F. rewrite J1 in F. unfold buf_len in J2. rewrite J2 in F.
    assert (EL : fhs_len h1 = fhs_len h) by (rewrite EH; reflexivity). assert (ES : fhs_sizes h1 = fhs_sizes h) by (rewrite EH; reflexivity).
    rewrite EL, ES in F. assert (EC : fhs_cursor h1 = Z.max (fhs_cursor h) (Z.min (fhs_cursor h + Z.of_nat j) (fhs_len h))) by (rewrite EH; reflexivity).
    destruct (Z.ltb_spec (fhs_cursor h1) (fhs_len h)) as [Q|Q].
    + assert (C1 : fhs_cursor h1 = fhs_cursor h + Z.of_nat j) by lia.
      assert (F1 : h2 = fhs_set_cursor h1 (fhs_cursor h1 + 1)) by congruence.
      assert (F2 : fc_state c' = CDecoding) by congruence.
      assert (F3 : buf_len c' = sized (first_of st) (nth (Z.to_nat (fhs_cursor h + Z.of_nat j)) (fhs_sizes h) 0)).
      { unfold buf_len. apply (f_equal snd) in F. cbn [snd] in F. rewrite F, C1. unfold sized, first_of. destruct st; try congruence; lia. }
      split. { rewrite F1, C1, EH. replace (Z.max (fhs_cursor h) (Z.min (fhs_cursor h + (Z.of_nat j + 1)) (fhs_len h))) with (fhs_cursor h + Z.of_nat j + 1) by lia. reflexivity. }
      intros i Hi. cbv zeta. rewrite K. destruct (Z.eq_dec i (Z.of_nat j)) as [->|NE].
      * rewrite Nat2Z.id, nth_replace_same by (unfold zlen in *; lia).
        replace ((Z.of_nat j <? Z.of_nat j + 1) && (fhs_cursor h + Z.of_nat j <? fhs_len h)) with true by (symmetry; rewrite andb_true_iff, !Z.ltb_lt; lia).
        split; [exact F2|exact F3].
      * rewrite nth_replace_other by lia. specialize (HI i Hi). cbv zeta in HI.
        replace (i <? Z.of_nat j + 1) with (i <? Z.of_nat j); [exact HI|]. destruct (Z.ltb_spec i (Z.of_nat j)), (Z.ltb_spec i (Z.of_nat j + 1)); auto; lia.
    + assert (F1 : h2 = h1) by congruence. assert (F2 : fc_state c' = st) by congruence. assert (F3 : buf_len c' = 0) by (unfold buf_len; congruence).
      split. { rewrite F1, EH. f_equal. lia. }
      intros i Hi. cbv zeta. rewrite K. destruct (Z.eq_dec i (Z.of_nat j)) as [->|NE].
      * rewrite Nat2Z.id, nth_replace_same by (unfold zlen in *; lia).
        replace ((Z.of_nat j <? Z.of_nat j + 1) && (fhs_cursor h + Z.of_nat j <? fhs_len h)) with false
          by (symmetry; apply andb_false_iff; right; apply Z.ltb_ge; lia).
        split; [exact F2|exact F3].
      * rewrite nth_replace_other by lia. specialize (HI i Hi). cbv zeta in HI.
        replace (i <? Z.of_nat j + 1) with (i <? Z.of_nat j); [exact HI|]. destruct (Z.ltb_spec i (Z.of_nat j)), (Z.ltb_spec i (Z.of_nat j + 1)); auto; lia.
Qed.

(** ** Turns *)
Lemma deal_enough {A} (n : nat) : (0 < n)%nat -> forall f g (l : list A), (length l <= f)%nat -> (length l <= g)%nat -> deal f n l = deal g n l.
Proof.
  intros Hn. induction f as [|f IH]; intros g l Hf Hg.
  - destruct l; [destruct g; reflexivity|cbn in Hf; lia].
  - destruct l as [|x l]; [destruct g; reflexivity|]. destruct g as [|g]; [cbn in Hg; lia|]. cbn [deal]. f_equal. cbn [length] in *.
    apply IH; rewrite skipn_length; cbn [length]; lia.
Qed.
Lemma turns_step {A} n (l : list A) : 0 < n -> l <> [] -> turns n l = firstn (Z.to_nat n) l :: turns n (skipn (Z.to_nat n) l).
Proof.
  intros Hn Hl. destruct l as [|x l]; [congruence|]. unfold turns. cbn [length deal]. f_equal.
  apply deal_enough; [lia| |]; rewrite skipn_length; cbn [length]; lia.
Qed.
Lemma turns_nil {A} n : turns n (@nil A) = [].
Proof. reflexivity. Qed.
Lemma blocks_later b ts : (match ts with [] => [] | t :: ts' => longest b t :: map (longest false) ts' end) = blocks_in_turns b ts.
Proof. reflexivity. Qed.
Lemma blocks_false ts : blocks_in_turns false ts = map (longest false) ts.
Proof. destruct ts; reflexivity. Qed.
Lemma longest_sized b t : longest b t = fold_right Z.max 0 (map (sized b) t).
Proof. reflexivity. Qed.
Lemma max_pad l k : fold_right Z.max 0 (l ++ repeat 0 k) = fold_right Z.max 0 l.
Proof.
  induction l as [|x l IH]; cbn [app fold_right]; [|now rewrite IH]. induction k as [|k IHk]; cbn [repeat fold_right]; [reflexivity|]. rewrite IHk. reflexivity.
Qed.
Lemma nth_firstn {A} (l : list A) k i d : (i < k)%nat -> nth i (firstn k l) d = nth i l d.
Proof. revert k i; induction l as [|x l IH]; intros [|k] [|i] H; cbn; try lia; auto. apply IH. lia. Qed.
Lemma nth_skipn {A} (l : list A) k i d : nth i (skipn k l) d = nth (k + i) l d.
Proof. revert l; induction k as [|k IH]; intros l; [reflexivity|]. destruct l; cbn [skipn]; [destruct i; reflexivity|]. apply IH. Qed.

Lemma skipn_twice {A} (l : list A) a b : skipn a (skipn b l) = skipn (b + a) l.
Proof. revert l; induction b as [|b IH]; intros l; [reflexivity|]. destruct l; cbn [skipn Nat.add]; [destruct a; reflexivity|]. apply IH. Qed.

(** The buffers after a turn are as long as the turn's frames say. *)
Lemma peak_turn chs' n b (sizes : list Z) cur m : 0 <= cur -> 0 <= m -> zlen chs' = n -> m <= zlen sizes ->
  (forall i, 0 <= i < n -> buf_len (nth (Z.to_nat i) chs' fc_new) = if cur + i <? m then sized b (nth (Z.to_nat (cur + i)) sizes 0) else 0) ->
  forall K, (cur + n <= K <= m \/ K = m) ->
  peak chs' = longest b (firstn (Z.to_nat n) (firstn (Z.to_nat (K - cur)) (skipn (Z.to_nat cur) sizes))).
Proof.
  intros Hc Hm HZ HS HI K HK. rewrite longest_sized. set (row := firstn (Z.to_nat n) _).
  assert (HL : length row = Z.to_nat (Z.min n (Z.max 0 (m - cur)))).
  { unfold row. rewrite !firstn_length, skipn_length. unfold zlen in *. lia. }
  rewrite <- (max_pad (map (sized b) row) (Z.to_nat n - length row)). unfold peak. f_equal.
  pose proof (zlen_nonneg chs') as H0. unfold zlen in HZ.
  apply (nth_ext _ _ 0 0). { rewrite app_length, !map_length, repeat_length. lia. }
  intros i Hi. rewrite map_length in Hi. 
  transitivity (buf_len (nth i chs' fc_new)). { change 0 with (buf_len fc_new). apply (map_nth buf_len). }
  specialize (HI (Z.of_nat i) ltac:(lia)). rewrite Nat2Z.id in HI. rewrite HI. destruct (Z.ltb_spec (cur + Z.of_nat i) m) as [Q|Q].
  - rewrite app_nth1 by (rewrite map_length; lia). rewrite (nth_indep (map (sized b) row) 0 (sized b 0)) by (rewrite map_length; lia). rewrite map_nth. f_equal.
    unfold row. rewrite !nth_firstn by lia. rewrite nth_skipn. f_equal. lia.
  - rewrite app_nth2 by (rewrite map_length; lia). symmetry. apply nth_repeat.
Qed.

(** ** Where a player stands *)
Definition reach (n m : Z) (h : frame_headers) : Z := if m =? fhs_len h then m else full_turns n m.
Record staged (L n m : Z) (rest : list Z) (d : dstate) : Prop := {
  sg_good : good L (cut_state m d);
  sg_len : zlen (channels_of d) = n;
  sg_m : 0 <= m <= fhs_len (snd d) /\ m <= entries (snd d) /\ m < 2 ^ 32;
  sg_short : m < fhs_len (snd d) -> m = entries (snd d);
  sg_cur : 0 <= fhs_cursor (snd d) <= reach n m (snd d);
  sg_turn : fhs_cursor (snd d) < reach n m (snd d) \/ m < fhs_len (snd d) -> (n | fhs_cursor (snd d)) /\
    Forall (fun c => fc_state c = if fhs_cursor (snd d) =? 0 then CInit else CDecoding) (channels_of d);
  sg_rest : rest = blocks_in_turns (fhs_cursor (snd d) =? 0)
    (turns n (firstn (Z.to_nat (reach n m (snd d) - fhs_cursor (snd d))) (skipn (Z.to_nat (fhs_cursor (snd d))) (fhs_sizes (snd d))))) }.

Lemma reach_le n m h : 0 < n -> 0 <= m -> 0 <= reach n m h <= m.
Proof. intros Hn Hm. unfold reach, full_turns. destruct (Z.eqb_spec m (fhs_len h)); [lia|]. pose proof (Z.mul_div_le m n Hn). pose proof (Z.div_pos m n Hm Hn). nia. Qed.
Lemma reach_div n m h : 0 < n -> m < fhs_len h -> (n | reach n m h).
Proof. intros Hn Hm. unfold reach, full_turns. destruct (Z.eqb_spec m (fhs_len h)); [lia|]. now exists (m / n); rewrite Z.mul_comm. Qed.
Lemma empty_len chs : peak chs = 0 -> Forall (fun c => buf_len c = 0) chs.
Proof.
  unfold peak. induction chs as [|c chs IH]; cbn [map fold_right]; intros H; constructor.
  - unfold buf_len. pose proof (zlen_nonneg (fc_buffer c)). lia.
  - apply IH. pose proof (zlen_nonneg (fc_buffer c)). pose proof (peak_nonneg chs) as P. unfold peak in P. lia.
Qed.
Lemma dividers n a b : 0 < n -> (n | a) -> (n | b) -> a < b -> a + n <= b.
Proof. intros Hn [x ->] [y ->] H. apply Z.mul_lt_mono_pos_r in H; [nia|exact Hn]. Qed.

(** A turn that the table can serve. *)
Lemma turn_next L n m h rest d : 0 < n -> staged L n m (h :: rest) d -> peak (channels_of d) = 0 ->
  exists d', foldM (decode_channel Release) (range n) d = Ok d' /\ staged L n m rest d' /\ peak (channels_of d') = h.
Proof.
  intros Hn [HG HZ (Hm0 & Hme & Hm32) HSh HC HT HR] HP. destruct d as [[chs s] hs]. unfold channels_of, cut_state in *. cbn [fst snd] in *.
  pose proof (reach_le n m hs Hn ltac:(lia)) as HK. set (K := reach n m hs) in *. set (cur := fhs_cursor hs) in *.
  assert (HlK : cur < K).
  { destruct (Z.eq_dec cur K) as [E|]; [|lia]. rewrite E, Z.sub_diag in HR. cbn [Z.to_nat firstn] in HR. rewrite turns_nil in HR. discriminate. }
  destruct (HT (or_introl HlK)) as [HD HS]. set (st := if cur =? 0 then CInit else CDecoding) in *.
  assert (Hst : st <> CEncoding) by (unfold st; destruct (cur =? 0); discriminate).
  assert (HB : first_of st = (cur =? 0)) by (unfold st; destruct (cur =? 0); reflexivity).
  assert (HC0 : Forall (fun c => fc_state c = st /\ buf_len c = 0) chs) by (apply Forall_and; [exact HS|apply empty_len, HP]).
  destruct (turn_whole L n st Hst chs s (cut_table m hs) HG HZ HC0 (Z.to_nat n) ltac:(lia)) as (chs' & s' & h' & E & G' & Z' & EH & HI).
  rewrite Z2Nat.id in E, EH, HI by lia. change (fhs_cursor (cut_table m hs)) with cur in *. rewrite cut_len in *.
  change (fhs_sizes (cut_table m hs)) with (fhs_sizes hs) in *. rewrite HB in HI.
  assert (HKc : cur + n <= K <= m \/ K = m).
  { destruct (Z.eq_dec m (fhs_len hs)) as [Q|Q]; [right; unfold K, reach; rewrite Q, Z.eqb_refl; reflexivity|]. left. split; [|lia].
    apply dividers; auto. apply reach_div; auto. lia. }
  set (cur' := Z.max cur (Z.min (cur + n) m)) in *.
  assert (ER : foldM (decode_channel Release) (range n) (chs, s, hs) = Ok (chs', s', fhs_set_cursor hs cur') /\ h' = cut_table m (fhs_set_cursor hs cur')).
  { split; [|rewrite EH; reflexivity]. destruct (Z.eq_dec m (fhs_len hs)) as [Q|Q].
    - rewrite Q, cut_same in E. rewrite E. rewrite EH, Q, cut_same. reflexivity.
    - assert (HKn : cur + n <= m). { pose proof (dividers n cur K Hn HD (reach_div n m hs Hn ltac:(lia)) HlK). lia. }
      destruct (fold_cut Release m (range n) chs s hs (chs', s', h')) as (chs2 & s2 & D & F); auto; try lia; [fold cur; rewrite zlen_range by lia; lia|].
      rewrite F. rewrite zlen_range by lia. fold cur. replace cur' with (cur + n) by (unfold cur'; lia). injection D as <- <- _. reflexivity. }
  destruct ER as [ER EH']. exists (chs', s', fhs_set_cursor hs cur'). split; [exact ER|]. cbn [fst snd]. unfold channels_of. cbn [fst].
  assert (HIl : forall i, 0 <= i < n -> (if cur + i <? m then fc_state (nth (Z.to_nat i) chs' fc_new) = CDecoding else True) /\
     buf_len (nth (Z.to_nat i) chs' fc_new) = if cur + i <? m then sized (cur =? 0) (nth (Z.to_nat (cur + i)) (fhs_sizes hs) 0) else 0).
  { intros i Hi. specialize (HI i Hi). cbv zeta in HI. destruct (Z.ltb_spec i n); [|lia]. cbn [andb] in HI. destruct (cur + i <? m); intuition. }
  assert (TN : firstn (Z.to_nat (K - cur)) (skipn (Z.to_nat cur) (fhs_sizes hs)) <> []).
  { intros N. apply (f_equal (@length Z)) in N. rewrite firstn_length, skipn_length in N. unfold entries, zlen in *. cbn [length] in N. lia. }
  rewrite turns_step in HR by auto. cbn [blocks_in_turns] in HR. injection HR as HR1 HR2.
  split; [|rewrite HR1; apply (peak_turn chs' n _ (fhs_sizes hs) cur m); auto; try lia; [unfold entries in *; lia|intros i Hi; apply HIl, Hi]].
  assert (HKp : reach n m (fhs_set_cursor hs cur') = K) by reflexivity.
  constructor; unfold channels_of, cut_state; cbn [fst snd]; rewrite ?HKp; cbn [fhs_set_cursor fhs_cursor fhs_sizes]; auto.
  - rewrite <- EH'. exact G'.
  - split; [unfold cur'; lia|]. unfold cur'. lia.
  - intros Q. change (fhs_len (fhs_set_cursor hs cur')) with (fhs_len hs) in Q.
    assert (Hcn : cur + n <= m).
    { destruct Q as [Q|Q]; [unfold cur' in Q; lia|]. pose proof (dividers n cur K Hn HD (reach_div n m hs Hn Q) HlK). lia. }
    assert (EC : cur' = cur + n) by (unfold cur'; lia). rewrite EC. split.
    + apply Z.divide_add_r; [exact HD|apply Z.divide_refl].
    + destruct (Z.eqb_spec (cur + n) 0); [lia|]. apply Forall_forall. intros c Hc. apply (In_nth _ _ fc_new) in Hc. destruct Hc as (i & Hi & <-).
      destruct (HIl (Z.of_nat i)) as [X _]; [unfold zlen in Z'; lia|]. rewrite Nat2Z.id in X. destruct (Z.ltb_spec (cur + Z.of_nat i) m); [exact X|unfold zlen in Z'; lia].
  - rewrite HR2. replace (cur' =? 0) with false by (symmetry; apply Z.eqb_neq; unfold cur'; lia). rewrite blocks_false. f_equal. f_equal.
    rewrite skipn_firstn_comm, skipn_twice.
    destruct (Z.le_gt_cases (cur + n) m) as [Q|Q].
    + replace cur' with (cur + n) by (unfold cur'; lia). f_equal; [lia|]. f_equal. lia.
    + replace (Z.to_nat (K - cur) - Z.to_nat n)%nat with 0%nat by lia. replace (Z.to_nat (K - cur'))%nat with 0%nat by (unfold cur'; lia). reflexivity.
Qed.

(** ** The end of the table, and an entry that is missing *)
Lemma frame_done p c s h : fhs_len h <= fhs_cursor h -> decode_frame p c s h = Ok (c, s, h).
Proof. intros H. unfold decode_frame, fhs_next. destruct (Z.ltb_spec (fhs_cursor h) (fhs_len h)); [lia|]. reflexivity. Qed.
Lemma store_back {A} (l : list A) j d : 0 <= j < zlen l -> store l j (nth (Z.to_nat j) l d) = Ok l.
Proof.
  intros H. rewrite store_ok by lia. f_equal. assert (Hn : (Z.to_nat j < length l)%nat) by (unfold zlen in H; lia). clear H. revert Hn. generalize (Z.to_nat j).
  induction l as [|x l IH]; intros [|k] Hk; cbn [replace_nth nth length] in *; try lia; [reflexivity|]. f_equal. apply IH. lia.
Qed.
Lemma fold_done p chs s h : fhs_len h <= fhs_cursor h -> forall l, (forall j, In j l -> 0 <= j < zlen chs) ->
  foldM (decode_channel p) l (chs, s, h) = Ok (chs, s, h).
Proof.
  intros H. induction l as [|j l IH]; intros HJ; cbn [foldM]; [reflexivity|]. unfold decode_channel at 1. rewrite (index_ok _ j fc_new) by (apply HJ; now left). cbn [bind].
  rewrite frame_done by exact H. cbn [bind]. rewrite store_back by (apply HJ; now left). cbn [bind]. apply IH. intros k Hk. apply HJ. now right.
Qed.
Lemma rest_nil L n m d : 0 < n -> staged L n m [] d -> fhs_cursor (snd d) = reach n m (snd d).
Proof.
  intros Hn [HG HZ (Hm0 & Hme & Hm32) HSh HC HT HR]. pose proof (reach_le n m (snd d) Hn ltac:(lia)) as HK.
  destruct (Z.eq_dec (fhs_cursor (snd d)) (reach n m (snd d))) as [E|E]; [exact E|]. exfalso.
  set (l := firstn _ _) in HR. assert (HL : l <> []).
  { subst l. intros N. apply (f_equal (@length Z)) in N. rewrite firstn_length, skipn_length in N. unfold entries, zlen in *. cbn [length] in N. lia. }
  rewrite turns_step in HR by auto. discriminate HR.
Qed.
Lemma turn_end L n m d : 0 < n -> staged L n m [] d -> m = fhs_len (snd d) -> foldM (decode_channel Release) (range n) d = Ok d.
Proof.
  intros Hn HS Hm. pose proof (rest_nil _ _ _ _ Hn HS) as HE. destruct d as [[chs s] hs]. cbn [snd] in *. unfold reach in HE. rewrite Hm, Z.eqb_refl in HE.
  apply fold_done; [lia|]. intros j Hj. apply in_range in Hj. pose proof (sg_len _ _ _ _ _ HS) as HZ. unfold channels_of in HZ. cbn [fst] in HZ. lia.
Qed.
Lemma range_split n r : 0 <= r < n -> exists tl, range n = range r ++ r :: tl.
Proof.
  intros [H0 H]. replace n with (r + 1 + Z.of_nat (Z.to_nat (n - r - 1))) by lia. induction (Z.to_nat (n - r - 1)) as [|k (tl & IH)].
  - exists []. replace (r + 1 + Z.of_nat 0) with (r + 1) by lia. now apply range_succ.
  - replace (r + 1 + Z.of_nat (S k)) with (r + 1 + Z.of_nat k + 1) by lia. rewrite range_succ by lia. rewrite IH. exists (tl ++ [r + 1 + Z.of_nat k]). now rewrite <- app_assoc.
Qed.
Lemma turn_breaks L n m d : 0 < n -> staged L n m [] d -> m < fhs_len (snd d) -> peak (channels_of d) = 0 ->
  foldM (decode_channel Release) (range n) d = Panic IndexOutOfBounds.
Proof.
  intros Hn HS Hm HP. pose proof (rest_nil _ _ _ _ Hn HS) as HE. destruct HS as [HG HZ (Hm0 & Hme & Hm32) HSh HC HT _].
  destruct d as [[chs s] hs]. unfold channels_of, cut_state in *. cbn [fst snd] in *. specialize (HT (or_intror Hm)). destruct HT as [HD HS].
  set (cur := fhs_cursor hs) in *. assert (HK : cur = n * (m / n)).
  { rewrite HE. unfold reach, full_turns. destruct (Z.eqb_spec m (fhs_len hs)); [lia|reflexivity]. }
  pose proof (Z.div_mod m n ltac:(lia)) as DM. pose proof (Z.mod_pos_bound m n Hn) as MB. set (r := m mod n) in *.
  set (st := if cur =? 0 then CInit else CDecoding) in *.
  assert (Hst : st <> CEncoding) by (unfold st; destruct (cur =? 0); discriminate).
  assert (HC0 : Forall (fun c => fc_state c = st /\ buf_len c = 0) chs) by (apply Forall_and; [exact HS|apply empty_len, HP]).
  destruct (turn_whole L n st Hst chs s (cut_table m hs) HG HZ HC0 (Z.to_nat r) ltac:(lia)) as (chs' & s' & h' & E & _ & Z' & _ & _).
  rewrite Z2Nat.id in E by lia.
  destruct (fold_cut Release m (range r) chs s hs (chs', s', h')) as (chs2 & s2 & D & F); auto; try lia; [fold cur; rewrite zlen_range by lia; lia|].
  destruct (range_split n r ltac:(lia)) as [tl ER]. rewrite ER, foldM_app, F. cbn [bind foldM].
  injection D as <- <- _. rewrite zlen_range by lia. fold cur. replace (cur + r) with m by lia.
  rewrite channel_breaks; [reflexivity|lia| |]; cbn [fhs_set_cursor fhs_cursor]; [exact (conj (proj1 Hm0) Hm)|exact (HSh Hm)].
Qed.

(** ** Filling the buffers *)
Definition at_blocks (L n m B : Z) (d : dstate) : Prop :=
  exists rest, staged L n m rest d /\ no_nine_empty rest /\ Forall (fun h => 0 <= h) rest /\ peak (channels_of d) + total rest = B.
Lemma no_nine_tail x l : no_nine_empty (x :: l) -> no_nine_empty l.
Proof. intros H a b E. apply (H (x :: a) b). rewrite E. reflexivity. Qed.
Lemma total_nonneg l : Forall (fun h => 0 <= h) l -> 0 <= total l.
Proof. induction 1; cbn [total fold_right]; [lia|]. fold (total l). lia. Qed.
Lemma zeros_or_more l : Forall (fun h => 0 <= h) l -> exists k l', l = repeat 0 k ++ l' /\ match l' with [] => True | h :: _ => 0 < h end.
Proof.
  induction 1 as [|x l Hx Hl (k & l' & E & H)]; [exists 0%nat, []; auto|]. destruct (Z.eq_dec x 0) as [->|N].
  - exists (S k), l'. rewrite E. auto.
  - exists 0%nat, (x :: l). split; [reflexivity|lia].
Qed.
Lemma total_zeros k l : total (repeat 0 k ++ l) = total l.
Proof. induction k as [|k IH]; cbn [repeat app]; [reflexivity|]. unfold total in *. cbn [fold_right]. lia. Qed.
Lemma no_nine_zeros k l : no_nine_empty (repeat 0 k ++ l) -> (k < 9)%nat.
Proof.
  intros H. destruct (Nat.lt_ge_cases k 9) as [Q|Q]; [exact Q|]. exfalso. apply (H [] (repeat 0 (k - 9) ++ l)). cbn [app].
  rewrite app_assoc. rewrite <- repeat_app. f_equal. f_equal. lia.
Qed.
(** Turns without samples are skipped. *)
Lemma skip_empty L n m k : 0 < n -> forall l d fuel, staged L n m (repeat 0 k ++ l) d -> peak (channels_of d) = 0 ->
  exists d', staged L n m l d' /\ peak (channels_of d') = 0 /\ fhs_len (snd d') = fhs_len (snd d) /\
    buffer_audio Release n (k + fuel) d = bind (buffer_audio Release n fuel d') (fun '(e, a) => Ok (e, (k + a)%nat)).
Proof.
  intros Hn. induction k as [|k IH]; intros l d fuel HS HP; cbn [repeat app] in HS.
  - exists d. split; [exact HS|]. split; [exact HP|]. split; [reflexivity|]. cbn [Nat.add]. destruct (buffer_audio Release n fuel d) as [[e a]| |]; reflexivity.
  - destruct (turn_next L n m 0 _ d Hn HS HP) as (d1 & E & S1 & P1). destruct (IH l d1 fuel S1 P1) as (d' & S' & P' & L' & E').
    exists d'. split; [exact S'|]. split; [exact P'|]. split.
    { rewrite L'. clear -E. revert E. apply (foldM_rel (decode_channel Release) (fun d d' => fhs_len (snd d') = fhs_len (snd d))); [reflexivity|intros; congruence|].
      intros [[c1 s1] h1] j d2 F. unfold decode_channel in F. inv_bind F. inv_bind F. destruct a0 as [[f2 s2] h2]. inv_bind F. injection F as <-. cbn [snd].
      unfold decode_frame in Ha0. inv_bind Ha0. destruct a1 as [h3 o]. assert (X : fhs_len h3 = fhs_len h1).
      { unfold fhs_next in Ha2. destruct (_ <? _); [|now injection Ha2 as <- _]. inv_bind Ha2. inv_bind Ha2. inv_bind Ha2. inv_bind Ha2. injection Ha2 as <- _. reflexivity. }
      rewrite <- X. destruct o; [|congruence]. destruct (fc_state a).
      - inv_bind Ha0. destruct a1 as [? ?]. inv_bind Ha0. destruct a1 as [[? ?] ?]. congruence.
      - congruence.
      - inv_bind Ha0. destruct a1 as [[? ?] ?]. congruence. }
    cbn [Nat.add buffer_audio]. destruct d as [[chs s] hs]. unfold channels_of in HP. cbn [fst] in HP. rewrite (proj2 (peak_empty chs) HP), E. cbn [bind]. rewrite E'.
    destruct (buffer_audio Release n fuel d') as [[e a]| |]; reflexivity.
Qed.
Lemma idle_end L n m : 0 < n -> forall fuel d, staged L n m [] d -> m = fhs_len (snd d) -> peak (channels_of d) = 0 ->
  buffer_audio Release n fuel d = Ok (d, fuel).
Proof.
  intros Hn. induction fuel as [|fuel IH]; intros d HS Hm HP; cbn [buffer_audio]; [reflexivity|]. pose proof (turn_end L n m d Hn HS Hm) as E.
  specialize (IH d HS Hm HP). destruct d as [[chs s] hs]. unfold channels_of in HP. cbn [fst] in HP.
  rewrite (proj2 (peak_empty chs) HP), E. cbn [bind]. rewrite IH. reflexivity.
Qed.
Lemma buffer_table L n m B d : 0 < n -> at_blocks L n m B d ->
  (0 < B -> exists d' k, buffer_audio Release n MAX_DECODE_ATTEMPTS d = Ok (d', k) /\ at_blocks L n m B d' /\ (k < MAX_DECODE_ATTEMPTS)%nat /\ fhs_len (snd d') = fhs_len (snd d)) /\
  (B = 0 -> m = fhs_len (snd d) -> exists d', buffer_audio Release n MAX_DECODE_ATTEMPTS d = Ok (d', MAX_DECODE_ATTEMPTS) /\ at_blocks L n m 0 d' /\ fhs_len (snd d') = fhs_len (snd d)) /\
  (B = 0 -> m < fhs_len (snd d) -> buffer_audio Release n MAX_DECODE_ATTEMPTS d = Panic IndexOutOfBounds).
Proof.
  intros Hn (rest & HS & HN & HF & HB). pose proof (peak_nonneg (channels_of d)) as P0. pose proof (total_nonneg _ HF) as T0.
  destruct (Z.eq_dec (peak (channels_of d)) 0) as [HP|HP].
  2: { split; [intros _|split; lia]. exists d, 0%nat. split; [|split; [exists rest; auto|split; [unfold MAX_DECODE_ATTEMPTS; lia|reflexivity]]].
    unfold MAX_DECODE_ATTEMPTS. cbn [buffer_audio]. destruct d as [[chs s] hs]. unfold channels_of in HP. cbn [fst] in HP.
    destruct (buffers_empty chs) eqn:X; [|reflexivity]. apply peak_empty in X. lia. }
  destruct (zeros_or_more rest HF) as (k & l & -> & Hl). pose proof (no_nine_zeros _ _ HN) as Hk. rewrite total_zeros in *.
  destruct (skip_empty L n m k Hn l d (MAX_DECODE_ATTEMPTS - k) HS HP) as (d1 & S1 & P1 & L1 & E1).
  replace (k + (MAX_DECODE_ATTEMPTS - k))%nat with MAX_DECODE_ATTEMPTS in E1 by (unfold MAX_DECODE_ATTEMPTS; lia).
  assert (HNl : no_nine_empty l). { intros a b E. apply (HN (repeat 0 k ++ a) b). rewrite E, app_assoc. reflexivity. }
  assert (HFl : Forall (fun h => 0 <= h) l) by (apply Forall_app in HF; apply HF).
  destruct l as [|h l].
  - cbn [total fold_right] in *. split; [lia|]. split; intros HB0 Hm.
    + rewrite <- L1 in Hm. rewrite (idle_end L n m Hn _ _ S1 Hm P1) in E1. cbn [bind] in E1.
      replace (k + (MAX_DECODE_ATTEMPTS - k))%nat with MAX_DECODE_ATTEMPTS in E1 by (unfold MAX_DECODE_ATTEMPTS; lia).
      exists d1. split; [exact E1|]. split; [|exact L1]. exists []. cbn [total fold_right]. split; [exact S1|]. split; [exact HNl|]. split; [constructor|lia].
    + rewrite <- L1 in Hm. pose proof (turn_breaks L n m d1 Hn S1 Hm P1) as TB. rewrite E1. destruct d1 as [[chs1 s1] h1]. unfold channels_of in P1. cbn [fst] in P1.
      destruct (MAX_DECODE_ATTEMPTS - k)%nat as [|f] eqn:EF; [unfold MAX_DECODE_ATTEMPTS in EF; lia|]. cbn [buffer_audio].
      rewrite (proj2 (peak_empty chs1) P1), TB. reflexivity.
  - unfold total in *. cbn [fold_right] in *. fold (total l) in *. inversion HFl as [|? ? Hh HFl']; subst. split; [intros _|split; pose proof (total_nonneg _ HFl'); lia].
    destruct (turn_next L n m h l d1 Hn S1 P1) as (d2 & E2 & S2 & P2).
    assert (L2 : fhs_len (snd d2) = fhs_len (snd d1)).
    { pose proof (sg_m _ _ _ _ _ S1). destruct (skip_empty L n m 0 Hn (h :: l) d1 1 S1 P1) as (dx & _). clear dx.
      assert (XX : buffer_audio Release n 1 d1 = Ok (d2, 1%nat)).
      { cbn [buffer_audio]. destruct d1 as [[chs1 s1] h1]. unfold channels_of in P1. cbn [fst] in P1. rewrite (proj2 (peak_empty chs1) P1), E2. reflexivity. }
      rewrite (buffer_audio_table _ _ _ _ _ _ XX). reflexivity. }
    exists d2, (S k). split; [|split; [|split; [unfold MAX_DECODE_ATTEMPTS; lia|congruence]]].
    + rewrite E1. destruct (MAX_DECODE_ATTEMPTS - k)%nat as [|f] eqn:EF; [unfold MAX_DECODE_ATTEMPTS in EF; lia|]. destruct d1 as [[chs1 s1] h1]. unfold channels_of in P1. cbn [fst] in P1.
      cbn [buffer_audio]. rewrite (proj2 (peak_empty chs1) P1), E2. cbn [bind].
      assert (X : buffer_audio Release n f d2 = Ok (d2, 0%nat)).
      { destruct f; [reflexivity|]. cbn [buffer_audio]. destruct d2 as [[chs2 s2] h2]. unfold channels_of in P2. cbn [fst] in P2.
        destruct (buffers_empty chs2) eqn:X; [|reflexivity]. apply peak_empty in X. lia. }
      rewrite X. cbn [bind]. do 2 f_equal. lia.
    + exists l. split; [exact S2|]. split; [exact (no_nine_tail _ _ HNl)|]. split; [exact HFl'|lia].
Qed.
