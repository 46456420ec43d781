(** * Property C85: exactly which WAV files the command line tool converts *)
From Coq Require Import ZArith List Bool Reals Lia Classical_Prop.
From Flocq Require Import Core IEEE754.BinarySingleNaN.
From Verif Require Import Model.Base Model.F32 Model.Sample Model.Frame Model.Adhoc Model.Bincode Model.Wav Model.Cli
  Spec.Recording Spec.Frames Spec.Files Spec.Wave Spec.Convertible
  Proofs.BaseFacts Proofs.EncodeFacts Proofs.DecodeFacts Proofs.RoundTrip Proofs.WavFacts Proofs.Chunks Proofs.WavFile Proofs.CliFacts Proofs.BombTool
  Properties.CallProps Properties.FrameProps Properties.WavProps Properties.CliProps Properties.TerminationProps.
Import ListNotations.
Open Scope Z_scope.

(** ** What loading gives *)
Lemma channels_range file : Forall is_byte file -> 0 <= channels_in file < 2 ^ 32 /\ uwrap 32 (swrap 16 (number_at file 22 2)) = channels_in file.
Proof.
  intros HB. pose proof (number_at_range file 22 2 HB) as R. change (256 ^ Z.of_nat 2) with 65536 in R. unfold channels_in.
  change (2 ^ 32) with 4294967296. change (2 ^ 16) with 65536. set (c := number_at file 22 2) in *. clearbody c.
  destruct (Z.ltb_spec c 32768) as [L|L].
  - rewrite (swrap_small 16) by lia. rewrite (uwrap_small 32) by lia. lia.
  - assert (E : swrap 16 c = c - 65536). { unfold swrap. change (2 ^ (16 - 1)) with 32768. change (2 ^ 16) with 65536. replace (c + 32768) with (c - 32768 + 1 * 65536) by lia. rewrite Z.mod_add, Z.mod_small by lia. lia. }
    rewrite E. unfold uwrap. change (2 ^ 32) with 4294967296. replace (c - 65536) with (c + 4294967296 - 65536 + (-1) * 4294967296) by lia.
    rewrite Z.mod_add, Z.mod_small by lia. lia.
Qed.
Lemma load_accepted p file pos : Forall is_byte file -> accepted file pos ->
  exists info t odd, wav_load p file = Ok (Some (mkWav info (pcm_bytes t ++ odd) 0)) /\ si_channels info = channels_in file /\ info_fits info /\
    zlen t = samples_in file pos /\ Forall is_i16 t /\ (length odd <= 1)%nat.
Proof.
  intros HB (HL & HT & HP & HF & HS). pose proof (load_tag p file pos HL HT HP) as E. unfold sample_bits in HS.
  destruct (channels_range file HB) as [CR CE].
  assert (IF : info_fits (loaded_info file)).
  { split; unfold loaded_info, in_range_u; cbn [si_rate si_channels]; [|rewrite CE; lia].
    unfold uwrap. apply Z.mod_pos_bound. lia. }
  rewrite HF in E. change (swrap 16 1 =? 1) with true in E. cbv zeta in E.
  assert (HB' : Forall is_byte (skipn (pos + 8) file)).
  { apply Forall_forall. intros b Hb. rewrite Forall_forall in HB. apply HB. rewrite <- (firstn_skipn (pos + 8) file). apply in_or_app. now right. }
  assert (LR : zlen (skipn (pos + 8) file) = zlen file - (Z.of_nat pos + 8)).
  { rewrite zlen_skipn. lia. }
  unfold samples_in, sample_bits. destruct HS as [HS|HS]; rewrite HS in *.
  - change (swrap 16 8) with 8 in E. cbn [Z.eqb Pos.eqb orb] in E. cbn [Z.eqb Pos.eqb]. exists (loaded_info file), (map expand8 (skipn (pos + 8) file)), [].
    rewrite app_nil_r. split; [exact E|]. split; [exact CE|]. split; [exact IF|]. split; [now rewrite zlen_map|]. split; [|cbn; lia].
    apply Forall_map. eapply Forall_impl; [|exact HB']. intros b Hb. rewrite expand8_exact by exact Hb. now apply eight_bit_check.
  - change (swrap 16 16) with 16 in E. cbn [Z.eqb Pos.eqb orb] in E. cbn [Z.eqb Pos.eqb].
    destruct (byte_pairs _ _ (le_n _) HB') as (t & odd & Ep & Ho & Ht & Hz). exists (loaded_info file), t, odd. rewrite Ep in E.
    split; [exact E|]. split; [exact CE|]. split; [exact IF|]. split; [|split; auto]. now rewrite Hz, LR.
Qed.
Lemma load_cases p file : Forall is_byte file ->
  (late_tag file /\ exists r, wav_load p file = Panic r) \/
  (exists pos, accepted file pos) \/
  (~ late_tag file /\ (forall pos, ~ accepted file pos) /\ wav_load p file = Ok None).
Proof.
  intros HB. destruct (Z.lt_ge_cases (zlen file) 256) as [L|L].
  { right. right. split; [intros [? _]; lia|]. split; [intros pos (? & _); lia|now apply load_short]. }
  pose proof (find_tag_spec (firstn 256 file) 0) as F. destruct (find_tag (firstn 256 file) 0) as [q|].
  2:{ assert (N : forall pos, ~ first_tag file pos) by (intros pos [T _]; now apply (F pos)).
      right. right. split; [intros (_ & pos & T & _); now apply (N pos)|]. split; [intros pos (_ & T & _); now apply (N pos)|]. now apply load_no_tag. }
  destruct F as (k & _ & T & N). assert (FT : first_tag file k) by (split; assumption).
  assert (U : forall pos, first_tag file pos -> pos = k).
  { intros pos [T' N']. destruct (Nat.lt_trichotomy pos k) as [G|[G|G]]; auto; exfalso; [now apply (N pos)|now apply (N' k)]. }
  destruct (Nat.lt_ge_cases 248 k) as [G|G].
  { left. assert (LT : late_tag file) by (split; [exact L|exists k; auto]). split; [exact LT|]. apply C45_panics_iff. exact LT. }
  assert (NL : ~ late_tag file) by (intros (_ & pos & T' & G'); apply U in T'; lia).
  pose proof (number_at_range file 34 2 HB) as R1. pose proof (number_at_range file 20 2 HB) as R2. change (256 ^ Z.of_nat 2) with 65536 in R1, R2.
  assert (SW : forall x y, 0 <= x < 65536 -> 0 <= y < 32768 -> (swrap 16 x =? y) = (x =? y)).
  { intros x y Hx Hy. destruct (Z.lt_ge_cases x 32768) as [S|S].
    - now rewrite (swrap_small 16) by lia.
    - assert (E : swrap 16 x = x - 65536). { unfold swrap. change (2 ^ (16 - 1)) with 32768. change (2 ^ 16) with 65536. replace (x + 32768) with (x - 32768 + 1 * 65536) by lia. rewrite Z.mod_add, Z.mod_small by lia. lia. }
      rewrite E. destruct (Z.eqb_spec (x - 65536) y); destruct (Z.eqb_spec x y); auto; lia. }
  pose proof (load_tag p file k L FT G) as E. cbv zeta in E. rewrite !SW in E by lia.
  destruct (Z.eqb_spec (number_at file 34 2) 16) as [B|B]; destruct (Z.eqb_spec (number_at file 34 2) 8) as [C|C]; try lia; cbn [orb] in E.
  1,2: destruct (Z.eqb_spec (number_at file 20 2) 1) as [D|D];
    [right; left; exists k; repeat split; auto; unfold sample_bits; auto|right; right; split; [exact NL|]; split; [intros pos (_ & _ & _ & X & _); lia|exact E]].
  right. right. split; [exact NL|]. split; [intros pos (_ & _ & _ & _ & X); unfold sample_bits in X; lia|exact E].
Qed.

(** ** Encoding the samples *)
Lemma cut_is {A} n : (1 <= n)%nat -> forall fuel (l : list A), (length l <= fuel)%nat -> cut_into (Z.of_nat n) l (cut fuel n l).
Proof.
  intros Hn fuel l Hl. split; [now apply cut_concat|]. split.
  - revert l Hl. induction fuel as [|fuel IH]; intros l Hl; cbn [cut]; [constructor|]. destruct l as [|x l]; [constructor|].
    constructor; [rewrite zlen_firstn; rewrite zlen_cons; pose proof (zlen_nonneg l); lia|]. apply IH. rewrite skipn_length. cbn [length] in *. lia.
  - intros a x b E Hb. unfold zlen. f_equal. eapply cut_full; eauto.
Qed.
Lemma convert_is p file level info t odd : let ch := si_channels info in
  wav_load p file = Ok (Some (mkWav info (pcm_bytes t ++ odd) 0)) -> Forall is_i16 t -> (length odd <= 1)%nat -> 1 <= ch <= 1024 ->
  wav_to_adhoc p file level =
  (c <- encode_all p (new_codec info level) (cut (S (S (length (pcm_bytes t ++ odd)))) (Z.to_nat (chunk ch)) (map restore t)) ;; Ok (Some (ad_save c))).
Proof.
  intros ch EL Ht Ho Hc. unfold wav_to_adhoc. rewrite EL. cbn [bind wav_info wav_pcm]. rewrite cli_codec, (wav_loop p info t odd); auto; try lia.
  - pose proof (zlen_nonneg t). lia.
  - rewrite app_length. pose proof (zlen_pcm t). unfold zlen in *. lia.
Qed.
Lemma convert_wide p file level info t odd :
  wav_load p file = Ok (Some (mkWav info (pcm_bytes t ++ odd) 0)) -> Forall is_i16 t -> (length odd <= 1)%nat -> 1024 < si_channels info ->
  wav_to_adhoc p file level = Ok (Some (ad_save (new_codec info level))).
Proof.
  intros EL Ht Ho Hc. unfold wav_to_adhoc. rewrite EL. cbn [bind wav_info wav_pcm]. rewrite cli_codec. cbn [wav_to_adhoc_loop].
  destruct (decode_ok info t odd 0 CLI_BUFFER ltac:(lia) ltac:(pose proof (zlen_nonneg t); lia) Ht Ho) as (n & _ & En & E & _).
  rewrite E. cbn [bind]. unfold fill. cbn [fst snd]. change (zlen CLI_BUFFER) with 1024. rewrite Z.div_small by lia. rewrite Z.mul_0_r.
  rewrite Z.min_l by apply zlen_nonneg. reflexivity.
Qed.
Lemma convert_none p file level info t odd :
  wav_load p file = Ok (Some (mkWav info (pcm_bytes t ++ odd) 0)) -> si_channels info = 0 -> panics (wav_to_adhoc p file level).
Proof.
  intros EL Hc. unfold wav_to_adhoc. rewrite EL. cbn [bind wav_info wav_pcm]. cbn [wav_to_adhoc_loop]. unfold wav_decode. cbn [wav_info]. rewrite Hc.
  eexists. reflexivity.
Qed.

(** ** And back *)
Lemma back_wide info level : info_fits info -> 1024 < si_channels info -> 0 <= level ->
  exists out, adhoc_to_wav Release (ad_save (new_codec info level)) = Ok (Some out) /\ zlen out = 44.
Proof.
  intros IF Hc Hlv.
  assert (HR : recording_ok (si_channels info) []).
  { split; [lia|]. split; [exact I|]. split; [constructor|]. split; cbn; lia. }
  destruct (loaded_playing Release Release info level [] (new_codec info level) Hlv) as (c2 & E2 & E3 & HP & HF); auto.
  { constructor. }
  unfold adhoc_to_wav. rewrite E2. cbn [bind]. rewrite E3. cbn [bind].
  destruct (decode_rounds c2) as [|fuel] eqn:EF; [lia|]. cbn [adhoc_to_wav_loop].
  destruct (playing_call Release c2 info level [] 0 _ CLI_BUFFER HP) as (c' & buf' & R' & E & _ & _).
  assert (D0 : (length CLI_BUFFER / Z.to_nat (si_channels info) = 0)%nat) by (apply Nat.div_small; change (length CLI_BUFFER) with 1024%nat; lia).
  rewrite D0 in E. cbn [Nat.min] in E. rewrite E. change (0 <? 0)%nat with false. cbn [bind].
  destruct (save_release info [] 0) as [out ES]. change (mkWav info (pcm_bytes []) 0) with (wav_new info) in ES. rewrite ES. cbn [bind].
  exists out. split; [reflexivity|]. change (wav_new info) with (mkWav info (pcm_bytes []) 0) in ES. rewrite (save_size Release _ _ _ _ ES). reflexivity.
Qed.
Lemma back p info level pcms c1 : let ch := si_channels info in
  info_fits info -> 1 <= ch <= 1024 -> 0 <= level -> recording_ok ch pcms -> no_long_gap ch pcms -> ch * total_blocks ch pcms < 2 ^ 62 ->
  encode_all p (new_codec info level) pcms = Ok c1 ->
  exists out, adhoc_to_wav Release (ad_save c1) = Ok (Some out) /\ zlen out = 44 + 2 * (ch * total_blocks ch pcms).
Proof.
  intros ch IF Hc Hlv HR HG HT E.
  destruct (loaded_playing p Release info level pcms c1 Hlv) as (c2 & E2 & E3 & HP & HF); auto.
  { apply safe_release. }
  fold ch in HP, HF. unfold adhoc_to_wav. rewrite E2. cbn [bind]. rewrite E3. cbn [bind].
  rewrite (audible_all ch _ ltac:(lia) HG) in HP.
  pose proof (total_blocks_nonneg ch pcms ltac:(lia)) as TN.
  destruct (adhoc_loop Release info level pcms) with (fuel := decode_rounds c2) (c := c2) (done := 0%nat) (track := @nil Z) (buf := CLI_BUFFER) as (cur & E4).
  - fold ch. lia.
  - fold ch. exact HT.
  - reflexivity.
  - fold ch. rewrite Nat.sub_0_r. exact HP.
  - fold ch. lia.
  - fold ch. change (zlen (@nil Z)) with 0. change (2 ^ 62) with 4611686018427387904 in *. nia.
  - change (mkWav info (pcm_bytes []) (zlen (@nil Z))) with (wav_new info) in E4. rewrite E4. cbn [bind app].
    fold ch. rewrite Nat.mul_0_r. cbn [skipn].
    match goal with |- context [wav_save Release (mkWav info (pcm_bytes ?l) cur)] => destruct (save_release info l cur) as [out ES]; rewrite ES end.
    cbn [bind]. exists out. split; [reflexivity|]. rewrite (save_size Release _ _ _ _ ES), zlen_map. unfold lossy_signal.
    rewrite zlen_output by lia. reflexivity.
Qed.

(** ** C85 *)
(** The files the tool passes over without writing anything, whatever the level and the build. *)
Theorem C85_rejects : forall p file level, Forall is_byte file ->
  (wav_to_adhoc p file level = Ok None <-> ~ late_tag file /\ forall pos, ~ accepted file pos).
Proof.
  intros p file level HB. destruct (load_cases p file HB) as [[LT [r E]]|[[pos HA]|(NL & NA & E)]].
  - split; [|intros [N _]; contradiction]. unfold wav_to_adhoc. rewrite E. discriminate.
  - split; [|intros [_ N]; exfalso; now apply (N pos)]. destruct (load_accepted p file pos HB HA) as (info & t & odd & E & _).
    unfold wav_to_adhoc. rewrite E. cbn [bind]. cbv zeta. intros H. inv_bind H. discriminate H.
  - split; [auto|]. intros _. unfold wav_to_adhoc. rewrite E. reflexivity.
Qed.
Print Assumptions C85_rejects.

(** The files a release build converts, and that it converts them back. *)
Theorem C85_converts : forall file pos level, let ch := channels_in file in let n := samples_in file pos in
  Forall is_byte file -> accepted file pos -> n < 2 ^ 31 -> 0 <= level -> ~ too_short ch n ->
  exists mid out, wav_to_adhoc Release file level = Ok (Some mid) /\ adhoc_to_wav Release mid = Ok (Some out) /\
    zlen out = 44 + 2 * (if ch <=? 341 then ch * (n / ch) else 0).
Proof.
  intros file pos level ch n HB HA Hn Hlv HS. destruct (load_accepted Release file pos HB HA) as (info & t & odd & E & EC & IF & Ez & Ht & Ho).
  fold ch in EC. fold n in Ez. destruct (channels_range file HB) as [CR _]. fold ch in CR. pose proof (zlen_nonneg t) as Z0.
  destruct (Z.lt_ge_cases 1024 ch) as [W|W].
  { exists (ad_save (new_codec info level)). destruct (back_wide info level IF ltac:(lia) Hlv) as (out & EB & EL). exists out.
    split; [apply (convert_wide Release file level info t odd); auto; lia|]. split; [exact EB|]. destruct (Z.leb_spec ch 341); lia. }
  assert (C1 : 1 <= ch). { destruct (Z.eq_dec ch 0); [exfalso; apply HS; now left|lia]. }
  pose proof (convert_is Release file level info t odd E Ht Ho ltac:(lia)) as ET. rewrite EC in ET.
  set (calls := cut _ (Z.to_nat (chunk ch)) (map restore t)) in ET.
  assert (TB : recording_ok ch calls /\ no_long_gap ch calls /\ ch * total_blocks ch calls = (if ch <=? 341 then ch * (n / ch) else 0)).
  { destruct (Z.eq_dec n 0) as [N0|N0].
    - assert (t = []) as -> by (destruct t; [reflexivity|rewrite zlen_cons in Ez; pose proof (zlen_nonneg t); lia]).
      subst calls. cbn [map]. rewrite cut_nil. split; [|split].
      + split; [lia|]. split; [exact I|]. split; [constructor|]. split; cbn; lia.
      + intros a b c Eq _ Hl. destruct a; [|discriminate]. destruct b; [cbn in Hl; lia|discriminate].
      + rewrite N0, Z.div_0_l by lia. change (total_blocks ch []) with 0. destruct (ch <=? 341); lia.
    - assert (C2 : ch <= 341) by (apply Z.nlt_ge; intros L; apply HS; right; lia).
      assert (C3 : 3 * ch <= n) by (apply Z.nlt_ge; intros L; apply HS; right; lia).
      destruct (chunk_pos ch ltac:(lia)) as [_ K].
      assert (LF : (length (map restore t) <= S (S (length (pcm_bytes t ++ odd))))%nat).
      { rewrite map_length, app_length. pose proof (zlen_pcm t). unfold zlen in *. lia. }
      destruct (cut_recording ch (map restore t) (S (S (length (pcm_bytes t ++ odd))))) as [HR HG]; [lia|rewrite zlen_map; lia|unfold zlen; lia|].
      split; [exact HR|]. split; [exact HG|]. rewrite total_blocks_whole by lia. subst calls. unfold chunk.
      rewrite (cut_whole ch (1024 / ch)) by (try lia; exact LF). rewrite whole_len, zlen_map, Ez by lia. destruct (Z.leb_spec ch 341); lia. }
  destruct TB as (HR & HG & TB). rewrite <- EC in HR, HG.
  destruct (encode_recording Release info level calls HR (safe_release _ _ _)) as (c1 & EE & _).
  destruct (back Release info level calls c1 IF ltac:(lia) Hlv HR HG) as (out & EB & EL); auto.
  { rewrite EC, TB. change (2 ^ 31) with 2147483648 in Hn. change (2 ^ 62) with 4611686018427387904.
    pose proof (Z.mul_div_le n ch ltac:(lia)). destruct (ch <=? 341); lia. }
  exists (ad_save c1), out. rewrite ET, EE. split; [reflexivity|]. split; [exact EB|]. now rewrite EL, EC, TB.
Qed.
Print Assumptions C85_converts.

(** When the tool panics whatever the build... *)
Theorem C85_panics : forall p file level, Forall is_byte file ->
  late_tag file \/ (exists pos, accepted file pos /\ too_short (channels_in file) (samples_in file pos)) ->
  panics (wav_to_adhoc p file level).
Proof.
  intros p file level HB [LT|(pos & HA & HS)].
  - apply (C45_panics_iff p) in LT. destruct LT as [r E]. exists r. unfold wav_to_adhoc. now rewrite E.
  - destruct (load_accepted p file pos HB HA) as (info & t & odd & E & EC & IF & Ez & Ht & Ho). destruct HS as [HS|(HC & HN & HS)].
    + eapply convert_none; [exact E|congruence].
    + eapply (C50_panics p file level (mkWav info (pcm_bytes t ++ odd) 0) t odd); cbn [wav_info wav_pcm]; auto; rewrite ?EC; lia.
Qed.
Print Assumptions C85_panics.
(** ... and for a release build these are all the cases. *)
Theorem C85_release_panics : forall file level, Forall is_byte file -> (forall pos, accepted file pos -> samples_in file pos < 2 ^ 31) -> 0 <= level ->
  (panics (wav_to_adhoc Release file level) <->
   late_tag file \/ exists pos, accepted file pos /\ too_short (channels_in file) (samples_in file pos)).
Proof.
  intros file level HB HN Hlv. split; [|now apply C85_panics]. intros [r HP].
  destruct (load_cases Release file HB) as [[LT _]|[[pos HA]|(_ & _ & E)]]; [now left| |].
  - right. exists pos. split; [exact HA|].
    assert (D : too_short (channels_in file) (samples_in file pos) \/ ~ too_short (channels_in file) (samples_in file pos)) by (unfold too_short; lia).
    destruct D as [D|D]; [exact D|]. exfalso. destruct (C85_converts file pos level HB HA (HN pos HA) Hlv D) as (mid & out & E & _). congruence.
  - unfold wav_to_adhoc in HP. rewrite E in HP. discriminate HP.
Qed.
Print Assumptions C85_release_panics.

(** A build with overflow checks panics on some of the others too: exactly when for some channel and call no
    exponent below 15 is as good as 15. *)
Lemma cut_unique {A} n (c1 : list (list A)) : forall l c2, cut_into n l c1 -> cut_into n l c2 -> c1 = c2.
Proof.
  assert (T : forall l x c, @cut_into A n l (x :: c) -> cut_into n (concat c) c /\ l = x ++ concat c /\ 0 < zlen x <= n /\ (c <> [] -> zlen x = n)).
  { intros l x c (E & F & G). inversion F; subst. repeat split; auto; try (now apply (G [])); try lia.
    intros a y b E' Hb. apply (G (x :: a) y b); [now rewrite E'|exact Hb]. }
  induction c1 as [|x c1 IH]; intros l c2 H1 H2.
  - destruct c2 as [|y c2]; [reflexivity|]. exfalso. apply T in H2. destruct H2 as (_ & E & P & _). destruct H1 as (E1 & _). cbn [concat] in E1. rewrite E in E1.
    destruct y; [cbn in P; lia|discriminate E1].
  - apply T in H1. destruct H1 as (H1 & E1 & P1 & G1). destruct c2 as [|y c2].
    + exfalso. destruct H2 as (E & _). cbn [concat] in E. rewrite E1 in E. destruct x; [cbn in P1; lia|discriminate E].
    + apply T in H2. destruct H2 as (H2 & E2 & P2 & G2).
      assert (NE : forall z (c : list (list A)), cut_into n (concat (z :: c)) (z :: c) -> 0 < zlen (concat (z :: c))).
      { intros z c H. apply T in H. destruct H as (_ & E & P & _). cbn [concat]. rewrite zlen_app. pose proof (zlen_nonneg (concat c)). lia. }
      assert (LE : zlen x = zlen y).
      { assert (LL : zlen x + zlen (concat c1) = zlen y + zlen (concat c2)) by (rewrite <- !zlen_app; congruence).
        destruct c1 as [|z1 c1]; destruct c2 as [|z2 c2].
        - cbn in LL. lia.
        - specialize (G2 ltac:(discriminate)). apply NE in H2. change (zlen (concat (@nil (list A)))) with 0 in LL. lia.
        - specialize (G1 ltac:(discriminate)). apply NE in H1. change (zlen (concat (@nil (list A)))) with 0 in LL. lia.
        - rewrite G1, G2 by discriminate. reflexivity. }
      assert (EQ : x ++ concat c1 = y ++ concat c2) by congruence.
      assert (x = y /\ concat c1 = concat c2) as [-> EC].
      { unfold zlen in LE. apply Nat2Z.inj in LE. clear - LE EQ. revert y LE EQ. induction x as [|a x IHx]; intros [|b y] LE EQ; try discriminate; [now split|].
        cbn [app] in EQ. injection EQ as -> EQ. cbn [length] in LE. injection LE as LE. destruct (IHx y LE EQ) as [-> ->]. now split. }
      f_equal. apply (IH (concat c1)); [exact H1|]. now rewrite EC.
Qed.
Theorem C85_debug_panics : forall file level w t odd calls, let ch := si_channels (wav_info w) in
  Forall is_byte file -> wav_load Debug file = Ok (Some w) -> wav_pcm w = pcm_bytes t ++ odd -> (length odd <= 1)%nat -> Forall is_i16 t ->
  1 <= ch <= 341 -> 3 * ch <= zlen t < 2 ^ 31 -> 0 <= level -> cut_into (ch * (1024 / ch)) (map restore t) calls ->
  (panics (wav_to_adhoc Debug file level) <->
   exists i j, (i < length calls)%nat /\ (j < Z.to_nat ch)%nat /\ only_fifteen (errors (channel_calls level ch calls j) i)).
Proof.
  intros file level [info pcm cur] t odd calls ch HB EL EP Ho Ht Hc Hn Hlv HC. pose proof (load_cursor _ _ _ EL) as E0.
  cbn [wav_info wav_pcm wav_cursor] in *. subst pcm cur.
  pose proof (convert_is Debug file level info t odd EL Ht Ho ltac:(fold ch; lia)) as ET. fold ch in ET.
  destruct (chunk_pos ch ltac:(lia)) as [CP _].
  assert (LF : (length (map restore t) <= S (S (length (pcm_bytes t ++ odd))))%nat).
  { rewrite map_length, app_length. pose proof (zlen_pcm t). unfold zlen in *. lia. }
  assert (EC : calls = cut (S (S (length (pcm_bytes t ++ odd)))) (Z.to_nat (chunk ch)) (map restore t)).
  { apply (cut_unique (chunk ch) _ (map restore t)); [exact HC|]. rewrite <- (Z2Nat.id (chunk ch)) at 1 by lia. apply cut_is; [lia|exact LF]. }
  rewrite <- EC in ET.
  destruct (cut_recording ch (map restore t) (S (S (length (pcm_bytes t ++ odd))))) as [HR _]; [lia|rewrite zlen_map; lia|unfold zlen; lia|].
  rewrite <- EC in HR. pose proof (C32_debug_accepts info level calls Hlv HR) as D. cbv zeta in D. fold ch in D.
  assert (EE : (exists c1, encode_all Debug (new_codec info level) calls = Ok c1) \/ panics (wav_to_adhoc Debug file level)).
  { destruct (encode_all Debug (new_codec info level) calls) as [c1|r|] eqn:E; [left; eauto|right; rewrite ET; eexists; reflexivity|].
    exfalso. assert (SZ : zlen file < 2 ^ 63 \/ 2 ^ 63 <= zlen file) by lia. destruct SZ as [SZ|SZ].
    - assert (HB2 : Forall (fun b => 0 <= b < 256) file) by (eapply Forall_impl; [|exact HB]; unfold is_byte; intros; lia).
      destruct (C64_tool_ends Debug file level HB2 SZ) as [X _]. rewrite ET in X. destruct X as [[a X]|[a X]]; discriminate X.
    - exfalso. revert EL. intros EL. destruct (load_cases Debug file HB) as [[_ [r E']]|[[pos HA]|(_ & _ & E')]]; try congruence.
      destruct (load_accepted Debug file pos HB HA) as (info' & t' & odd' & E' & _ & _ & Ez & _ & Ho'). rewrite EL in E'.
      assert (PP : pcm_bytes t ++ odd = pcm_bytes t' ++ odd') by congruence. apply (f_equal (@zlen Z)) in PP. rewrite !zlen_app, !zlen_pcm in PP.
      unfold samples_in in Ez. destruct HA as (_ & _ & HP & _). pose proof (zlen_nonneg odd). pose proof (zlen_nonneg odd').
      assert (zlen odd <= 1 /\ zlen odd' <= 1) by (unfold zlen; lia). change (2 ^ 63) with 9223372036854775808 in SZ. change (2 ^ 31) with 2147483648 in Hn.
      destruct (sample_bits file =? 8); [lia|]. pose proof (Z.div_mod (zlen file - (Z.of_nat pos + 8)) 2 ltac:(lia)). pose proof (Z.mod_pos_bound (zlen file - (Z.of_nat pos + 8)) 2 ltac:(lia)). lia. }
  split.
  - intros [r HP]. apply NNPP. intros N.
    assert (A : exists c1, encode_all Debug (new_codec info level) calls = Ok c1).
    { apply D. intros i j Hi Hj. cbv zeta. destruct (classic (errors (channel_calls level ch calls j) i = [])) as [X|X]; [now left|right].
      apply NNPP. intros Y. apply N. exists i, j. repeat split; auto. intros k Hk. apply Z.nle_gt. intros Z. apply Y. eauto. }
    destruct A as [c1 E]. rewrite ET, E in HP. discriminate HP.
  - intros (i & j & Hi & Hj & X & Y). destruct EE as [E|E]; [|exact E]. exfalso. pose proof (proj1 D E i j Hi Hj) as F. cbv zeta in F.
    destruct F as [F|(k & Hk & F)]; [contradiction|]. specialize (Y k Hk). lia.
Qed.
Print Assumptions C85_debug_panics.
(** Everywhere else both builds agree. *)
Theorem C85_builds_agree : forall file level, Forall is_byte file ->
  (forall pos, accepted file pos -> ~ (1 <= channels_in file <= 341 /\ 3 * channels_in file <= samples_in file pos)) ->
  wav_to_adhoc Debug file level = wav_to_adhoc Release file level \/
  panics (wav_to_adhoc Debug file level) /\ panics (wav_to_adhoc Release file level).
Proof.
  intros file level HB HN.
  destruct (load_cases Debug file HB) as [[LT _]|[[pos HA]|(NL & NA & _)]].
  - right. split; apply C85_panics; auto.
  - assert (D : too_short (channels_in file) (samples_in file pos) \/ ~ too_short (channels_in file) (samples_in file pos)) by (unfold too_short; lia).
    destruct D as [D|D]; [right; split; apply C85_panics; eauto|left]. specialize (HN pos HA). destruct (channels_range file HB) as [CR _].
    destruct (load_accepted Debug file pos HB HA) as (info & t & odd & E1 & EC & _ & Ez & Ht & Ho).
    assert (E2 : wav_load Release file = Ok (Some (mkWav info (pcm_bytes t ++ odd) 0))).
    { destruct HA as (A1 & A2 & A3 & _). rewrite <- E1, !(load_tag _ file pos) by assumption. reflexivity. }
    destruct (Z.lt_ge_cases 1024 (channels_in file)) as [W|W].
    + rewrite !(convert_wide _ file level info t odd); auto; lia.
    + assert (Z0 : zlen t = 0). { pose proof (zlen_nonneg t). unfold too_short in D. lia. }
      assert (t = []) as -> by (destruct t; [reflexivity|rewrite zlen_cons in Z0; pose proof (zlen_nonneg t); lia]).
      assert (C1 : 1 <= si_channels info <= 1024). { unfold too_short in D. lia. }
      rewrite (convert_is Debug file level info [] odd), (convert_is Release file level info [] odd) by auto. cbn [map]. rewrite cut_nil. reflexivity.
  - left. assert (X : forall p, wav_to_adhoc p file level = Ok None) by (intros p; apply C85_rejects; auto). now rewrite !X.
Qed.
Print Assumptions C85_builds_agree.

(** ** The hypotheses can be met *)
(** Bytes of a header with [ch] channels and [bits] bits, then [n] bytes of samples. *)
Definition some_wav (ch bits : Z) (n : nat) : list Z :=
  [82; 73; 70; 70] ++ digits 4 0 ++ [87; 65; 86; 69; 102; 109; 116; 32] ++ digits 4 16 ++ digits 2 1 ++ digits 2 ch
  ++ digits 4 8000 ++ digits 4 0 ++ digits 2 0 ++ digits 2 bits ++ data_tag ++ digits 4 0 ++ repeat 3 n.
Example C85_applies :
  accepted (some_wav 2 16 300) 36 /\ samples_in (some_wav 2 16 300) 36 = 150 /\ ~ too_short (channels_in (some_wav 2 16 300)) 150 /\
  accepted (some_wav 200 8 300) 36 /\ samples_in (some_wav 200 8 300) 36 = 300 /\ too_short (channels_in (some_wav 200 8 300)) 300 /\
  channels_in (some_wav 65535 8 300) = 2 ^ 32 - 1 /\ late_tag (repeat 0 250 ++ data_tag ++ repeat 0 100).
Proof.
  assert (F2 : first_tag (some_wav 2 16 300) 36).
  { split; [reflexivity|]. intros i Hi E. do 36 (destruct i as [|i]; [discriminate E|]). lia. }
  assert (F3 : first_tag (some_wav 200 8 300) 36).
  { split; [reflexivity|]. intros i Hi E. do 36 (destruct i as [|i]; [discriminate E|]). lia. }
  split; [split; [vm_compute; discriminate|]; split; [exact F2|]; split; [lia|]; split; [reflexivity|right; reflexivity]|].
  split; [reflexivity|]. split; [change (channels_in (some_wav 2 16 300)) with 2; unfold too_short; lia|].
  split; [split; [vm_compute; discriminate|]; split; [exact F3|]; split; [lia|]; split; [reflexivity|left; reflexivity]|].
  split; [reflexivity|]. split; [change (channels_in (some_wav 200 8 300)) with 200; unfold too_short; lia|].
  split; [reflexivity|]. split; [vm_compute; discriminate|]. exists 250%nat. split; [|lia]. split; [reflexivity|].
  intros i Hi E. do 250 (destruct i as [|i]; [discriminate E|]). lia.
Qed.
Example C85_debug_applies : exists w t odd calls, wav_load Debug (some_wav 2 16 300) = Ok (Some w) /\ wav_pcm w = pcm_bytes t ++ odd /\
  (length odd <= 1)%nat /\ Forall is_i16 t /\ si_channels (wav_info w) = 2 /\ zlen t = 150 /\ cut_into (2 * (1024 / 2)) (map restore t) calls.
Proof.
  destruct C85_applies as (A & N & _). destruct (load_accepted Debug (some_wav 2 16 300) 36) as (info & t & odd & E & EC & _ & Ez & Ht & Ho); [|exact A|].
  { apply Forall_forall. intros x Hx. assert (B : forallb (fun b => (0 <=? b) && (b <=? 255)) (some_wav 2 16 300) = true) by reflexivity.
    rewrite forallb_forall in B. apply B in Hx. apply andb_prop in Hx. unfold is_byte. lia. }
  exists (mkWav info (pcm_bytes t ++ odd) 0), t, odd, (cut (length (map restore t)) 1024 (map restore t)).
  cbn [wav_info wav_pcm]. split; [exact E|]. split; [reflexivity|]. split; [exact Ho|]. split; [exact Ht|]. split; [exact EC|].
  split; [congruence|]. apply (cut_is 1024); lia.
Qed.
