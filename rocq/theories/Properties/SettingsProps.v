(** * Property C100: which settings of a codec count

    [answers] (any calls of encode, decode, init and seek, with what they return) is in Properties/RateProps.v. *)
From Coq Require Import ZArith List Bool Lia.
From Flocq Require Import BinarySingleNaN.
From Verif Require Import Model.Base Model.F32 Model.Noise Model.Sample Model.BitStream Model.Frame Model.Adhoc Model.Bincode
  Spec.Recording Spec.Frames Proofs.BaseFacts Proofs.AnyState Properties.Demo Properties.RateProps.
Import ListNotations.
Open Scope Z_scope.

(** ** Specification *)
(** A call that configures a codec: with_info or set_info, with_compression_level, init. *)
Inductive setting := Format (i : stream_info) | Level (l : Z) | Init.
Definition apply_setting (c : adhoc) (s : setting) : adhoc :=
  match s with Format i => ad_set_info c i | Level l => ad_with_level c l | Init => ad_init c end.
(** Channel counts and levels are u32. *)
Definition setting_ok (s : setting) : Prop :=
  match s with Format i => 0 <= si_channels i < 2 ^ 32 | Level l => 0 <= l < 2 ^ 32 | Init => True end.
(** The last format and the last level given, if any. *)
Fixpoint last_format (ss : list setting) (d : option stream_info) : option stream_info :=
  match ss with [] => d | Format i :: ss => last_format ss (Some i) | _ :: ss => last_format ss d end.
Fixpoint last_volume (ss : list setting) (d : option Z) : option Z :=
  match ss with [] => d | Level l :: ss => last_volume ss (Some l) | _ :: ss => last_volume ss d end.

(** ** Lemmas *)
Definition formatted (f : option stream_info) (c : adhoc) : adhoc := match f with Some i => ad_set_info c i | None => c end.
Definition levelled (v : option Z) (c : adhoc) : adhoc := match v with Some l => ad_with_level c l | None => c end.
Definition configured (f : option stream_info) (v : option Z) : adhoc := levelled v (formatted f ad_new).
Lemma resize_nil {A} n (a : A) : 0 <= n -> resize [] n a = repeat a (Z.to_nat n).
Proof. intros H. unfold resize. change (zlen (@nil A)) with 0. destruct (Z.leb_spec 0 n); [|lia]. cbn [app length]. f_equal. lia. Qed.
Lemma firstn_repeat {A} (a : A) n m : (n <= m)%nat -> firstn n (repeat a m) = repeat a n.
Proof. revert m. induction n as [|n IH]; intros [|m] H; cbn; auto; [lia|]. f_equal. apply IH. lia. Qed.
Lemma resize_repeat {A} n m (a : A) : 0 <= n -> 0 <= m -> resize (repeat a (Z.to_nat m)) n a = repeat a (Z.to_nat n).
Proof.
  intros Hn Hm. unfold resize, zlen. rewrite repeat_length. destruct (Z.leb_spec (Z.of_nat (Z.to_nat m)) n).
  - rewrite <- repeat_app. f_equal. lia.
  - apply firstn_repeat. lia.
Qed.
Lemma init_repeat n : map fc_init (repeat fc_new n) = repeat fc_new n.
Proof. induction n as [|n IH]; cbn [repeat map]; [reflexivity|]. now rewrite IH. Qed.
Lemma apply_configured s f v : setting_ok s -> (forall i, f = Some i -> 0 <= si_channels i) ->
  apply_setting (configured f v) s = configured (last_format [s] f) (last_volume [s] v).
Proof.
  intros Hs Hf. destruct s as [i|l|]; cbn [apply_setting last_format last_volume setting_ok] in *.
  - unfold configured, levelled, formatted, ad_with_level, ad_set_info, ad_new.
    destruct f as [j|]; destruct v as [l|]; cbn [ad_headers ad_channels ad_stream ad_level ad_scale ad_inv_scale ad_seq as_stream]; auto;
      pose proof (Hf j eq_refl); rewrite (resize_nil (si_channels j)), resize_repeat, resize_nil by lia; reflexivity.
  - unfold configured, levelled, ad_with_level. destruct v as [l'|]; reflexivity.
  - unfold configured, levelled, formatted, ad_with_level, ad_set_info, ad_init, ad_new.
    destruct f as [j|]; destruct v as [l|]; cbn [ad_headers ad_channels ad_stream ad_level ad_scale ad_inv_scale ad_seq as_stream as_info map]; auto;
      pose proof (Hf j eq_refl); rewrite (resize_nil (si_channels j)) by lia; rewrite init_repeat; reflexivity.
Qed.
Lemma settings_configured ss : forall f v, Forall setting_ok ss -> (forall i, f = Some i -> 0 <= si_channels i) ->
  fold_left apply_setting ss (configured f v) = configured (last_format ss f) (last_volume ss v).
Proof.
  induction ss as [|s ss IH]; intros f v H Hf; [reflexivity|]. inversion H as [|? ? Hs HS]; subst. cbn [fold_left].
  rewrite apply_configured by assumption. destruct s as [i|l|]; cbn [last_format last_volume] in *; apply IH; auto.
  intros j E. injection E as <-. cbn [setting_ok] in Hs. lia.
Qed.
Lemma f1_eq : f32_of_Z (Z.shiftl 1 0) = f1 /\ fdiv f1 f1 = f1.
Proof. split; apply B2SF_inj; vm_compute; reflexivity. Qed.
Lemma level_0 c : ad_level c = 0 -> ad_scale c = f1 -> ad_inv_scale c = f1 -> ad_with_level c 0 = c.
Proof.
  intros A B D. unfold ad_with_level. change (zclamp 0 0 10) with 0. destruct f1_eq as [E1 E2]. rewrite E1, E2.
  destruct c as [hs chs st lv sc iv sq]; cbn [ad_headers ad_channels ad_stream ad_level ad_scale ad_inv_scale ad_seq] in *. now subst.
Qed.

(** ** C100 *)
(** However a codec was configured before its first use, it is the codec made with the last format and the last level given,
    and with level 0 if none was given. *)
Theorem C100_last_settings_count : forall ss info, Forall setting_ok ss -> last_format ss None = Some info ->
  fold_left apply_setting ss ad_new =
  new_codec info (match last_volume ss None with Some l => l | None => 0 end).
Proof.
  intros ss info H HI. change ad_new with (configured None None) at 1. rewrite settings_configured by (auto; discriminate).
  rewrite HI. unfold configured, new_codec. cbn [formatted]. destruct (last_volume ss None) as [l|]; cbn [levelled]; [reflexivity|].
  symmetry. apply level_0; reflexivity.
Qed.
Print Assumptions C100_last_settings_count.
(** Without any format every call of encode, decode or info panics, whatever else was set. *)
Theorem C100_no_format : forall ss p pcm, Forall setting_ok ss -> last_format ss None = None ->
  let c := fold_left apply_setting ss ad_new in
  ad_encode p c pcm = Panic ExpectFailed /\ ad_decode p c pcm = Panic ExpectFailed /\ ad_info c = Panic ExpectFailed.
Proof.
  intros ss p pcm H HI c. assert (E : ad_info c = Panic ExpectFailed).
  { unfold c. change ad_new with (configured None None) at 1. rewrite settings_configured by (auto; discriminate). rewrite HI.
    unfold configured. cbn [formatted]. destruct (last_volume ss None); reflexivity. }
  unfold ad_encode, ad_decode. rewrite E. auto.
Qed.
Print Assumptions C100_no_format.
(** In the middle of any session a format with at least as many channels can be set and taken back without a trace. *)
Theorem C100_more_channels_and_back : forall p info level acts c rs other, 0 <= si_channels info ->
  answers p (new_codec info level) acts = Ok (c, rs) -> si_channels info <= si_channels other ->
  ad_set_info (ad_set_info c other) info = c.
Proof.
  intros p info level acts c rs other Hch H Ho. apply (answers_good p info) in H; [|now apply new_good].
  destruct H as (A & B & _). unfold ad_set_info. cbn [ad_headers ad_channels ad_stream ad_level ad_scale ad_inv_scale ad_seq as_stream].
  assert (E : resize (resize (ad_channels c) (si_channels other) fc_new) (si_channels info) fc_new = ad_channels c).
  { unfold resize at 2. rewrite B. destruct (Z.leb_spec (si_channels info) (si_channels other)); [|lia].
    assert (L : length (ad_channels c) = Z.to_nat (si_channels info)) by (unfold zlen in B; lia).
    unfold resize, zlen. rewrite app_length, repeat_length, L. destruct (Z.leb_spec (Z.of_nat (Z.to_nat (si_channels info) + (Z.to_nat (si_channels other) - Z.to_nat (si_channels info)))) (si_channels info)) as [Q|Q].
    - replace (Z.to_nat (si_channels other) - Z.to_nat (si_channels info))%nat with O by lia. cbn [repeat]. rewrite app_nil_r, Nat.add_0_r, Nat.sub_diag. apply app_nil_r.
    - rewrite firstn_app, L, Nat.sub_diag. cbn [firstn]. rewrite app_nil_r. apply firstn_all2. lia. }
  rewrite E. destruct c as [hs chs [i s] lv sc iv sq]; cbn [as_stream as_info ad_stream ad_headers ad_channels ad_level ad_scale ad_inv_scale ad_seq] in *. now subst.
Qed.
Print Assumptions C100_more_channels_and_back.

(** "The number of channels can be changed between two encode calls": no.  Eight blocks of one channel followed by three of
    two channels are all encoded without a complaint, but what comes back is the eight blocks on the left, noise and silence
    on the right, and three blocks of full-scale noise instead of the last three. *)
Definition heard (n : nat) (o : outcome adhoc) : option (list Z * option Z) :=
  match o with
  | Ok c => match ad_decode Debug (ad_init c) (repeat f0 n) with Ok (_, out, k) => Some (map truncate_sample out, k) | _ => None end
  | _ => None
  end.
Theorem C100_channels_midway_refuted :
  let one := map milli [100; 200; 110; 210; 120; 220; 130; 230] in
  let two := map milli [140; 240; 150; 250; 160; 260] in
  heard 8 (encode_all Debug (new_codec mono 0) [one]) =
    Some ([3276; 6553; 3603; 6881; 3932; 7207; 4259; 7536], Some 8) /\
  heard 6 (encode_all Debug (new_codec stereo 0) [two]) =
    Some ([4587; 7864; 4915; 8191; 5242; 8519], Some 6) /\
  heard 22 (c <- encode_all Debug (new_codec mono 0) [one] ;; encode_all Debug (ad_set_info c stereo) [two]) =
    Some ([3276; 5263; 6553; -23604; 3603; 26226; 6881; 0; 3932; 0; 7207; 0; 4259; 0; 7536; 0;
          17040; 0; 32764; 0; 32767; 0], Some 22).
Proof. cbv zeta. split; [vm_compute; reflexivity|]. split; vm_compute; reflexivity. Qed.
Print Assumptions C100_channels_midway_refuted.

(** The hypotheses are met: a codec made for one channel, given level 4, then two channels, then level 12. *)
Example C100_applies :
  let ss := [Format mono; Level 4; Init; Format stereo; Level 12] in
  Forall setting_ok ss /\ last_format ss None = Some stereo /\ last_volume ss None = Some 12 /\
  Forall setting_ok [Level 3; Init] /\ last_format [Level 3; Init] None = None /\
  (exists c rs, answers Debug (new_codec mono 0) [Feed (map milli [1; 2; 3])] = Ok (c, rs)) /\ si_channels mono <= si_channels stereo.
Proof.
  cbv zeta. split; [repeat constructor; cbn; lia|]. split; [reflexivity|]. split; [reflexivity|]. split; [repeat constructor; cbn; lia|].
  split; [reflexivity|]. split; [|cbn; lia].
  assert (H : match answers Debug (new_codec mono 0) [Feed (map milli [1; 2; 3])] with Ok _ => true | _ => false end = true) by (vm_compute; reflexivity).
  destruct (answers Debug (new_codec mono 0) [Feed (map milli [1; 2; 3])]) as [[c rs]| |] eqn:E; try discriminate. now exists c, rs.
Qed.
