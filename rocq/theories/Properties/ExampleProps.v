(** * Property C86: the documented example programs *)
From Coq Require Import ZArith List Bool Reals Lia.
From Flocq Require Import Core IEEE754.BinarySingleNaN.
From Verif Require Import Model.Base Model.F32 Model.Sample Model.Frame Model.Adhoc Model.Bincode Model.Wav Model.Cli Model.CliFiles Model.Examples
  Spec.Recording Spec.Frames Spec.Files Spec.Wave Spec.Convertible
  Proofs.BaseFacts Proofs.WavFacts Proofs.WavFile Properties.WavProps Properties.CliProps Properties.ConvertibleProps Properties.RequantiseProps.
Import ListNotations.
Open Scope Z_scope.

(** ** The examples are the tool's conversions *)
Lemma compress_loop_is p fuel : forall w c buf, compress_loop p fuel w c buf = wav_to_adhoc_loop p fuel w c buf.
Proof. reflexivity. Qed.
Lemma decompress_loop_is p fuel : forall c w buf, decompress_loop p fuel c w buf = adhoc_to_wav_loop p fuel c w buf.
Proof. reflexivity. Qed.
Lemma compress_is p f b : f TAUNT_WAV = Some b ->
  compress p f = match wav_to_adhoc p b 7 with
                 | Ok (Some mid) => (put_file f TAUNT_ADHOC mid, Ok tt)
                 | Ok None => (f, Panic ExpectFailed)
                 | Panic r => (f, Panic r)
                 | OutOfFuel => (f, OutOfFuel)
                 end.
Proof.
  intros E. unfold compress, wav_to_adhoc. rewrite E. destruct (wav_load p b) as [[w|]| |]; cbn [bind]; auto.
  rewrite compress_loop_is. change EXAMPLE_BUFFER with CLI_BUFFER. destruct (wav_to_adhoc_loop _ _ _ _ _) as [c| |]; cbn [bind]; auto.
Qed.
Lemma decompress_ok p f b out : f TAUNT_ADHOC = Some b -> adhoc_to_wav p b = Ok (Some out) ->
  decompress p f = (put_file (put_file f TAUNT_DECOMPRESSED []) TAUNT_DECOMPRESSED out, Ok tt).
Proof.
  intros E H. unfold decompress. rewrite E. unfold adhoc_to_wav in H. inv_bind H. destruct a as [c|]; [|discriminate H].
  inv_bind H. inv_bind H. inv_bind H. assert (a1 = out) as -> by congruence.
  rewrite Ha. cbn [bind expect]. rewrite Ha0. cbn [bind]. rewrite decompress_loop_is. change EXAMPLE_BUFFER with CLI_BUFFER. rewrite Ha1. cbv zeta. rewrite Ha2. reflexivity.
Qed.
Lemma put_same f p b : put_file f p b p = Some b.
Proof. unfold put_file, path_eqb. assert (E : forall l : list Z, list_eqb l l = true) by (induction l as [|x l IH]; cbn; [reflexivity|now rewrite Z.eqb_refl, IH]). now rewrite !E. Qed.
Lemma list_eqb_sound : forall a b : list Z, list_eqb a b = true -> a = b.
Proof. induction a as [|x a IH]; intros [|y b] H; try discriminate; [reflexivity|]. cbn in H. apply andb_prop in H. destruct H as [H1 H2]. apply Z.eqb_eq in H1. f_equal; auto. Qed.
Lemma put_other f p b q : p <> q -> put_file f p b q = f q.
Proof.
  intros N. unfold put_file, path_eqb. destruct (list_eqb (fst p) (fst q)) eqn:A; cbn [andb]; auto. destruct (list_eqb (snd p) (snd q)) eqn:B; auto.
  exfalso. apply N. destruct p, q. cbn [fst snd] in *. now rewrite (list_eqb_sound _ _ A), (list_eqb_sound _ _ B).
Qed.

(** ** C86 *)
(** What the first example does in a release build, for every content of the file system: it panics exactly if
    there is no taunt.wav, or the reader does not accept it, or it has no channels or too few blocks; a run that panics leaves
    every file as it was, one that does not changes taunt.adhoc only. *)
Definition convertible (b : list Z) : Prop := exists pos, accepted b pos /\ ~ too_short (channels_in b) (samples_in b pos).
Theorem C86_compress : forall f, (forall b, f TAUNT_WAV = Some b -> Forall is_byte b /\ forall pos, accepted b pos -> samples_in b pos < 2 ^ 31) ->
  let '(f', o) := compress Release f in
  (o = Ok tt <-> exists b, f TAUNT_WAV = Some b /\ convertible b) /\
  (o = Ok tt \/ panics o) /\
  (panics o -> f' = f) /\
  (forall q, q <> TAUNT_ADHOC -> f' q = f q).
Proof.
  intros f HF. destruct (f TAUNT_WAV) as [b|] eqn:EF.
  2:{ unfold compress. rewrite EF. split; [split; [discriminate|intros (b & E & _); discriminate E]|]. split; [right; eexists; reflexivity|]. split; auto. }
  destruct (HF b eq_refl) as [HB HN]. rewrite (compress_is Release f b EF).
  assert (D : (exists mid, wav_to_adhoc Release b 7 = Ok (Some mid)) /\ convertible b \/
              (wav_to_adhoc Release b 7 = Ok None \/ panics (wav_to_adhoc Release b 7)) /\ ~ convertible b).
  { destruct (load_cases Release b HB) as [[LT _]|[[pos HA]|(NL & NA & _)]].
    - right. split; [right; apply C85_panics; auto|]. intros (pos & (H1 & H2 & H3 & _) & _). destruct LT as (_ & pos' & T & G).
      assert (pos = pos'). { destruct H2 as [T1 N1], T as [T2 N2]. destruct (Nat.lt_trichotomy pos pos') as [L|[L|L]]; auto; exfalso; [now apply (N2 pos)|now apply (N1 pos')]. } lia.
    - assert (X : too_short (channels_in b) (samples_in b pos) \/ ~ too_short (channels_in b) (samples_in b pos)) by (unfold too_short; lia).
      destruct X as [X|X].
      + right. split; [right; apply C85_panics; eauto|]. intros (pos' & HA' & N). apply N.
        assert (pos = pos') as <-; [|exact X].
        { destruct HA as (_ & [T1 N1] & _), HA' as (_ & [T2 N2] & _). destruct (Nat.lt_trichotomy pos pos') as [L|[L|L]]; auto; exfalso; [now apply (N2 pos)|now apply (N1 pos')]. }
      + left. split; [|exists pos; auto]. destruct (C85_converts b pos 7 HB HA (HN pos HA) ltac:(lia) X) as (mid & out & E & _). eauto.
    - right. split; [left; apply C85_rejects; auto|]. intros (pos & HA & _). now apply (NA pos). }
  destruct D as [[[mid E] C]|[[E|[r E]] N]]; rewrite E.
  - split; [split; eauto|]. split; [auto|]. split; [intros [r X]; discriminate X|]. intros q Hq. apply put_other. congruence.
  - split; [split; [discriminate|]|]. { intros (b' & Eb & C). exfalso. apply N. congruence. }
    split; [right; eexists; reflexivity|]. split; auto.
  - split; [split; [discriminate|]|]. { intros (b' & Eb & C). exfalso. apply N. congruence. }
    split; [right; eexists; reflexivity|]. split; auto.
Qed.
Print Assumptions C86_compress.

(** The second example without the first: it panics and changes nothing. *)
Theorem C86_order : forall p f, f TAUNT_ADHOC = None -> decompress p f = (f, Panic ExpectFailed).
Proof. intros p f E. unfold decompress. now rewrite E. Qed.
Print Assumptions C86_order.

(** One after the other, in builds [p] and [r], for every taunt.wav of 1 to 341 channels with at least three blocks: both end; the result is a WAV file of the same
    format with every whole block, each sample at most 164 steps of 32767 off; nothing else but taunt.adhoc has changed. *)
Theorem C86_both : forall p r f b info t, f TAUNT_WAV = Some b -> readable p b info t ->
  exists f1 f2 t', compress p f = (f1, Ok tt) /\ decompress r f1 = (f2, Ok tt) /\
    f2 TAUNT_DECOMPRESSED = Some (canonical_header (si_rate info) (si_channels info) (2 * zlen t') ++ pcm_bytes t') /\
    Forall2 (fun a b => Z.abs (b - a) <= 164) (whole_blocks (si_channels info) t) t' /\
    (forall q, q <> TAUNT_ADHOC -> q <> TAUNT_DECOMPRESSED -> f2 q = f q).
Proof.
  intros p r f b info t EF HR. destruct (C50_lossy_levels p r b 7 info t HR ltac:(lia)) as (t' & (mid & E1 & E2) & F).
  assert (EC : compress p f = (put_file f TAUNT_ADHOC mid, Ok tt)) by (rewrite (compress_is p f b EF), E1; reflexivity).
  eexists _, _, t'. split; [exact EC|]. split; [eapply decompress_ok; [apply put_same|exact E2]|]. split; [apply put_same|]. split.
  - clear - F. induction F as [|x y l l' N F IH]; constructor; auto. unfold near in N. change (2 ^ Z.min 7 10) with 128 in N. lia.
  - intros q H1 H2. rewrite !put_other by congruence. reflexivity.
Qed.
Print Assumptions C86_both.

Example C86_applies : exists f, f TAUNT_WAV = Some demo_file /\ f TAUNT_ADHOC = None /\ readable Debug demo_file (mkInfo 44100 2) demo_track.
Proof. exists (put_file (fun _ => None) TAUNT_WAV demo_file). split; [apply put_same|]. split; [reflexivity|]. apply C50_applies. Qed.
Example C86_compress_applies : convertible (some_wav 2 16 300).
Proof. exists 36%nat. split; [apply C85_applies|]. assert (E : samples_in (some_wav 2 16 300) 36 = 150) by apply C85_applies. rewrite E. apply C85_applies. Qed.
