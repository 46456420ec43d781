(** * Property C96: debug and release builds *)
From Coq Require Import ZArith List Bool Lia.
From Verif Require Import Model.Base Model.F32 Model.Sample Model.BitStream Model.Frame Model.Adhoc Model.Bincode Model.Wav Model.RingBuffer Model.LinkedList
  Model.LruCache Model.Resample Model.Cli Model.CliFiles Model.Examples Model.Narrow Model.Resource
  Spec.Targets Spec.Collections Spec.Recording Spec.Profiles Proofs.BaseFacts Proofs.ProfileFacts Properties.CollectionProps Properties.Demo.
Import ListNotations.
Open Scope Z_scope.

(** ** Programs *)
Lemma perform_same L L' c k :
  (forall i, lib_set_info L c i = lib_set_info L' c i) ->
  (forall x, same_unless_overflow (lib_encode L c x) (lib_encode L' c x)) -> (forall x, same_unless_overflow (lib_decode L c x) (lib_decode L' c x)) ->
  (forall x, same_unless_overflow (lib_seek L c x) (lib_seek L' c x)) -> same_unless_overflow (lib_count L c) (lib_count L' c) ->
  (forall x, same_unless_overflow (lib_load L x) (lib_load L' x)) ->
  same_unless_overflow (perform L c k) (perform L' c k).
Proof. intros H0 H1 H2 H3 H4 H5. destruct k; cbn [perform]; rewrite ?H0; agree. Qed.

Lemma talk_same L L' M M' cl :
  (forall c k, same_unless_overflow (perform L c k) (perform L' c k)) ->
  (forall v k, same_unless_overflow (wperform Debug M v k) (wperform Release M' v k)) ->
  forall cs vs, let d := talk Debug L M cl cs vs in let r := talk Release L' M' cl cs vs in
  d = r \/ snd d = Panic ArithmeticOverflow /\ exists more, fst r = fst d ++ more.
Proof.
  intros HL HM. induction cl as [|i k next IH|i k next IH|i next IH|i info next IH]; intros cs vs; cbn [talk]; [now left| | |apply IH|apply IH].
  - destruct (HL (cs i) k) as [-> | ->]; [|right; split; [reflexivity|]; eexists; reflexivity].
    destruct (perform L' (cs i) k) as [[c r]|e|]; [|now left|now left].
    specialize (IH r (set cs i c) vs). cbv zeta in IH.
    destruct (talk Debug L M (next r) _ _) as [rs o], (talk Release L' M' (next r) _ _) as [rs' o']. cbn [fst snd] in *.
    destruct IH as [E|[E [m E']]]; [left; congruence|right]. split; [exact E|]. exists m. now rewrite E'.
  - destruct (HM (vs i) k) as [-> | ->]; [|right; split; [reflexivity|]; eexists; reflexivity].
    destruct (wperform Release M' (vs i) k) as [[v r]|e|]; [|now left|now left].
    specialize (IH r cs (set vs i v)). cbv zeta in IH.
    destruct (talk Debug L M (next r) _ _) as [rs o], (talk Release L' M' (next r) _ _) as [rs' o']. cbn [fst snd] in *.
    destruct IH as [E|[E [m E']]]; [left; congruence|right]. split; [exact E|]. exists m. now rewrite E'.
Qed.

(** Whatever a program does with any number of AdhocCodecs and WavCodecs, a debug build of it gets the same answers and ends the
    same way as a release build, unless it stops at an operation that overflows; up to there the answers are the same. *)
Theorem C96_program : forall cl,
  let d := session Debug (ideal Debug) (wideal Debug) cl in let r := session Release (ideal Release) (wideal Release) cl in
  d = r \/ snd d = Panic ArithmeticOverflow /\ exists more, fst r = fst d ++ more.
Proof.
  intros cl. apply talk_same.
  - intros c k. apply perform_same; cbn [ideal lib_set_info lib_encode lib_decode lib_seek lib_count lib_load]; intros; try reflexivity; agree.
  - intros v k. destruct k; cbn [wperform wideal wlib_encode wlib_decode wlib_load]; agree.
Qed.
Print Assumptions C96_program.

(** The same on every target, whatever its width of [usize] and its memory. *)
Theorem C96_targets : forall w alloc cl,
  let d := session Debug (on w alloc Debug) (won w alloc Debug) cl in let r := session Release (on w alloc Release) (won w alloc Release) cl in
  d = r \/ snd d = Panic ArithmeticOverflow /\ exists more, fst r = fst d ++ more.
Proof.
  intros w alloc cl. apply talk_same.
  - intros c k. apply perform_same; cbn [on lib_set_info lib_encode lib_decode lib_seek lib_count lib_load]; intros; try reflexivity; agree.
  - intros v k. destruct k; cbn [wperform won wlib_encode wlib_decode wlib_load]; agree.
Qed.
Print Assumptions C96_targets.

(** ** Files, streams and the tool *)
Theorem C96_conversions : forall file level,
  same_unless_overflow (wav_to_adhoc Debug file level) (wav_to_adhoc Release file level) /\
  same_unless_overflow (adhoc_to_wav Debug file) (adhoc_to_wav Release file).
Proof. intros. split; agree. Qed.
Print Assumptions C96_conversions.
(** A whole run of the tool on many files, under every interleaving: the two builds leave the same files and jobs, or they were in the
    same state when some job converted a file whose conversion overflows in the debug build. *)
Definition conversion (p : profile) (level : Z) (k : kind) (file : bytes) : outcome (option bytes) :=
  match k with WavToAdhoc => wav_to_adhoc p file level | AdhocToWav => adhoc_to_wav p file end.
Lemma compute_same level k b : compute Debug level k b = compute Release level k b \/ conversion Debug level k b = Panic ArithmeticOverflow.
Proof.
  destruct k; cbn [compute conversion].
  - destruct (C96_conversions b level) as [[-> | ->] _]; auto.
  - unfold adhoc_to_wav. assert (L : same_unless_overflow (ad_load Debug b) (ad_load Release b)) by agree.
    destruct L as [-> | ->]; [|now right]. destruct (ad_load Release b) as [[c|]| |]; cbn [bind]; auto.
    destruct (ad_info c) as [info| |]; cbn [bind]; auto.
    assert (W : same_unless_overflow (adhoc_to_wav_loop Debug (decode_rounds c) c (wav_new info) CLI_BUFFER)
                                     (adhoc_to_wav_loop Release (decode_rounds c) c (wav_new info) CLI_BUFFER)) by agree.
    destruct W as [-> | ->]; [|now right]. destruct (adhoc_to_wav_loop Release _ _ _ _) as [w| |]; cbn [bind]; auto.
    assert (S : same_unless_overflow (wav_save Debug w) (wav_save Release w)) by agree.
    destruct S as [-> | ->]; [now left|now right].
Qed.
Theorem C96_batch : forall level dir schedule f js,
  run_jobs Debug level dir schedule f js = run_jobs Release level dir schedule f js \/
  exists before i after f' js' input k ks file,
    schedule = before ++ i :: after /\
    run_jobs Debug level dir before f js = (f', js') /\ run_jobs Release level dir before f js = (f', js') /\
    nth_error js' i = Some (mkJob input (Todo (k :: ks))) /\ f' input = Some file /\
    conversion Debug level k file = Panic ArithmeticOverflow.
Proof.
  intros level dir schedule. induction schedule as [|i schedule IH]; intros f js; [now left|].
  assert (step : (forall j, nth_error js i = Some j -> step_job Debug level dir f j = step_job Release level dir f j) \/
    exists input k ks file, nth_error js i = Some (mkJob input (Todo (k :: ks))) /\ f input = Some file /\
      conversion Debug level k file = Panic ArithmeticOverflow).
  { destruct (nth_error js i) as [[input st]|]; [|left; intros; discriminate].
    destruct st as [[|k ks]|out save ks|out save ks]; try (left; intros j E; injection E as <-; reflexivity).
    destruct (f input) as [file|] eqn:Ef.
    - destruct (compute_same level k file) as [E|E]; [left|right; eauto 10].
      intros j Ej. injection Ej as <-. unfold step_job. cbn [jb_state jb_input]. now rewrite Ef, E.
    - left. intros j Ej. injection Ej as <-. unfold step_job. cbn [jb_state jb_input]. now rewrite Ef. }
  destruct step as [E|(input & k & ks & file & E1 & E2 & E3)].
  - cbn [run_jobs]. destruct (nth_error js i) as [j|] eqn:Ej.
    + specialize (E j eq_refl). rewrite E. destruct (step_job Release level dir f j) as [f1 j1] eqn:Es.
      destruct (IH f1 (replace_nth i js j1)) as [H|(before & i' & after & f' & js' & input & k & ks & file & -> & H1 & H2 & H3)]; [now left|right].
      exists (i :: before), i', after, f', js', input, k, ks, file. split; [reflexivity|]. cbn [run_jobs]. rewrite Ej, E, Es. auto.
    + destruct (IH f js) as [H|(before & i' & after & f' & js' & input & k & ks & file & -> & H1 & H2 & H3)]; [now left|right].
      exists (i :: before), i', after, f', js', input, k, ks, file. split; [reflexivity|]. cbn [run_jobs]. rewrite Ej. auto.
  - right. exists [], i, schedule, f, js, input, k, ks, file. repeat split; auto.
Qed.
Print Assumptions C96_batch.
Theorem C96_streams : forall s bytes pos script w k,
  same_unless_overflow (ad_load_from Debug s) (ad_load_from Release s) /\
  same_unless_overflow (wav_load_from Debug bytes pos script) (wav_load_from Release bytes pos script) /\
  same_unless_overflow (wav_save_into Debug w k) (wav_save_into Release w k).
Proof. intros. repeat split; agree. Qed.
Print Assumptions C96_streams.

Lemma compress_loop_same fuel : forall w c b, same_unless_overflow (compress_loop Debug fuel w c b) (compress_loop Release fuel w c b).
Proof. induction fuel as [|fuel IH]; intros; cbn [compress_loop]; agree. Qed.
Lemma decompress_loop_same fuel : forall c w b, same_unless_overflow (decompress_loop Debug fuel c w b) (decompress_loop Release fuel c w b).
Proof. induction fuel as [|fuel IH]; intros; cbn [decompress_loop]; agree. Qed.
(** The example programs leave the same files. *)
Theorem C96_examples : forall f,
  (compress Debug f = compress Release f \/ snd (compress Debug f) = Panic ArithmeticOverflow) /\
  (decompress Debug f = decompress Release f \/ snd (decompress Debug f) = Panic ArithmeticOverflow).
Proof.
  intros f. split.
  - unfold compress. destruct (f TAUNT_WAV) as [b|]; [|now left].
    destruct (same_wav_load b) as [-> | ->]; [|now right]. destruct (wav_load Release b) as [[w|]| |]; try (now left).
    match goal with |- context [compress_loop Debug ?n ?w ?c ?b] => destruct (compress_loop_same n w c b) as [-> | ->]; [now left|now right] end.
  - unfold decompress. destruct (f TAUNT_ADHOC) as [b|]; [|now left].
    assert (S : same_unless_overflow (oc <- ad_load Debug b ;; c <- expect oc ;; info <- ad_info c ;; decompress_loop Debug (decode_rounds c) c (wav_new info) EXAMPLE_BUFFER)
      (oc <- ad_load Release b ;; c <- expect oc ;; info <- ad_info c ;; decompress_loop Release (decode_rounds c) c (wav_new info) EXAMPLE_BUFFER)).
    { pose proof decompress_loop_same. agree. }
    destruct S as [-> | ->]; [|now right].
    match goal with |- context [match ?m with Ok _ => _ | _ => _ end] => destruct m as [w| |] end; try (now left).
    cbv zeta. destruct (same_wav_save w) as [-> | ->]; [now left|now right].
Qed.
Print Assumptions C96_examples.

(** ** Collections *)
Theorem C96_ring : forall (T : Type) (r : ring T) ops, same_unless_overflow (ring_run Debug r ops) (ring_run Release r ops).
Proof.
  intros T r ops. revert r. induction ops as [|op ops IH]; intros r; cbn [ring_run]; [apply same_refl|].
  apply same_bind; [destruct op; cbn [ring_do]; agree|]. intros [r' a]. apply same_bind; [apply IH|]. intros. apply same_refl.
Qed.
Print Assumptions C96_ring.
Theorem C96_list : forall (T : Type) (l : llist T) op, same_unless_overflow (list_do Debug l op) (list_do Release l op).
Proof. intros T l op. destruct op; cbn [list_do]; agree. Qed.
Print Assumptions C96_list.
Theorem C96_cache : forall (K V : Type) eqb (c : lru K V) ops, same_unless_overflow (lru_run eqb Debug c ops) (lru_run eqb Release c ops).
Proof.
  intros K V eqb c ops. revert c. induction ops as [|op ops IH]; intros c; cbn [lru_run]; [apply same_refl|].
  apply same_bind; [destruct op; cbn [lru_do]; agree|]. intros [c' a]. apply same_bind; [apply IH|]. intros. apply same_refl.
Qed.
Print Assumptions C96_cache.
(** Bit streams and resampling. *)
Theorem C96_tools : forall s v n e input len out,
  same_unless_overflow (write_bits Debug s v n) (write_bits Release s v n) /\ same_unless_overflow (read_bits Debug s n) (read_bits Release s n) /\
  same_unless_overflow (write_compressed Debug s e v) (write_compressed Release s e v) /\ same_unless_overflow (read_compressed Debug s e) (read_compressed Release s e) /\
  same_unless_overflow (write_compressed_capped Debug s e v) (write_compressed_capped Release s e v) /\
  same_unless_overflow (read_compressed_capped Debug s e) (read_compressed_capped Release s e) /\
  same_unless_overflow (scale_signal Debug input len out) (scale_signal Release input len out).
Proof. intros. repeat split; agree. Qed.
Print Assumptions C96_tools.

(** A program that encodes, saves, loads what it saved into a second codec and decodes it: both builds go to the end and get the
    same six answers.  With a square wave at the highest frequency the debug build stops after the first answer, where the release
    build goes on. *)
Definition copying (pcm : list f32) : client :=
  Adhoc 0 (SetInfo mono) (fun _ => Adhoc 0 (Encode pcm) (fun _ => Adhoc 0 Save (fun r => match r with
    | File f => Adhoc 1 (LoadFile f) (fun _ => Adhoc 1 (Decode (repeat f0 4)) (fun r => match r with
        | Decoded b (Some _) => Wave 0 (WEncode b) (fun _ => Stop)
        | _ => Stop
        end))
    | _ => Stop
    end))).
Example C96_applies :
  let quiet := copying (map milli [0; 100; 200; 250]) in let loud := copying (map f32_of_Z [1; -1; 1; -1]) in
  (snd (session Debug (ideal Debug) (wideal Debug) quiet) = Ok tt /\ length (fst (session Debug (ideal Debug) (wideal Debug) quiet)) = 6%nat /\
   session Debug (ideal Debug) (wideal Debug) quiet = session Release (ideal Release) (wideal Release) quiet) /\
  (snd (session Debug (ideal Debug) (wideal Debug) loud) = Panic ArithmeticOverflow /\
   length (fst (session Debug (ideal Debug) (wideal Debug) loud)) = 1%nat) /\
  snd (session Release (ideal Release) (wideal Release) loud) = Ok tt /\ length (fst (session Release (ideal Release) (wideal Release) loud)) = 6%nat.
Proof.
  assert (E : snd (session Debug (ideal Debug) (wideal Debug) (copying (map milli [0; 100; 200; 250]))) = Ok tt) by (vm_compute; reflexivity).
  cbv zeta. split; [split; [exact E|split; [vm_compute; reflexivity|]]|split; split; vm_compute; reflexivity].
  destruct (C96_program (copying (map milli [0; 100; 200; 250]))) as [H|[H _]]; [exact H|]. rewrite E in H. discriminate H.
Qed.
