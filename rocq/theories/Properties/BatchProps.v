(** * Properties C57, C58: which files the command line tool writes *)
From Coq Require Import ZArith Ascii String List Bool Lia.
From Verif Require Import Model.Base Model.F32 Model.Sample Model.Adhoc Model.Bincode Model.Wav Model.Cli Model.CliFiles
  Spec.Recording Spec.Files Spec.Wave Spec.Batch Spec.Unicode
  Proofs.BaseFacts Proofs.EncodeFacts Proofs.RoundTrip Proofs.WavFile Proofs.BatchFacts Proofs.CliFacts Proofs.UnicodeFacts Properties.WavProps Properties.CliProps.
Import ListNotations.
Open Scope Z_scope.

(** File names as text. *)
Fixpoint text (s : string) : bytes :=
  match s with
  | EmptyString => []
  | String c s => Z.of_nat (nat_of_ascii c) :: text s
  end.
Definition no_dot (s : bytes) : Prop := ~ In 46 s.
Definition occurs (w l : bytes) : Prop := exists a b, l = a ++ w ++ b.

(** ** Lemmas *)
Lemma prefix_spec w l : is_prefix w l = true <-> exists b, l = w ++ b.
Proof.
  revert l. induction w as [|x w IH]; intros l; cbn [is_prefix]; [split; [intros _; now exists l|auto]|].
  destruct l as [|y l]; [split; [discriminate|intros (b & E); discriminate E]|]. rewrite andb_true_iff, IH, Z.eqb_eq. split.
  - intros [-> (b & ->)]. now exists b.
  - intros (b & E). injection E as -> ->. eauto.
Qed.
Lemma contains_spec l w : contains l w = true <-> occurs w l.
Proof.
  induction l as [|y l IH]; cbn [contains].
  - rewrite orb_false_r, prefix_spec. split.
    + intros (b & E). now exists [], b.
    + intros (a & b & E). destruct a; [|discriminate E]. now exists b.
  - rewrite orb_true_iff, IH, prefix_spec. split.
    + intros [(b & E)|(a & b & ->)]; [now exists [], b|now exists (y :: a), b].
    + intros (a & b & E). destruct a as [|z a]; [left; now exists b|]. right. injection E as -> ->. now exists a, b.
Qed.
Lemma kinds_wav s : s <> [] -> kinds_of (s ++ text ".wav") = [WavToAdhoc].
Proof.
  intros H. change (text ".wav") with ([DOT] ++ EXT_WAV). unfold kinds_of.
  destruct (stem_dot s EXT_WAV H) as [_ ->]; [discriminate|vm_compute; intuition discriminate|reflexivity].
Qed.
Lemma kinds_adhoc s : s <> [] -> kinds_of (s ++ text ".adhoc") = [AdhocToWav].
Proof.
  intros H. change (text ".adhoc") with ([DOT] ++ EXT_ADHOC). unfold kinds_of.
  destruct (stem_dot s EXT_ADHOC H) as [_ ->]; [discriminate|vm_compute; intuition discriminate|reflexivity].
Qed.
Lemma plain_name s : s <> [] -> no_dot s -> is_file_name s = true /\ forall e, set_extension s e = s ++ [DOT] ++ e.
Proof.
  intros H D. assert (F : is_file_name s = true).
  { unfold is_file_name. apply negb_true_iff. apply orb_false_iff. split; [apply orb_false_iff; split|].
    - destruct s; [now elim H|reflexivity].
    - destruct (list_eqb s [DOT]) eqn:E; [|reflexivity]. apply list_eqb_eq in E. subst. exfalso. apply D. now left.
    - destruct (list_eqb s [DOT; DOT]) eqn:E; [|reflexivity]. apply list_eqb_eq in E. subst. exfalso. apply D. now left. }
  split; [exact F|]. intros e. unfold set_extension, file_stem. rewrite F, rsplit_none by exact D. reflexivity.
Qed.
Lemma name_inj s t a b : ~ In DOT a -> ~ In DOT b -> s ++ [DOT] ++ a = t ++ [DOT] ++ b -> s = t /\ a = b.
Proof. intros Ha Hb E. pose proof (rsplit_last s a Ha) as X. rewrite E, rsplit_last in X by exact Hb. now injection X as -> ->. Qed.
Lemma no_dot_ext : ~ In DOT EXT_WAV /\ ~ In DOT EXT_ADHOC.
Proof. split; vm_compute; intuition discriminate. Qed.
Lemma wav_not_adhoc (d e s t : bytes) : (d, s ++ text ".wav") <> (e, t ++ text ".adhoc").
Proof.
  intros E. injection E as _ E. change (text ".wav") with ([DOT] ++ EXT_WAV) in E. change (text ".adhoc") with ([DOT] ++ EXT_ADHOC) in E.
  destruct no_dot_ext. apply name_inj in E; auto. destruct E as [_ E]. discriminate E.
Qed.
Lemma out_wav k s : s <> [] -> no_dot s ->
  out_name k (s ++ text ".wav") = Some (s ++ match k with WavToAdhoc => text ".adhoc" | AdhocToWav => text ".wav" end).
Proof.
  intros H D. unfold out_name. change (text ".wav") with ([DOT] ++ EXT_WAV) at 1. destruct no_dot_ext as [N _].
  destruct (stem_dot s EXT_WAV H) as [-> _]; [discriminate|exact N|]. destruct (plain_name s H D) as [-> E]. rewrite E. destruct k; reflexivity.
Qed.
Lemma out_adhoc k s : s <> [] -> no_dot s ->
  out_name k (s ++ text ".adhoc") = Some (s ++ match k with WavToAdhoc => text ".adhoc" | AdhocToWav => text ".wav" end).
Proof.
  intros H D. unfold out_name. change (text ".adhoc") with ([DOT] ++ EXT_ADHOC) at 1. destruct no_dot_ext as [_ N].
  destruct (stem_dot s EXT_ADHOC H) as [-> _]; [discriminate|exact N|]. destruct (plain_name s H D) as [-> E]. rewrite E. destruct k; reflexivity.
Qed.
Lemma app_cons_assoc (s x : bytes) : s ++ text "." ++ x ++ text ".wav" = (s ++ [DOT] ++ x) ++ [DOT] ++ EXT_WAV.
Proof. rewrite <- !app_assoc. reflexivity. Qed.

(** ** C57: the name of the output *)
(** A name without further dots: only the extension changes. *)
Theorem C57_plain : forall dir d s, s <> [] -> no_dot s ->
  outputs dir (d, s ++ text ".wav") = [(dir, s ++ text ".adhoc")] /\
  outputs dir (d, s ++ text ".adhoc") = [(dir, s ++ text ".wav")].
Proof.
  intros dir d s H D. unfold outputs. cbn [snd]. rewrite kinds_wav, kinds_adhoc by exact H. cbn [flat_map].
  rewrite out_wav, out_adhoc by auto. auto.
Qed.
(** A further dot: the name is cut there, so "s.x.wav" goes to "s.adhoc" whatever x is. *)
Theorem C57_dots : forall dir d s x, s <> [] -> x <> [] -> no_dot x ->
  outputs dir (d, s ++ text "." ++ x ++ text ".wav") = [(dir, s ++ text ".adhoc")].
Proof.
  intros dir d s x H Hx D. unfold outputs. cbn [snd]. rewrite app_cons_assoc.
  assert (S : s ++ [DOT] ++ x <> []) by (destruct s; discriminate).
  pose proof (kinds_wav _ S) as K. change (text ".wav") with ([DOT] ++ EXT_WAV) in K. rewrite K. clear K. cbn [flat_map]. unfold out_name.
  destruct no_dot_ext as [N _]. destruct (stem_dot (s ++ [DOT] ++ x) EXT_WAV S) as [-> _]; [discriminate|exact N|].
  rewrite file_name_dot by auto. unfold set_extension. destruct (stem_dot s x H Hx D) as [-> _]. reflexivity.
Qed.
(** Nothing between the two dots: the same. *)
Theorem C57_two_dots : forall dir d s, s <> [] -> s <> text "." ->
  outputs dir (d, s ++ text "..wav") = [(dir, s ++ text ".adhoc")].
Proof.
  intros dir d s H H1. unfold outputs. cbn [snd].
  assert (A : s ++ text "..wav" = (s ++ [DOT]) ++ text ".wav") by (rewrite <- app_assoc; reflexivity). rewrite A.
  assert (S : s ++ [DOT] <> []) by (destruct s; discriminate). rewrite kinds_wav by exact S. cbn [flat_map]. unfold out_name.
  change (text ".wav") with ([DOT] ++ EXT_WAV). destruct no_dot_ext as [N _]. destruct (stem_dot (s ++ [DOT]) EXT_WAV S) as [-> _]; [discriminate|exact N|].
  assert (F : is_file_name (s ++ [DOT]) = true).
  { unfold is_file_name. apply negb_true_iff. rewrite !orb_false_iff.
    repeat split; match goal with |- list_eqb ?x ?y = false => destruct (list_eqb x y) eqn:E; [|reflexivity]; apply list_eqb_eq in E end.
    - now elim S.
    - destruct s as [|a [|b s]]; [now elim H|discriminate E|discriminate E].
    - destruct s as [|a [|b [|c s]]]; [now elim H| |discriminate E|discriminate E]. injection E as ->. now elim H1. }
  rewrite F. unfold set_extension, file_stem. rewrite F.
  pose proof (rsplit_last s [] ltac:(intros [])) as R. cbn [app] in R. rewrite R. destruct s; [now elim H|]. reflexivity.
Qed.
(** A leading dot is part of the name: ".x.wav" goes to ".x.adhoc" and ".x.adhoc" to ".x.wav"; ".wav" itself, and a name
    without a dot, is passed over. *)
Theorem C57_hidden : forall dir d x, x <> [] -> no_dot x ->
  outputs dir (d, text "." ++ x ++ text ".wav") = [(dir, text "." ++ x ++ text ".adhoc")] /\
  outputs dir (d, text "." ++ x ++ text ".adhoc") = [(dir, text "." ++ x ++ text ".wav")] /\
  outputs dir (d, text "." ++ x) = [] /\ outputs dir (d, x) = [].
Proof.
  intros dir d x H D. pose proof (rsplit_last [] x D) as R. cbn [app] in R.
  assert (S : DOT :: x <> []) by discriminate.
  assert (F : is_file_name (DOT :: x) = true).
  { unfold is_file_name. apply negb_true_iff. rewrite !orb_false_iff. split; [split; [reflexivity|]|].
    - destruct (list_eqb (DOT :: x) [DOT]) eqn:E; [|reflexivity]. apply list_eqb_eq in E. injection E as ->. now elim H.
    - destruct (list_eqb (DOT :: x) [DOT; DOT]) eqn:E; [|reflexivity]. apply list_eqb_eq in E. injection E as ->. elim D. now left. }
  assert (E : forall e, set_extension (DOT :: x) e = (DOT :: x) ++ [DOT] ++ e) by (intros e; unfold set_extension, file_stem; rewrite F, R; reflexivity).
  destruct no_dot_ext as [N1 N2]. unfold outputs. cbn [snd]. change (text ".") with [DOT].
  change ([DOT] ++ x ++ text ".wav") with ((DOT :: x) ++ text ".wav"). change ([DOT] ++ x ++ text ".adhoc") with ((DOT :: x) ++ text ".adhoc").
  rewrite kinds_wav, kinds_adhoc by exact S. cbn [flat_map]. unfold out_name.
  change (text ".wav") with ([DOT] ++ EXT_WAV). change (text ".adhoc") with ([DOT] ++ EXT_ADHOC).
  destruct (stem_dot (DOT :: x) EXT_WAV S) as [-> _]; [discriminate|exact N1|].
  destruct (stem_dot (DOT :: x) EXT_ADHOC S) as [-> _]; [discriminate|exact N2|]. rewrite F, !E.
  split; [reflexivity|]. split; [reflexivity|]. unfold kinds_of, extension. split.
  - change ([DOT] ++ x) with (DOT :: x). rewrite F, R. reflexivity.
  - rewrite rsplit_none by exact D. destruct (is_file_name x); reflexivity.
Qed.
(** So different recordings in one run overwrite each other: the last one to finish stays. *)
Theorem C57_last_one_stays : forall p level dir d s x y f a b ra rb,
  s <> [] -> x <> [] -> y <> [] -> no_dot x -> no_dot y ->
  let A := (d, s ++ text "." ++ x ++ text ".wav") in let B := (d, s ++ text "." ++ y ++ text ".wav") in
  f A = Some a -> f B = Some b -> wav_to_adhoc p a level = Ok (Some ra) -> wav_to_adhoc p b level = Ok (Some rb) ->
  let run schedule := fst (run_jobs p level dir schedule f [new_job A; new_job B]) in
  run [0; 0; 0; 1; 1; 1]%nat (dir, s ++ text ".adhoc") = Some rb /\
  run [1; 1; 1; 0; 0; 0]%nat (dir, s ++ text ".adhoc") = Some ra.
Proof.
  intros p level dir d s x y f a b ra rb Hs Hx Hy Dx Dy A B FA FB CA CB run.
  assert (K : forall z, z <> [] -> no_dot z -> kinds_of (s ++ text "." ++ z ++ text ".wav") = [WavToAdhoc] /\
     out_name WavToAdhoc (s ++ text "." ++ z ++ text ".wav") = Some (s ++ text ".adhoc")).
  { intros z Hz Dz. pose proof (C57_dots dir d s z Hs Hz Dz) as O. unfold outputs in O. cbn [snd] in O.
    assert (KW : kinds_of (s ++ text "." ++ z ++ text ".wav") = [WavToAdhoc]).
    { rewrite app_cons_assoc. apply kinds_wav. destruct s; discriminate. }
    split; [exact KW|]. rewrite KW in O. cbn [flat_map] in O. destruct (out_name WavToAdhoc _) as [n|]; [|discriminate O]. now injection O as ->. }
  destruct (K x Hx Dx) as [KA OA]. destruct (K y Hy Dy) as [KB OB].
  assert (NE : forall z, (dir, s ++ text ".adhoc") <> (d, s ++ text "." ++ z ++ text ".wav")).
  { intros z E. symmetry in E. rewrite app_cons_assoc in E. exact (wav_not_adhoc _ _ _ _ E). }
  assert (PO : forall z g c, put_file g (dir, s ++ text ".adhoc") c (d, s ++ text "." ++ z ++ text ".wav") = g (d, s ++ text "." ++ z ++ text ".wav")).
  { intros z g c. apply put_other. intros E. exact (NE z (eq_sym E)). }
  unfold run, new_job. subst A B. cbn [snd]. rewrite KA, KB. cbv zeta.
  split; repeat (cbn [run_jobs nth_error replace_nth jb_state jb_input snd step_job compute];
    rewrite ?PO, ?FA, ?FB, ?CA, ?CB, ?OA, ?OB; cbn [bind option_map]); apply put_same.
Qed.
(** Converting back next to the original replaces the original by the lossy copy. *)
Theorem C57_original_replaced : forall p level d s f wav mid back, s <> [] -> no_dot s ->
  f (d, s ++ text ".wav") = Some wav -> wav_to_adhoc p wav level = Ok (Some mid) -> adhoc_to_wav p mid = Ok (Some back) ->
  alone p level d (alone p level d f (d, s ++ text ".wav")) (d, s ++ text ".adhoc") (d, s ++ text ".wav") = Some back.
Proof.
  intros p level d s f wav mid back Hs Hd Hf H1 H2.
  assert (E1 : alone p level d f (d, s ++ text ".wav") (d, s ++ text ".adhoc") = Some mid).
  { unfold alone, new_job. cbn [snd]. rewrite kinds_wav by exact Hs. cbn [alone_steps step_job jb_state jb_input snd]. rewrite Hf. cbn [compute].
    rewrite H1. cbn [bind option_map]. rewrite out_wav by auto. cbn [alone_steps step_job jb_state jb_input snd fst]. apply put_same. }
  set (g := alone p level d f (d, s ++ text ".wav")) in *. clearbody g.
  unfold alone, new_job. cbn [snd]. rewrite kinds_adhoc by exact Hs. cbn [alone_steps step_job jb_state jb_input snd]. rewrite E1. cbn [compute].
  unfold adhoc_to_wav in H2. destruct (ad_load p mid) as [[c|]| |]; cbn [bind] in *; try discriminate H2.
  destruct (ad_info c) as [info| |]; cbn [bind] in *; try discriminate H2.
  destruct (adhoc_to_wav_loop _ _ _ _ _) as [w| |]; cbn [bind] in *; try discriminate H2.
  destruct (wav_save p w) as [o| |] eqn:EW; cbn [bind] in *; try discriminate H2. injection H2 as ->.
  rewrite out_adhoc by auto. cbn [alone_steps step_job jb_state jb_input snd fst]. apply put_same.
Qed.
(** Files whose extension contains neither "wav" nor "adhoc" (also "WAV") are passed over in silence. *)
Theorem C57_ignored : forall p level dir d s ext f, s <> [] -> ext <> [] -> no_dot ext ->
  ~ occurs (text "wav") ext -> ~ occurs (text "adhoc") ext ->
  outputs dir (d, s ++ text "." ++ ext) = [] /\ alone p level dir f (d, s ++ text "." ++ ext) = f.
Proof.
  intros p level dir d s ext f Hs He Hd H1 H2.
  assert (K : kinds_of (s ++ text "." ++ ext) = []).
  { unfold kinds_of. destruct (stem_dot s ext Hs He Hd) as [_ X]. change (text ".") with [DOT]. rewrite X. destruct (is_utf8 _ _); [|reflexivity].
    destruct (contains ext EXT_WAV) eqn:E1; [apply contains_spec in E1; now elim H1|].
    destruct (contains ext EXT_ADHOC) eqn:E2; [apply contains_spec in E2; now elim H2|]. reflexivity. }
  unfold outputs, alone, new_job. cbn [snd]. rewrite K. auto.
Qed.
(** Exactly which files are converted, and to what: S.EXT is taken for a WAV file exactly if EXT is a text in UTF-8 with "wav"
    somewhere in it (so also "wave" or "xwavadhoc"), and for an .adhoc file exactly if it has "adhoc" somewhere in it. *)
Theorem C57_exactly : forall dir d s ext, s <> [] -> no_dot s -> ext <> [] -> no_dot ext -> Forall (fun b => 0 <= b < 256) ext ->
  forall o, In o (outputs dir (d, s ++ text "." ++ ext)) <->
    (o = (dir, s ++ text ".adhoc") /\ unicode ext /\ occurs (text "wav") ext) \/
    (o = (dir, s ++ text ".wav") /\ unicode ext /\ occurs (text "adhoc") ext).
Proof.
  intros dir d s ext Hs Ds He De Be o. unfold outputs, kinds_of, out_name. cbn [snd]. change (text ".") with [DOT].
  destruct (stem_dot s ext Hs He De) as [X Y]. rewrite X, Y. destruct (plain_name s Hs Ds) as [P E]. rewrite P.
  rewrite <- (utf8_spec ext Be), <- !contains_spec. change (text "wav") with EXT_WAV. change (text "adhoc") with EXT_ADHOC.
  destruct (is_utf8 (length ext) ext); [|cbn; intuition discriminate].
  rewrite flat_map_app, in_app_iff.
  destruct (contains ext EXT_WAV), (contains ext EXT_ADHOC); cbn [flat_map app In]; rewrite ?E; change (text ".adhoc") with ([DOT] ++ EXT_ADHOC); change (text ".wav") with ([DOT] ++ EXT_WAV);
    (split; [intros [[H|[]]|[H|[]]] || intros [[H|[]]|[]] || intros [[]|[H|[]]] || intros [[]|[]]; subst o; auto
            |intros [(-> & _ & H)|(-> & _ & H)]; try discriminate H; auto]).
Qed.
Print Assumptions C57_exactly.
Print Assumptions C57_plain.
Print Assumptions C57_dots.
Print Assumptions C57_two_dots.
Print Assumptions C57_hidden.
Print Assumptions C57_last_one_stays.
Print Assumptions C57_original_replaced.
Print Assumptions C57_ignored.
(** An extension that is a text, with "wav" in it; and one with an overlong code that is not. *)
Example C57_exactly_applies : unicode (text "wav" ++ [226; 130; 172]) /\ occurs (text "wav") (text "wav" ++ [226; 130; 172]) /\
  ~ unicode (text "wav" ++ [192; 128]).
Proof.
  split; [exists [119; 97; 118; 8364]; split; [repeat constructor; unfold scalar; lia|reflexivity]|]. split; [now exists [], [226; 130; 172]|].
  rewrite <- utf8_spec by (repeat constructor; lia). vm_compute. discriminate.
Qed.
Example C57_applies :
  outputs (text "./") (text "in", text "take.1.wav") = [(text "./", text "take.adhoc")] /\
  outputs (text "./") (text "in", text "take.2.wav") = [(text "./", text "take.adhoc")] /\
  outputs (text "./") (text "in", text "take1.wav") = [(text "./", text "take1.adhoc")] /\
  outputs (text "./") (text "in", text "TAKE.WAV") = [] /\
  outputs (text "./") (text "in", text ".wav") = [] /\
  outputs (text "./") (text "in", text ".take.wav") = [(text "./", text ".take.adhoc")] /\
  outputs (text "./") (text "in", text "take..wav") = [(text "./", text "take.adhoc")].
Proof. repeat split; vm_compute; reflexivity. Qed.

(** ** C58: many files at once *)
(** Under every interleaving, as long as no two outputs coincide and no output is an input: files that are nobody's
    output never change, and once an input is done its output is what converting it alone would have produced. *)
Theorem C58_batch : forall p level dir inputs f schedule, separate dir inputs ->
  let '(f', js) := run_jobs p level dir schedule f (map new_job inputs) in
  (forall q, ~ In q (flat_map (outputs dir) inputs) -> f' q = f q) /\
  (forall i input j, nth_error inputs i = Some input -> nth_error js i = Some j -> finished j = true ->
     forall q, In q (outputs dir input) -> f' q = alone p level dir f input q).
Proof.
  intros p level dir inputs f schedule HS.
  pose proof (run_independent p level dir f inputs HS schedule f (map new_job inputs) (start_independent p level dir f inputs)) as (HF & HL & HJ).
  destruct (run_jobs p level dir schedule f (map new_job inputs)) as [f' js]. cbn [fst snd] in *. split; [exact HF|].
  intros i input j Hi Hj Hfin q Hq. destruct (HJ i input Hi) as (n & En & Hn). rewrite Hj in En. injection En as ->.
  rewrite Hn by exact Hq. f_equal. now rewrite finished_alone.
Qed.
(** The run ends: six turns finish every job, whatever happens in between, so the files are then decided. *)
Theorem C58_completes : forall p level dir inputs f schedule, separate dir inputs ->
  (forall i, (i < List.length inputs)%nat -> (6 <= count_occ Nat.eq_dec schedule i)%nat) ->
  let f' := fst (run_jobs p level dir schedule f (map new_job inputs)) in
  forall input q, In input inputs -> In q (outputs dir input) -> f' q = alone p level dir f input q.
Proof.
  intros p level dir inputs f schedule HS HC f' input q Hin Hq. apply In_nth_error in Hin. destruct Hin as (i & Hi).
  destruct (run_left p level dir schedule f (map new_job inputs) i (new_job input)) as (j & Ej & L); [now apply map_nth_error|].
  pose proof (C58_batch p level dir inputs f schedule HS) as B. subst f'.
  destruct (run_jobs p level dir schedule f (map new_job inputs)) as [g js]. cbn [fst snd] in *. destruct B as [_ B].
  apply (B i input j Hi Ej); [|exact Hq]. pose proof (new_left input). specialize (HC i ltac:(apply nth_error_Some; congruence)).
  assert (Z0 : left_over j = 0%nat) by lia. unfold left_over in Z0. unfold finished. destruct (jb_state j) as [[|? ?]| |]; cbn in Z0; try lia.
Qed.
Print Assumptions C58_completes.
(** What converting one file alone does. *)
Theorem C58_wav : forall p level dir d s f, s <> [] -> no_dot s ->
  alone p level dir f (d, s ++ text ".wav") (dir, s ++ text ".adhoc") =
  match f (d, s ++ text ".wav") with
  | Some wav => match wav_to_adhoc p wav level with Ok (Some out) => Some out | _ => f (dir, s ++ text ".adhoc") end
  | None => f (dir, s ++ text ".adhoc")
  end.
Proof.
  intros p level dir d s f Hs Hd. unfold alone, new_job. cbn [snd]. rewrite kinds_wav by exact Hs. cbn [alone_steps step_job jb_state jb_input snd].
  destruct (f (d, s ++ text ".wav")) as [wav|]; [|reflexivity]. cbn [compute]. destruct (wav_to_adhoc p wav level) as [[out|]| |]; cbn [bind option_map]; try reflexivity.
  rewrite out_wav by auto. cbn [alone_steps step_job jb_state jb_input snd fst]. apply put_same.
Qed.
Theorem C58_adhoc : forall p level dir d s f, s <> [] -> no_dot s ->
  forall file, f (d, s ++ text ".adhoc") = Some file ->
  match adhoc_to_wav p file with
  | Ok (Some out) => alone p level dir f (d, s ++ text ".adhoc") (dir, s ++ text ".wav") = Some out
  | Ok None => alone p level dir f (d, s ++ text ".adhoc") (dir, s ++ text ".wav") = f (dir, s ++ text ".wav")
  | _ => True
  end.
Proof.
  intros p level dir d s f Hs Hd file Hf. unfold alone, new_job. cbn [snd]. rewrite kinds_adhoc by exact Hs. cbn [alone_steps step_job jb_state jb_input snd].
  rewrite Hf. cbn [compute]. unfold adhoc_to_wav. destruct (ad_load p file) as [[c|]| |]; cbn [bind]; auto.
  destruct (ad_info c) as [info| |]; cbn [bind]; auto.
  destruct (adhoc_to_wav_loop _ _ _ _ _) as [w| |]; cbn [bind]; auto. destruct (wav_save p w) as [out| |] eqn:E; cbn [bind]; auto.
  rewrite out_adhoc by auto. cbn [alone_steps step_job jb_state jb_input snd fst]. apply put_same.
Qed.
(** In debug builds a .adhoc file with 2048 channels or more makes saving panic after the output was created: whatever
    stood there is lost. *)
Theorem C58_panic_truncates : forall level clevel dir d s f info,
  s <> [] -> no_dot s -> 0 <= level -> 2048 <= si_channels info < 32768 -> 0 <= si_rate info -> si_rate info * si_channels info < 2 ^ 27 ->
  f (d, s ++ text ".adhoc") = Some (ad_save (new_codec info level)) ->
  adhoc_to_wav Debug (ad_save (new_codec info level)) = Panic ArithmeticOverflow /\
  alone Debug clevel dir f (d, s ++ text ".adhoc") (dir, s ++ text ".wav") = Some [].
Proof.
  intros level clevel dir d s f info Hs Hd Hlv Hc Hr Hrc Hf.
  assert (HR : recording_ok (si_channels info) []).
  { split; [lia|]. split; [exact I|]. split; [constructor|]. split; cbn; lia. }
  destruct (loaded_playing Debug Debug info level [] (new_codec info level) Hlv) as (c2 & E2 & E3 & HP & HF); auto.
  { split; split; try lia; change (2 ^ 32) with 4294967296; change (2 ^ 27) with 134217728 in *; nia. }
  { constructor. }
  assert (L : adhoc_to_wav_loop Debug (decode_rounds c2) c2 (wav_new info) CLI_BUFFER = Ok (wav_new info)).
  { destruct (decode_rounds c2) as [|fuel] eqn:EF; [lia|]. cbn [adhoc_to_wav_loop].
    destruct (playing_call Debug c2 info level [] 0 _ CLI_BUFFER HP) as (c' & buf' & R' & E & _ & _).
    assert (D0 : (List.length CLI_BUFFER / Z.to_nat (si_channels info) = 0)%nat) by (apply Nat.div_small; change (List.length CLI_BUFFER) with 1024%nat; lia).
    rewrite D0 in E. cbn [Nat.min] in E. rewrite E. change (0 <? 0)%nat with false. reflexivity. }
  assert (S : wav_save Debug (wav_new info) = Panic ArithmeticOverflow).
  { destruct info as [r ch]. apply C43_wide_panics; cbn [si_rate si_channels] in *; auto. reflexivity. }
  split.
  - unfold adhoc_to_wav. rewrite E2. cbn [bind]. rewrite E3. cbn [bind]. rewrite L. cbn [bind]. now rewrite S.
  - unfold alone, new_job. cbn [snd]. rewrite kinds_adhoc by exact Hs. cbn [alone_steps step_job jb_state jb_input snd]. rewrite Hf. cbn [compute].
    rewrite E2. cbn [bind]. rewrite E3. cbn [bind]. rewrite L. cbn [bind]. rewrite S, out_adhoc by auto.
    cbn [alone_steps step_job jb_state jb_input snd fst]. apply put_same.
Qed.
Print Assumptions C58_batch.
Print Assumptions C58_wav.
Print Assumptions C58_adhoc.
Print Assumptions C58_panic_truncates.
Example C58_applies :
  separate (text "out") [(text "in", text "a.wav"); (text "in", text "b.wav"); (text "in", text "c.adhoc")] /\
  ~ separate (text "in") [(text "in", text "a.wav"); (text "in", text "a.adhoc")] /\
  format_fits (mkInfo 8000 4) /\ 8000 * 2048 < 2 ^ 27.
Proof.
  repeat split; try reflexivity.
  - vm_compute. repeat constructor; cbn; intuition discriminate.
  - vm_compute. intuition congruence.
  - intros [_ H]. apply (H (text "in", text "a.wav")); vm_compute; auto.
  - cbn. lia.
  - cbn. lia.
Qed.
