(** * Property C69: the compression level option of the command line tool *)
From Coq Require Import ZArith Ascii String List Bool Lia.
From Verif Require Import Model.Base Model.F32 Model.Sample Model.Adhoc Model.Bincode Model.Wav Model.Cli Model.CliFiles Model.CliArgs
  Spec.Batch Proofs.BaseFacts Properties.BatchProps.
Import ListNotations.
Open Scope Z_scope.

(** [s] is the decimal number [n]: digits, at least one, with or without a plus sign in front. *)
Definition digit (b : Z) : Prop := 48 <= b <= 57.
Definition decimal (ds : bytes) : Z := fold_left (fun a b => 10 * a + (b - 48)) ds 0.
Definition number (s : bytes) (n : Z) : Prop :=
  exists ds, (s = ds \/ s = text "+" ++ ds) /\ ds <> [] /\ Forall digit ds /\ n = decimal ds.

(** ** Lemmas *)
Lemma to_digit_some b : digit b -> to_digit b = Some (b - 48).
Proof. unfold digit, to_digit. intros H. destruct (Z.leb_spec 48 b); destruct (Z.leb_spec b 57); cbn [andb]; auto; lia. Qed.
Lemma to_digit_inv b d : to_digit b = Some d -> digit b /\ d = b - 48.
Proof. unfold digit, to_digit. destruct (Z.leb_spec 48 b); destruct (Z.leb_spec b 57); cbn [andb]; intros E; try discriminate E. injection E as <-. lia. Qed.
Definition from (a : Z) (ds : bytes) : Z := fold_left (fun a b => 10 * a + (b - 48)) ds a.
Lemma from_ge ds : Forall digit ds -> forall a, 0 <= a -> a <= from a ds.
Proof.
  unfold from. induction 1 as [|b ds H _ IH]; intros a Ha; cbn [fold_left]; [lia|]. unfold digit in H.
  etransitivity; [|apply IH; lia]. lia.
Qed.
Lemma parse_some ds : Forall digit ds -> forall a, 0 <= a -> from a ds <= U32_MAX -> parse_digits a ds = Some (from a ds).
Proof.
  induction 1 as [|b ds H Hd IH]; intros a Ha HL; cbn [parse_digits]; [reflexivity|].
  rewrite to_digit_some by exact H. unfold digit in H. unfold from in *. cbn [fold_left] in *.
  pose proof (from_ge ds Hd (10 * a + (b - 48)) ltac:(lia)) as G. unfold from in G.
  destruct (Z.ltb_spec U32_MAX (a * 10)); [lia|]. destruct (Z.ltb_spec U32_MAX (a * 10 + (b - 48))); [lia|].
  replace (a * 10 + (b - 48)) with (10 * a + (b - 48)) by lia. apply IH; lia.
Qed.
Lemma parse_inv ds : forall a n, a <= U32_MAX -> parse_digits a ds = Some n -> Forall digit ds /\ n = from a ds /\ n <= U32_MAX.
Proof.
  induction ds as [|b ds IH]; intros a n Ha H; cbn [parse_digits] in H.
  - injection H as <-. auto.
  - destruct (to_digit b) as [d|] eqn:E; [|discriminate H]. apply to_digit_inv in E. destruct E as [Hb ->].
    destruct (Z.ltb_spec U32_MAX (a * 10)); [discriminate H|]. destruct (Z.ltb_spec U32_MAX (a * 10 + (b - 48))); [discriminate H|].
    apply IH in H; [|lia]. destruct H as (F & -> & L). split; [now constructor|]. split; [|exact L].
    unfold from. cbn [fold_left]. now replace (10 * a + (b - 48)) with (a * 10 + (b - 48)) by lia.
Qed.
Lemma not_digits_plus b ds : b = PLUS \/ b = MINUS -> ~ Forall digit (b :: ds).
Proof. intros H F. inversion F; subst. unfold digit, PLUS, MINUS in *. lia. Qed.
Lemma parse_number s n : parse_u32 s = Some n <-> number s n /\ n < 2 ^ 32.
Proof.
  change (2 ^ 32) with 4294967296. split.
  - intros H. unfold parse_u32 in H. destruct s as [|b t]; [discriminate H|].
    assert (P : forall ds, ds <> [] -> (b :: t = ds \/ b :: t = text "+" ++ ds) -> parse_digits 0 ds = Some n -> number (b :: t) n /\ n < 4294967296).
    { intros ds Hn Hs Hp. apply parse_inv in Hp; [|unfold U32_MAX; lia]. destruct Hp as (F & -> & L). unfold U32_MAX in L.
      split; [exists ds; repeat split; auto|lia]. }
    destruct t as [|b' t].
    + destruct ((b =? PLUS) || (b =? MINUS)); [discriminate H|]. apply (P [b]); auto; discriminate.
    + destruct (Z.eqb_spec b PLUS) as [->|N]; [apply (P (b' :: t)); auto; discriminate|apply (P (b :: b' :: t)); auto; discriminate].
  - intros [(ds & Hs & Hn & F & ->) HL].
    assert (E : parse_digits 0 ds = Some (decimal ds)) by (apply parse_some; auto; [lia|unfold U32_MAX; change (from 0 ds) with (decimal ds); lia]).
    destruct ds as [|d ds]; [congruence|]. assert (Hd : digit d) by now inversion F.
    assert (Np : (d =? PLUS) = false /\ (d =? MINUS) = false) by (unfold digit, PLUS, MINUS in *; lia). destruct Np as [N1 N2].
    destruct Hs as [-> | ->].
    + unfold parse_u32. rewrite N1, N2. cbn [orb]. now destruct ds.
    + change (text "+") with [PLUS]. cbn [app]. unfold parse_u32. rewrite Z.eqb_refl. exact E.
Qed.
Lemma level_min p level k b : compute p (Z.min level 10) k b = compute p level k b.
Proof.
  destruct k; [|reflexivity]. unfold compute, wav_to_adhoc, ad_with_level.
  replace (zclamp (Z.min level 10) 0 10) with (zclamp level 0 10); [reflexivity|].
  unfold zclamp. destruct (Z.ltb_spec level 0); destruct (Z.ltb_spec (Z.min level 10) 0); destruct (Z.ltb_spec 10 level);
    destruct (Z.ltb_spec 10 (Z.min level 10)); lia.
Qed.
Lemma run_ext p l1 l2 dir : (forall k b, compute p l1 k b = compute p l2 k b) ->
  forall schedule f js, run_jobs p l1 dir schedule f js = run_jobs p l2 dir schedule f js.
Proof.
  intros H. assert (S : forall f j, step_job p l1 dir f j = step_job p l2 dir f j).
  { intros f [i s]. unfold step_job. cbn [jb_state jb_input]. destruct s as [[|k ks]| |]; auto. destruct (f i); auto. now rewrite H. }
  induction schedule as [|i rest IH]; intros f js; cbn [run_jobs]; auto.
  destruct (nth_error js i) as [j|]; auto. rewrite S. destruct (step_job p l2 dir f j). apply IH.
Qed.

(** ** C69 *)
(** A decimal number below 2^32 is used, with or without a plus sign and leading zeros; everything
    above 10 acts as 10. *)
Theorem C69_number : forall s n, number s n -> n < 2 ^ 32 ->
  option_level (Some s) = n /\
  forall p is_dir dir inputs schedule f, 10 <= n ->
    run_tool p is_dir dir (Some s) inputs schedule f = run_tool p is_dir dir (Some (text "10")) inputs schedule f.
Proof.
  intros s n H HL. assert (E : option_level (Some s) = n) by (unfold option_level; now rewrite (proj2 (parse_number s n) (conj H HL))).
  split; [exact E|]. intros p is_dir dir inputs schedule f Hn. unfold run_tool. destruct (is_dir dir); [|reflexivity]. rewrite E.
  change (option_level (Some (text "10"))) with 10. f_equal. apply run_ext. intros k b. rewrite <- (level_min p n). f_equal. lia.
Qed.
(** Every other text, too large a number included, is taken for 5 without a word. *)
Theorem C69_anything_else : forall s, (forall n, number s n -> 2 ^ 32 <= n) ->
  forall p is_dir dir inputs schedule f,
    run_tool p is_dir dir (Some s) inputs schedule f = run_tool p is_dir dir (Some (text "5")) inputs schedule f /\
    run_tool p is_dir dir None inputs schedule f = run_tool p is_dir dir (Some (text "5")) inputs schedule f.
Proof.
  intros s H p is_dir dir inputs schedule f. unfold run_tool. change (option_level (Some (text "5"))) with 5. change (option_level None) with 5.
  assert (E : option_level (Some s) = 5).
  { unfold option_level. destruct (parse_u32 s) as [n|] eqn:E; [|reflexivity]. apply parse_number in E. destruct E as [N L]. apply H in N. lia. }
  rewrite E. auto.
Qed.
(** When the output directory is not a directory nothing is read or written. *)
Theorem C69_no_directory : forall p is_dir dir arg inputs schedule f, is_dir dir = false ->
  run_tool p is_dir dir arg inputs schedule f = f.
Proof. intros p is_dir dir arg inputs schedule f H. unfold run_tool. now rewrite H. Qed.
(** A larger number need not mean a higher level. *)
Theorem C69_monotone_refuted : exists s t m n, number s m /\ number t n /\ m < n /\
  Z.min (option_level (Some s)) 10 = 10 /\ Z.min (option_level (Some t)) 10 = 5.
Proof.
  exists (text "4294967295"), (text "4294967296"), 4294967295, 4294967296.
  assert (N : forall s, forallb (fun b => (48 <=? b) && (b <=? 57)) (text s) = true -> text s <> [] -> number (text s) (decimal (text s))).
  { intros s H Hn. exists (text s). repeat split; auto. apply Forall_forall. intros b Hb. rewrite forallb_forall in H. apply H in Hb. unfold digit. lia. }
  split; [apply (N "4294967295"%string); [reflexivity|discriminate]|].
  split; [apply (N "4294967296"%string); [reflexivity|discriminate]|]. split; [lia|]. split; vm_compute; reflexivity.
Qed.
Print Assumptions C69_number.
Print Assumptions C69_anything_else.
Print Assumptions C69_no_directory.
Print Assumptions C69_monotone_refuted.

Example C69_applies :
  map (fun s => option_level (Some (text s))) ["0"; "7"; "+3"; "007"; "10"; "11"; ""; "+"; "-1"; "3.5"; " 7"; "seven"; "4294967296"]%string
    = [0; 7; 3; 7; 10; 11; 5; 5; 5; 5; 5; 5; 5] /\
  number (text "+007") 7 /\ (forall n, number (text "3.5") n -> 2 ^ 32 <= n).
Proof.
  split; [vm_compute; reflexivity|]. split.
  - exists (text "007"). split; [right; reflexivity|]. split; [discriminate|]. split; [|reflexivity]. vm_compute. repeat constructor; discriminate.
  - intros n (ds & [E|E] & _ & F & _).
    + subst ds. cbn in F. inversion F as [|? ? _ F1]; subst. inversion F1 as [|? ? D _]; subst. vm_compute in D. destruct D as [D _]. now elim D.
    + discriminate E.
Qed.
(** "zero" is not 0: the files written differ (in the level they state, at least). *)
Example C69_visible : let inputs := [(text "in", text "a.wav")] in
  let f := fun q : path => if path_eqb q (text "in", text "a.wav") then Some (Spec.Wave.canonical_header 8000 1 212 ++ repeat 0 212) else None in
  let out arg := run_tool Release (fun _ => true) (text "out") (Some arg) inputs [0; 0; 0]%nat f (text "out", text "a.adhoc") in
  out (text "zero") = out (text "5") /\ out (text "0") <> out (text "5") /\ out (text "11") = out (text "10").
Proof.
  cbv zeta. split; [|split].
  - vm_compute. reflexivity.
  - vm_compute. discriminate.
  - vm_compute. reflexivity.
Qed.
