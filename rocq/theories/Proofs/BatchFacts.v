(** * Interleaved conversions *)
From Coq Require Import ZArith List Bool Lia.
From Verif Require Import Model.Base Model.Wav Model.CliFiles Spec.Batch Proofs.BaseFacts Proofs.WavFile.
Import ListNotations.
Open Scope Z_scope.

Lemma path_eqb_eq a b : path_eqb a b = true <-> a = b.
Proof.
  destruct a as [a1 a2], b as [b1 b2]. unfold path_eqb. cbn [fst snd]. rewrite andb_true_iff, !list_eqb_eq.
  split; [intros [-> ->]; reflexivity|intros H; injection H; auto].
Qed.
Lemma put_same f q b : put_file f q b q = Some b.
Proof. unfold put_file. now rewrite (proj2 (path_eqb_eq q q) eq_refl). Qed.
Lemma put_other f q b r : r <> q -> put_file f q b r = f r.
Proof. intros H. unfold put_file. destruct (path_eqb q r) eqn:E; [|reflexivity]. apply path_eqb_eq in E. congruence. Qed.

Section Batch.
Variables (p : profile) (level : Z) (dir : bytes).
Notation step := (step_job p level dir).
Notation steps := (alone_steps p level dir).

(** Jobs keep to their own outputs. *)
Definition own (j : job) : Prop :=
  match jb_state j with
  | Todo ks => incl ks (kinds_of (snd (jb_input j)))
  | Ready out _ ks | Created out _ ks => In out (outputs dir (jb_input j)) /\ incl ks (kinds_of (snd (jb_input j)))
  end.
Lemma own_new i : own (new_job i).
Proof. unfold own, new_job. cbn. apply incl_refl. Qed.
Lemma out_in i k n : In k (kinds_of (snd i)) -> out_name k (snd i) = Some n -> In (dir, n) (outputs dir i).
Proof. intros H E. unfold outputs. apply in_flat_map. exists k. split; [exact H|]. rewrite E. now left. Qed.

Lemma step_input f j : jb_input (snd (step f j)) = jb_input j.
Proof.
  unfold step_job. destruct (jb_state j) as [[|k ks]| |]; try reflexivity.
  - destruct (f (jb_input j)) as [b|]; [|reflexivity]. destruct (compute p level k b) as [[s|]| |]; try reflexivity.
    destruct (out_name k _); reflexivity.
  - destruct save; reflexivity.
Qed.
Lemma step_own f j : own j -> own (snd (step f j)).
Proof.
  unfold own, step_job. destruct (jb_state j) as [[|k ks]|out save ks|out save ks] eqn:E.
  - cbn [snd]. now rewrite E.
  - intros H. assert (T : incl (@nil kind) (kinds_of (snd (jb_input j)))) by (intros x []).
    destruct (f (jb_input j)) as [b|]; [|exact T]. destruct (compute p level k b) as [[s|]| |]; try exact T.
    destruct (out_name k (snd (jb_input j))) as [n|] eqn:En; [|exact T]. cbn [snd jb_state jb_input]. split.
    + apply (out_in _ k); [apply H; now left|exact En].
    + intros x Hx. apply H. now right.
  - intros H. exact H.
  - intros [_ H]. destruct save; cbn [snd jb_state jb_input]; [exact H| |]; intros x [].
Qed.
(** A step changes nothing but the job's outputs... *)
Lemma step_frame f j q : own j -> ~ In q (outputs dir (jb_input j)) -> fst (step f j) q = f q.
Proof.
  unfold own, step_job. destruct (jb_state j) as [[|k ks]|out save ks|out save ks] eqn:E; intros H Hq.
  - reflexivity.
  - destruct (f (jb_input j)) as [b|]; [|reflexivity]. destruct (compute p level k b) as [[s|]| |]; try reflexivity.
    destruct (out_name k (snd (jb_input j))); reflexivity.
  - cbn [fst]. apply put_other. intros ->. now apply Hq.
  - destruct save; try reflexivity. cbn [fst]. apply put_other. intros ->. now apply Hq.
Qed.
(** ... and depends on nothing but its input and its outputs. *)
Lemma step_agree f g j : f (jb_input j) = g (jb_input j) ->
  snd (step f j) = snd (step g j) /\
  forall q, f q = g q -> fst (step f j) q = fst (step g j) q.
Proof.
  unfold step_job. intros H. destruct (jb_state j) as [[|k ks]|out save ks|out save ks] eqn:E.
  - auto.
  - rewrite <- H. destruct (f (jb_input j)) as [b|]; [|auto]. destruct (compute p level k b) as [[s|]| |]; try now auto.
    destruct (out_name k (snd (jb_input j))); auto.
  - split; [reflexivity|]. intros q Hq. cbn [fst]. unfold put_file. now rewrite Hq.
  - destruct save; auto. split; [reflexivity|]. intros q Hq. cbn [fst]. unfold put_file. now rewrite Hq.
Qed.
Lemma steps_S n f j : steps (S n) f j = step (fst (steps n f j)) (snd (steps n f j)).
Proof.
  revert f j. induction n as [|n IH]; intros f j.
  - cbn [alone_steps fst snd]. destruct (step f j); reflexivity.
  - change (steps (S (S n)) f j) with (let '(f', j') := step f j in steps (S n) f' j').
    change (steps (S n) f j) with (let '(f', j') := step f j in steps n f' j'). destruct (step f j) as [f' j']. apply IH.
Qed.
Lemma steps_input n f j : jb_input (snd (steps n f j)) = jb_input j.
Proof. induction n as [|n IH]; [reflexivity|]. rewrite steps_S, step_input. exact IH. Qed.
Lemma steps_own n f j : own j -> own (snd (steps n f j)).
Proof. intros H. induction n as [|n IH]; [exact H|]. rewrite steps_S. now apply step_own. Qed.
Lemma steps_frame n f j q : own j -> ~ In q (outputs dir (jb_input j)) -> fst (steps n f j) q = f q.
Proof.
  intros H Hq. induction n as [|n IH]; [reflexivity|]. rewrite steps_S, step_frame; [exact IH|now apply steps_own|]. now rewrite steps_input.
Qed.
(** Six steps are enough. *)
Lemma step_finished f j : finished j = true -> step f j = (f, j).
Proof. unfold finished, step_job. destruct (jb_state j) as [[|k ks]| |]; intros H; try discriminate H. reflexivity. Qed.
Lemma steps_finished n f j : finished j = true -> steps n f j = (f, j).
Proof. intros H. induction n as [|n IH]; [reflexivity|]. cbn [alone_steps]. now rewrite step_finished. Qed.
Lemma steps_add a b f j : steps (a + b) f j = steps b (fst (steps a f j)) (snd (steps a f j)).
Proof.
  revert f j. induction a as [|a IH]; intros f j; [reflexivity|]. cbn [Nat.add alone_steps]. destruct (step f j) as [f' j']. apply IH.
Qed.
Definition left_over (j : job) : nat :=
  match jb_state j with Todo ks => 3 * length ks | Ready _ _ ks => 2 + 3 * length ks | Created _ _ ks => 1 + 3 * length ks end%nat.
Lemma step_left f j : finished j = false -> (left_over (snd (step f j)) < left_over j)%nat.
Proof.
  unfold finished, left_over, step_job. destruct (jb_state j) as [[|k ks]|out save ks|out save ks] eqn:E; intros H; try discriminate H.
  - destruct (f (jb_input j)) as [b|]; [|cbn; lia]. destruct (compute p level k b) as [[s|]| |]; try (cbn; lia).
    destruct (out_name k (snd (jb_input j))); cbn; lia.
  - cbn; lia.
  - destruct save; cbn; lia.
Qed.
Lemma finished_in n f j : (left_over j <= n)%nat -> finished (snd (steps n f j)) = true.
Proof.
  revert f j. induction n as [|n IH]; intros f j H.
  - cbn [alone_steps snd]. destruct (finished j) eqn:E; [reflexivity|]. pose proof (step_left f j E). lia.
  - destruct (finished j) eqn:E; [rewrite steps_finished by exact E; exact E|]. pose proof (step_left f j E).
    cbn [alone_steps]. destruct (step f j) as [f' j']. apply IH. cbn [snd] in *. lia.
Qed.
Lemma new_left i : (left_over (new_job i) <= 6)%nat.
Proof.
  unfold left_over, new_job, kinds_of. cbn [jb_state]. destruct (extension (snd i)) as [e|]; [|cbn; lia].
  destruct (is_utf8 _ _); [|cbn; lia]. destruct (contains e EXT_WAV), (contains e EXT_ADHOC); cbn; lia.
Qed.
Lemma finished_alone n f i : finished (snd (steps n f (new_job i))) = true -> fst (steps n f (new_job i)) = alone p level dir f i.
Proof.
  intros H. unfold alone. destruct (Nat.le_gt_cases n 6) as [L|L].
  - replace 6%nat with (n + (6 - n))%nat by lia. rewrite steps_add. rewrite (steps_finished (6 - n)) by exact H. reflexivity.
  - replace n with (6 + (n - 6))%nat by lia. rewrite steps_add. rewrite (steps_finished (n - 6)); [reflexivity|]. apply finished_in. apply new_left.
Qed.

(** The invariant of an interleaved run. *)
Definition independent (f0 : files) (inputs : list path) (f : files) (js : list job) : Prop :=
  (forall q, ~ In q (flat_map (outputs dir) inputs) -> f q = f0 q) /\
  length js = length inputs /\
  forall i input, nth_error inputs i = Some input ->
    exists n, nth_error js i = Some (snd (steps n f0 (new_job input))) /\
      forall q, In q (outputs dir input) -> f q = fst (steps n f0 (new_job input)) q.

Lemma nth_error_replace {A} i (l : list A) a k : (i < length l)%nat ->
  nth_error (replace_nth i l a) k = if (k =? i)%nat then Some a else nth_error l k.
Proof.
  revert i k. induction l as [|x l IH]; intros i k H; [cbn in H; lia|]. destruct i as [|i], k as [|k]; cbn [replace_nth nth_error Nat.eqb]; auto.
  apply IH. cbn in H. lia.
Qed.
Lemma disjoint_outputs inputs i k a b q : NoDup (flat_map (outputs dir) inputs) ->
  nth_error inputs i = Some a -> nth_error inputs k = Some b -> i <> k -> In q (outputs dir a) -> ~ In q (outputs dir b).
Proof.
  revert i k. induction inputs as [|x l IH]; intros i k ND Ha Hb Hik Hq Hq'; [destruct i; discriminate Ha|].
  cbn [flat_map] in ND.
  assert (X : forall q c m, In q (outputs dir x) -> nth_error l m = Some c -> In q (outputs dir c) -> False).
  { intros r c m Hr Hc Hrc. apply nth_error_In in Hc. clear - ND Hr Hc Hrc.
    assert (I : In r (flat_map (outputs dir) l)) by (apply in_flat_map; eauto).
    induction (outputs dir x) as [|y o IHo]; [destruct Hr|]. cbn [app] in ND. inversion ND; subst. destruct Hr as [->|Hr].
    - apply H1. apply in_or_app. now right.
    - now apply IHo. }
  destruct i as [|i], k as [|k]; cbn [nth_error] in Ha, Hb.
  - now apply Hik.
  - injection Ha as <-. exact (X q b k Hq Hb Hq').
  - injection Hb as <-. exact (X q a i Hq' Ha Hq).
  - apply (IH i k); auto. clear - ND. induction (outputs dir x) as [|y o IHo]; [exact ND|]. cbn [app] in ND. inversion ND; auto.
Qed.
Lemma run_independent f0 inputs : separate dir inputs -> forall schedule f js, independent f0 inputs f js ->
  independent f0 inputs (fst (run_jobs p level dir schedule f js)) (snd (run_jobs p level dir schedule f js)).
Proof.
  intros [ND SI]. induction schedule as [|i rest IH]; intros f js HI; [exact HI|]. cbn [run_jobs].
  destruct (nth_error js i) as [j|] eqn:Ej; [|now apply IH]. destruct (step f j) as [f' j'] eqn:Es. apply IH. clear IH.
  destruct HI as (HF & HL & HJ).
  assert (Hi : (i < length js)%nat) by (apply nth_error_Some; congruence).
  destruct (nth_error inputs i) as [input|] eqn:Ei; [|apply nth_error_None in Ei; lia].
  destruct (HJ i input Ei) as (n & En & Hn). rewrite Ej in En. injection En as ->.
  set (j := snd (steps n f0 (new_job input))) in *.
  assert (Oj : own j) by (apply steps_own, own_new).
  assert (Ij : jb_input j = input) by (unfold j; rewrite steps_input; reflexivity).
  assert (Hin : In input inputs) by (eapply nth_error_In; eauto).
  assert (A : f (jb_input j) = fst (steps n f0 (new_job input)) (jb_input j)).
  { rewrite Ij. rewrite HF by (now apply SI). symmetry. apply steps_frame; [apply own_new|]. cbn [new_job jb_input].
    intros X. apply (SI input Hin). apply in_flat_map. eauto. }
  destruct (step_agree f (fst (steps n f0 (new_job input))) j A) as [B1 B2].
  assert (Fr : forall q, ~ In q (outputs dir input) -> f' q = f q).
  { intros q Hq. pose proof (step_frame f j q Oj) as G. rewrite Ij, Es in G. now apply G. }
  split; [|split].
  - intros q Hq. rewrite Fr; [now apply HF|]. intros X. apply Hq. apply in_flat_map. eauto.
  - now rewrite length_replace_nth.
  - intros k a Hk. rewrite nth_error_replace by exact Hi. destruct (Nat.eqb_spec k i) as [->|N].
    + rewrite Ei in Hk. injection Hk as <-. exists (S n). rewrite steps_S. fold j. split.
      * rewrite <- B1, Es. reflexivity.
      * intros q Hq. rewrite <- B2 by (now apply Hn). now rewrite Es.
    + destruct (HJ k a Hk) as (m & Em & Hm). exists m. split; [exact Em|]. intros q Hq. rewrite <- Hm by exact Hq. apply Fr.
      eapply disjoint_outputs; eauto.
Qed.
(** Every turn brings a job closer to its end. *)
Lemma run_left schedule f js i j : nth_error js i = Some j ->
  exists j', nth_error (snd (run_jobs p level dir schedule f js)) i = Some j' /\
    (left_over j' <= left_over j - count_occ Nat.eq_dec schedule i)%nat.
Proof.
  revert f js j. induction schedule as [|k rest IH]; intros f js j Hj; cbn [run_jobs count_occ].
  - exists j. split; [exact Hj|lia].
  - destruct (Nat.eq_dec k i) as [->|Hk].
    + rewrite Hj. destruct (step f j) as [f1 j1] eqn:Es.
      destruct (IH f1 (replace_nth i js j1) j1) as (j' & E & L).
      { rewrite nth_error_replace by (apply nth_error_Some; congruence). now rewrite Nat.eqb_refl. }
      exists j'. split; [exact E|]. destruct (finished j) eqn:Ef.
      * rewrite step_finished in Es by exact Ef. injection Es as <- <-. unfold finished in Ef. unfold left_over in *.
        destruct (jb_state j) as [[|? ?]| |]; try discriminate Ef. cbn in *. lia.
      * pose proof (step_left f j Ef) as X. rewrite Es in X. cbn [snd] in X. lia.
    + destruct (nth_error js k) as [jk|] eqn:Ek; [|now apply IH]. destruct (step f jk) as [f1 j1]. apply IH.
      rewrite nth_error_replace by (apply nth_error_Some; congruence). destruct (Nat.eqb_spec i k); [congruence|exact Hj].
Qed.
Lemma start_independent f0 inputs : independent f0 inputs f0 (map new_job inputs).
Proof.
  split; [auto|]. split; [apply map_length|]. intros i input H. exists 0%nat. cbn [alone_steps fst snd]. split; [|auto].
  now apply map_nth_error.
Qed.
End Batch.

(** ** Names *)
Lemma rsplit_none l : ~ In DOT l -> rsplit_dot l = None.
Proof.
  induction l as [|b l IH]; intros H; [reflexivity|]. cbn [rsplit_dot]. rewrite IH by (intros X; apply H; now right).
  destruct (Z.eqb_spec b DOT) as [->|]; [|reflexivity]. exfalso. apply H. now left.
Qed.
Lemma rsplit_last s x : ~ In DOT x -> rsplit_dot (s ++ [DOT] ++ x) = Some (s, x).
Proof.
  intros H. induction s as [|b s IH]; cbn [app rsplit_dot]; [now rewrite rsplit_none by exact H|].
  change (s ++ DOT :: x) with (s ++ [DOT] ++ x). now rewrite IH.
Qed.
Lemma file_name_dot s x : s <> [] -> x <> [] -> is_file_name (s ++ [DOT] ++ x) = true.
Proof.
  intros Hs Hx. unfold is_file_name. apply negb_true_iff. apply orb_false_iff. split; [apply orb_false_iff; split|].
  - destruct s; [now elim Hs|reflexivity].
  - destruct s as [|a s]; [now elim Hs|]. destruct s; cbn [app list_eqb]; now rewrite andb_false_r.
  - destruct s as [|a s]; [now elim Hs|]. destruct x as [|y x]; [now elim Hx|]. destruct s as [|b s]; cbn [app list_eqb].
    + now rewrite !andb_false_r.
    + destruct s; cbn [app list_eqb]; now rewrite !andb_false_r.
Qed.
Lemma stem_dot s x : s <> [] -> x <> [] -> ~ In DOT x -> file_stem (s ++ [DOT] ++ x) = Some s /\ extension (s ++ [DOT] ++ x) = Some x.
Proof.
  intros Hs Hx Hd. unfold file_stem, extension. rewrite file_name_dot, rsplit_last by auto. destruct s; [now elim Hs|auto].
Qed.
