(** * The tool's file operations: an invariant of every task *)
From Coq Require Import ZArith List Bool Lia.
From Verif Require Import Model.Base Model.Cli Model.CliFiles Model.CliIO Spec.FileIO Proofs.BaseFacts.
Import ListNotations.

Lemma put_same f id b : put f id b id = Some b.
Proof. unfold put. now rewrite Nat.eqb_refl. Qed.
Lemma put_other f id b i : i <> id -> put f id b i = f i.
Proof. unfold put. intros H. now rewrite (proj2 (Nat.eqb_neq i id) H). Qed.
Lemma write_at_end b n piece left : skipn n b = piece ++ left -> (n <= length b)%nat ->
  write_at (firstn n b) n piece = firstn (n + length piece) b /\ skipn (n + length piece) b = left /\ (n + length piece <= length b)%nat.
Proof.
  intros H L. assert (LF : length (firstn n b) = n) by (rewrite firstn_length; lia).
  assert (E : b = firstn n b ++ piece ++ left) by (rewrite <- H; now rewrite firstn_skipn).
  assert (LB : length b = (n + length piece + length left)%nat) by (rewrite E at 1; rewrite !app_length, LF; lia).
  split; [|split; [|lia]].
  - unfold write_at. rewrite LF, Nat.sub_diag. cbn [repeat]. rewrite app_nil_r, firstn_firstn, Nat.min_id.
    rewrite (skipn_all2 (firstn n b)) by lia. rewrite app_nil_r. rewrite E at 2.
    rewrite firstn_app, LF. replace (n + length piece - n)%nat with (length piece) by lia.
    rewrite firstn_app, firstn_all, Nat.sub_diag. cbn [firstn]. rewrite app_nil_r. f_equal. symmetry. apply firstn_all2. lia.
  - rewrite E at 1. rewrite app_assoc, skipn_app. rewrite app_length, LF.
    rewrite skipn_all2 by (rewrite app_length, LF; lia). now rewrite Nat.sub_diag.
Qed.

Lemma NoDup_parts {A} (l r : list A) : NoDup (l ++ r) -> NoDup l /\ NoDup r /\ forall a, In a l -> ~ In a r.
Proof.
  induction l as [|a l IH]; cbn [app]; intros H; [repeat split; auto; constructor|].
  apply NoDup_cons_iff in H. destruct H as [N H]. destruct (IH H) as (H1 & H2 & H3). repeat split; auto.
  - constructor; auto. intros I. apply N, in_or_app. auto.
  - intros b [<-|Hb]; [intros I; apply N, in_or_app; auto|auto].
Qed.

Section Tasks.
Variables (p : profile) (level : Z) (d : disk) (dir : bytes) (f0 : store).

Definition untouched (f : store) (x : path) (ks : list kind) : Prop :=
  forall k o, In k ks -> out_file d dir x k = Some o -> f o = f0 o.
Definition complete (f : store) (x : path) (ks : list kind) : Prop :=
  forall k, In k ks -> exists o b, out_file d dir x k = Some o /\ converted p level d f0 x k = Some (Ok b) /\ f o = Some b.
(** What is true of a task on input [x] in files [f], when the run began in [f0]. *)
Definition task_ok (f : store) (x : path) (t : task) : Prop :=
  exists done rest, kinds_of (snd x) = done ++ rest /\ complete f x done /\
  match t with
  | Begin ks => rest = ks /\ untouched f x rest
  | Reading k id got ks => rest = k :: ks /\ untouched f x rest /\ opens d x = Some id /\
      exists b, f0 id = Some b /\ got = firstn (length got) b
  | Computed out save ks => exists k n, rest = k :: ks /\ untouched f x rest /\ out_name k (snd x) = Some n /\ out = (dir, n) /\
      converted p level d f0 x k = Some save
  | Writing id pos todo ks => exists k b, rest = k :: ks /\ untouched f x ks /\ out_file d dir x k = Some id /\
      converted p level d f0 x k = Some (Ok b) /\ (pos <= length b)%nat /\ skipn pos b = todo /\ f id = Some (firstn pos b)
  | Stopped => exists k ks, rest = k :: ks /\ untouched f x ks /\ stuck p level d dir f0 x k /\
      forall o, out_file d dir x k = Some o -> f o = f0 o \/ f o = Some [] /\ exists save, converted p level d f0 x k = Some save
  | Failed => exists k ks o b n, rest = k :: ks /\ untouched f x ks /\ out_file d dir x k = Some o /\
      converted p level d f0 x k = Some (Ok b) /\ f o = Some (firstn n b)
  end.

Lemma out_distinct x done k ks o : NoDup (out_files d dir x) -> kinds_of (snd x) = done ++ k :: ks -> out_file d dir x k = Some o ->
  forall k', In k' (done ++ ks) -> out_file d dir x k' <> Some o.
Proof.
  unfold out_files. intros HN E Ho k' Hk' Ho'. rewrite E in HN. rewrite flat_map_app in HN. cbn [flat_map] in HN. rewrite Ho in HN.
  cbn [app] in HN. apply NoDup_remove_2 in HN. apply HN. rewrite <- flat_map_app. apply in_flat_map. exists k'. split; [exact Hk'|]. rewrite Ho'. now left.
Qed.
Lemma out_in x done k ks o : kinds_of (snd x) = done ++ k :: ks -> out_file d dir x k = Some o -> In o (out_files d dir x).
Proof.
  intros E Ho. unfold out_files. apply in_flat_map. exists k. split; [rewrite E; apply in_elt|]. rewrite Ho. now left.
Qed.
Lemma complete_put f x done o b : complete f x done -> (forall k, In k done -> out_file d dir x k <> Some o) -> complete (put f o b) x done.
Proof.
  intros H N k Hk. destruct (H k Hk) as (o' & b' & E1 & E2 & E3). exists o', b'. repeat split; auto. rewrite put_other; auto. intros ->. now elim (N k Hk).
Qed.
Lemma untouched_put f x ks o b : untouched f x ks -> (forall k, In k ks -> out_file d dir x k <> Some o) -> untouched (put f o b) x ks.
Proof. intros H N k o' Hk E. rewrite put_other; [now apply (H k)|]. intros ->. now elim (N k Hk). Qed.
Lemma untouched_tail f x k ks : untouched f x (k :: ks) -> untouched f x ks.
Proof. intros H k' o Hk E. apply (H k'); auto. now right. Qed.

Lemma op_ok f x t f' t' : NoDup (out_files d dir x) -> (forall id, opens d x = Some id -> f id = f0 id) ->
  task_ok f x t -> operation p level d dir x f t f' t' ->
  task_ok f' x t' /\ (forall o, ~ In o (out_files d dir x) -> f' o = f o).
Proof.
  intros HN HI (done & rest & EK & HC & HT) HO. destruct HO.
  - (* open *) destruct HT as (-> & HU). split; [|auto]. exists done, (k :: ks). repeat split; auto. exists b. split; [now rewrite <- HI|reflexivity].
  - (* cannot open *) destruct HT as (-> & HU). split; [|auto]. exists done, (k :: ks). repeat split; auto. exists k, ks. repeat split; eauto using untouched_tail.
    + right. intros b. unfold converted. destruct H as [->|(id & E & F)]; [discriminate|]. rewrite E, <- HI, F by exact E. discriminate.
    + intros o Ho. left. apply (HU k); auto. now left.
  - (* read *) destruct HT as (-> & HU & HO' & b & Fb & Hg). split; [|auto]. exists done, (k :: ks). repeat split; auto. exists b. split; [exact Fb|].
    unfold content. rewrite (HI id HO'), Fb. rewrite app_length. rewrite Hg at 1.
    set (m := length got) in *. assert (LM : (m <= length b)%nat) by (apply (f_equal (@length Z)) in Hg; rewrite firstn_length in Hg; lia).
    rewrite firstn_length, skipn_length.
    transitivity (firstn (m + n) b).
    + rewrite <- (firstn_skipn m b) at 3. rewrite firstn_app, firstn_firstn, firstn_length. replace (Nat.min (m + n) m) with m by lia.
      now replace (m + n - Nat.min m (length b))%nat with n by lia.
    + destruct (Nat.le_gt_cases n (length b - m)); [now replace (m + Nat.min n (length b - m))%nat with (m + n)%nat by lia|].
      rewrite !firstn_all2; auto; lia.
  - (* convert *) destruct HT as (-> & HU & HO' & b & Fb & Hg). split; [|auto]. exists done, (k :: ks). repeat split; auto. exists k, n. repeat split; auto.
    unfold converted. rewrite HO', Fb. unfold content in H. rewrite (HI id HO'), Fb in H. rewrite firstn_all2 in Hg by exact H. subst b. now rewrite H0.
  - (* give up *) destruct HT as (-> & HU & HO' & b & Fb & Hg). split; [|auto]. exists done, (k :: ks). repeat split; auto. exists k, ks.
    repeat split; eauto using untouched_tail.
    + destruct H0 as [E|E]; [left; unfold out_file; now rewrite E|]. right. intros r. unfold converted. rewrite HO', Fb.
      unfold content in H. rewrite (HI id HO'), Fb in H. rewrite firstn_all2 in Hg by exact H. subst b.
      destruct (compute p level k got) as [[s|]| |] eqn:EC; try discriminate. now elim (E s).
    + intros o Ho. left. apply (HU k); auto. now left.
  - (* create *) destruct HT as (k & n & -> & HU & En & -> & EC).
    assert (Ho : out_file d dir x k = Some id) by (unfold out_file; now rewrite En).
    pose proof (out_distinct x done k ks id HN EK Ho) as D.
    split; [|intros o No; rewrite put_other; auto; intros ->; now elim No; eapply out_in; eauto].
    exists done, (k :: ks). split; [exact EK|]. split; [apply complete_put; auto; intros k' Hk'; apply D, in_or_app; auto|].
    exists k, b. repeat split; auto; [apply untouched_put; eauto using untouched_tail; intros k' Hk'; apply D, in_or_app; auto|lia|apply put_same].
  - (* create, panic *) destruct HT as (k & n & -> & HU & En & -> & EC).
    assert (Ho : out_file d dir x k = Some id) by (unfold out_file; now rewrite En).
    pose proof (out_distinct x done k ks id HN EK Ho) as D.
    split; [|intros o No; rewrite put_other; auto; intros ->; now elim No; eapply out_in; eauto].
    exists done, (k :: ks). split; [exact EK|]. split; [apply complete_put; auto; intros k' Hk'; apply D, in_or_app; auto|].
    exists k, ks. repeat split; auto.
    + apply untouched_put; eauto using untouched_tail. intros k' Hk'. apply D, in_or_app. auto.
    + right. intros b. rewrite EC. intros E. injection E as ->. now elim (H0 b).
    + intros o Ho'. right. rewrite Ho in Ho'. injection Ho' as <-. split; [apply put_same|eauto].
  - (* cannot create *) destruct HT as (k & n & -> & HU & En & -> & EC). split; [|auto]. exists done, (k :: ks). repeat split; auto. exists k, ks.
    assert (Ho : out_file d dir x k = None) by (unfold out_file; now rewrite En).
    split; [reflexivity|]. split; [eauto using untouched_tail|]. split; [now left|]. intros o Ho'. congruence.
  - (* write *) destruct HT as (k & b & -> & HU & Ho & EC & Hp & Hs & Hf).
    pose proof (out_distinct x done k ks id HN EK Ho) as D.
    split; [|intros o No; rewrite put_other; auto; intros ->; now elim No; eapply out_in; eauto].
    destruct (write_at_end b pos piece left Hs Hp) as (W1 & W2 & W3).
    exists done, (k :: ks). split; [exact EK|]. split; [apply complete_put; auto; intros k' Hk'; apply D, in_or_app; auto|].
    exists k, b. split; [reflexivity|]. split; [apply untouched_put; auto; intros k' Hk'; apply D, in_or_app; auto|]. do 4 (split; [assumption|]).
    rewrite put_same. unfold content. now rewrite Hf, W1.
  - (* write error *) destruct HT as (k & b & -> & HU & Ho & EC & Hp & Hs & Hf). split; [|auto]. exists done, (k :: ks). repeat split; auto.
    exists k, ks, id, b, pos. auto.
  - (* close *) destruct HT as (k & b & -> & HU & Ho & EC & Hp & Hs & Hf). split; [|auto]. exists (done ++ [k]), ks.
    split; [now rewrite <- app_assoc|]. split; [|auto]. intros k' Hk'. apply in_app_or in Hk'. destruct Hk' as [Hk'|[<-|[]]]; auto.
    exists id, b. repeat split; auto. rewrite Hf. f_equal. rewrite <- (firstn_skipn pos b) at 2. rewrite Hs. now rewrite app_nil_r.
Qed.

Lemma task_ok_frame f f' x t : (forall o, In o (out_files d dir x) -> f' o = f o) -> task_ok f x t -> task_ok f' x t.
Proof.
  intros HF (done & rest & EK & HC & HT).
  assert (I : forall k o, In k (done ++ rest) -> out_file d dir x k = Some o -> f' o = f o).
  { intros k o Hk Ho. apply HF. unfold out_files. rewrite EK. apply in_flat_map. exists k. rewrite Ho. split; [auto|now left]. }
  assert (U : forall ks, incl ks rest -> untouched f x ks -> untouched f' x ks).
  { intros ks Hi HU k o Hk Ho. rewrite (I k o); auto; [now apply (HU k)|]. apply in_or_app. auto. }
  assert (TL : forall k ks, rest = k :: ks -> incl ks rest) by (intros k ks -> k' Hk'; now right).
  assert (HD : forall k ks o, rest = k :: ks -> out_file d dir x k = Some o -> f' o = f o) by (intros k ks o -> Ho; apply (I k); auto; apply in_elt).
  exists done, rest. split; [exact EK|]. split.
  { intros k Hk. destruct (HC k Hk) as (o & b & E1 & E2 & E3). exists o, b. repeat split; auto. rewrite (I k); auto. apply in_or_app. auto. }
  destruct t.
  - destruct HT as (-> & HU). auto using incl_refl.
  - destruct HT as (-> & HU & H). auto using incl_refl.
  - destruct HT as (k & n & E & HU & H). exists k, n. auto using incl_refl.
  - destruct HT as (k & b & E & HU & Ho & H1 & H2 & H3 & H4). exists k, b. repeat split; eauto. now rewrite (HD k ks id).
  - destruct HT as (k & ks & E & HU & HS & H). exists k, ks. repeat split; eauto. intros o Ho. rewrite (HD k ks o) by auto. auto.
  - destruct HT as (k & ks & o & b & n & E & HU & Ho & HC' & H). exists k, ks, o, b, n. repeat split; eauto. now rewrite (HD k ks o).
Qed.

Lemma start_ok x : task_ok f0 x (start x).
Proof. exists [], (kinds_of (snd x)). split; [reflexivity|]. split; [intros k []|]. split; [reflexivity|intros k o _ _; reflexivity]. Qed.

Lemma run_ok inputs f ts : apart d dir inputs -> run p level d dir inputs f0 (map start inputs) f ts ->
  length ts = length inputs /\
  (forall o, ~ In o (flat_map (out_files d dir) inputs) -> f o = f0 o) /\
  (forall i x t, nth_error inputs i = Some x -> nth_error ts i = Some t -> task_ok f x t).
Proof.
  intros [HN HA] HR. remember (map start inputs) as ts0 eqn:E0. remember f0 as f00 eqn:E00 in HR.
  induction HR as [f ts|f ts f1 ts1 i x t f2 t2 HR IH Hx Ht HO]; subst.
  - split; [apply map_length|]. split; [auto|]. intros i x t Hx Ht. rewrite (map_nth_error start i inputs Hx) in Ht. injection Ht as <-. apply start_ok.
  - destruct (IH eq_refl eq_refl) as (HL & HU & HT). clear IH.
    assert (N1 : forall i x, nth_error inputs i = Some x -> NoDup (out_files d dir x)).
    { clear - HN. induction inputs as [|y l IH]; intros i x H; [destruct i; discriminate H|]. cbn [flat_map] in HN.
      destruct i as [|i]; [injection H as <-; now apply NoDup_parts in HN|]. apply NoDup_parts in HN. now apply (IH (proj1 (proj2 HN)) i). }
    assert (ND : forall i j x y o, i <> j -> nth_error inputs i = Some x -> nth_error inputs j = Some y -> In o (out_files d dir x) -> ~ In o (out_files d dir y)).
    { clear - HN. induction inputs as [|z l IH]; intros i j x y o Hij Hi Hj Ho Ho'; [destruct i; discriminate Hi|]. cbn [flat_map] in HN.
      assert (G : forall k w, nth_error l k = Some w -> In o (out_files d dir w) -> In o (flat_map (out_files d dir) l)).
      { intros k w Hk Hw. apply in_flat_map. exists w. split; [eapply nth_error_In; eauto|exact Hw]. }
      destruct i as [|i], j as [|j]; try congruence; cbn [nth_error] in Hi, Hj.
      - injection Hi as <-. apply NoDup_parts in HN. destruct HN as (_ & _ & HN). apply (HN o Ho). eauto.
      - injection Hj as <-. apply NoDup_parts in HN. destruct HN as (_ & _ & HN). apply (HN o Ho'). eauto.
      - apply NoDup_parts in HN. apply (IH (proj1 (proj2 HN)) i j x y o); auto. }
    destruct (op_ok f1 x t f2 t2) as [OK OF]; auto; [now apply (N1 i)| |now apply (HT i)|].
    { intros id Hid. apply HU. apply (HA x); auto. eapply nth_error_In; eauto. }
    split; [now rewrite length_replace_nth|]. split.
    + intros o Ho. rewrite OF; [now apply HU|]. intros Hin. apply Ho. apply in_flat_map. exists x. split; [eapply nth_error_In; eauto|exact Hin].
    + intros j y s Hy Hs. destruct (Nat.eq_dec i j) as [<-|Hij].
      * rewrite nth_error_replace_same in Hs by (rewrite HL; apply nth_error_Some; congruence). injection Hs as <-. rewrite Hx in Hy. injection Hy as <-. exact OK.
      * rewrite nth_error_replace_other in Hs by exact Hij. apply (task_ok_frame f1); [|now apply (HT j)].
        intros o Ho. apply OF. intros Ho'. apply (ND i j x y o); auto.
Qed.
End Tasks.
