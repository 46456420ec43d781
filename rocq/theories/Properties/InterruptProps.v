(** * Property C70: a run of the tool at any moment

    [run] (Model/CliIO.v) are the executions of the tool, finished or cut off anywhere;
    [apart], [out_file], [converted] and [stuck] are in Spec/FileIO.v. *)
From Coq Require Import ZArith String List Bool Lia.
From Verif Require Import Model.Base Model.Wav Model.Cli Model.CliFiles Model.CliIO Spec.FileIO
  Proofs.BaseFacts Proofs.IOFacts Properties.BatchProps.
Import ListNotations.

(** ** Lemmas *)
Section Single.
Variables (p : profile) (level : Z) (d : disk) (dir : bytes).
Lemma op_write_all x f id pos todo ks :
  operation p level d dir x f (Writing id pos todo ks) (put f id (write_at (content f id) pos todo)) (Writing id (pos + List.length todo) [] ks).
Proof. rewrite <- (app_nil_r todo) at 1. apply op_write. Qed.
(** A task can do nothing more. *)
Definition over (t : task) : Prop := match t with Begin [] | Stopped | Failed => True | _ => False end.
Inductive ops (x : path) : store -> task -> store -> task -> Prop :=
| ops_none f t : ops x f t f t
| ops_more f t f1 t1 f2 t2 : operation p level d dir x f t f1 t1 -> ops x f1 t1 f2 t2 -> ops x f t f2 t2.
Lemma ops_last x f t f1 t1 f2 t2 : ops x f t f1 t1 -> operation p level d dir x f1 t1 f2 t2 -> ops x f t f2 t2.
Proof. induction 1; intros H'; [eapply ops_more; [exact H'|constructor]|eapply ops_more; eauto]. Qed.
Lemma ops_trans x f t f1 t1 f2 t2 : ops x f t f1 t1 -> ops x f1 t1 f2 t2 -> ops x f t f2 t2.
Proof. induction 1; intros H'; [exact H'|eapply ops_more; eauto]. Qed.
Lemma ops_run inputs f0 ts0 x i f t f' t' ts : ops x f t f' t' -> nth_error inputs i = Some x ->
  nth_error ts i = Some t -> run p level d dir inputs f0 ts0 f ts ->
  run p level d dir inputs f0 ts0 f' (replace_nth i ts t').
Proof.
  intros HO Hx. revert ts. induction HO as [f t|f t f1 t1 f2 t2 HO _ IH]; intros ts Ht HR.
  - enough (E : replace_nth i ts t = ts) by now rewrite E. clear - Ht. revert i Ht. induction ts as [|a ts IH]; intros [|i] Ht; try discriminate Ht; cbn in *.
    + now injection Ht as ->.
    + now rewrite IH.
  - assert (E : replace_nth i ts t2 = replace_nth i (replace_nth i ts t1) t2).
    { clear. revert i. induction ts as [|a ts IH]; intros [|i]; cbn; auto. now rewrite <- IH. }
    rewrite E. apply IH.
    + apply nth_error_replace_same. apply nth_error_Some. congruence.
    + eapply run_more; eauto.
Qed.
Lemma finish_begin x ks : forall f, exists f' t', ops x f (Begin ks) f' t' /\ over t' /\ t' <> Failed.
Proof.
  assert (W : forall ks, (forall f, exists f' t', ops x f (Begin ks) f' t' /\ over t' /\ t' <> Failed) ->
    forall f id pos todo, exists f' t', ops x f (Writing id pos todo ks) f' t' /\ over t' /\ t' <> Failed).
  { intros l H f id pos todo. destruct (H (put f id (write_at (content f id) pos todo))) as (f' & t' & HO & HT). exists f', t'. split; [|exact HT].
    eapply ops_more; [apply op_write_all|]. eapply ops_more; [apply op_close|]. exact HO. }
  induction ks as [|k ks IH]; intros f; [exists f, (Begin []); repeat split; [constructor|discriminate]|].
  assert (STOP : forall g f1 t1 t2, ops x f t1 f1 t2 -> operation p level d dir x f1 t2 g Stopped -> exists f' t', ops x f t1 f' t' /\ over t' /\ t' <> Failed).
  { intros g f1 t1 t2 HO HS. exists g, Stopped. split; [|split; [exact I|discriminate]]. eapply ops_last; eauto. }
  destruct (opens d x) as [id|] eqn:EO; [|eapply STOP; [constructor|]; apply op_cannot_open; auto].
  destruct (f id) as [b|] eqn:EF; [|eapply STOP; [constructor|]; apply op_cannot_open; eauto].
  assert (R : ops x f (Begin (k :: ks)) f (Reading k id b ks)).
  { eapply ops_more; [eapply op_open; eauto|]. eapply ops_more; [apply (op_read _ _ _ _ _ _ _ _ _ (List.length b))|].
    cbn [List.length skipn app]. unfold content. rewrite EF, firstn_all. constructor. }
  assert (LE : (List.length (content f id) <= List.length b)%nat) by (unfold content; rewrite EF; lia).
  destruct (out_name k (snd x)) as [n|] eqn:EN; [|eapply STOP; [exact R|]; apply op_give_up; auto].
  destruct (compute p level k b) as [[save|]| |] eqn:EC;
    try (eapply STOP; [exact R|]; apply op_give_up; auto; right; intros s; rewrite EC; discriminate).
  assert (C : ops x f (Begin (k :: ks)) f (Computed (dir, n) save ks)).
  { eapply ops_last; [exact R|]. eapply op_convert; eauto. }
  destruct (creates d (dir, n)) as [o|] eqn:ED; [|eapply STOP; [exact C|]; now apply op_cannot_create].
  assert (SV : (exists b, save = Ok b) \/ forall b, save <> Ok b) by (destruct save; [left; eauto| |]; right; discriminate).
  destruct SV as [(r & ->)|NS]; [|eapply STOP; [exact C|]; eapply op_create_panic; eauto].
  destruct (W ks IH (put f o []) o 0%nat r) as (f' & t' & HO & HT). exists f', t'. split; [|exact HT].
  eapply ops_trans; [exact C|]. eapply ops_more; [eapply op_create; eauto|exact HO].
Qed.
Lemma finish x f t : exists f' t', ops x f t f' t' /\ over t' /\ (t' = Failed -> t = Failed).
Proof.
  assert (B : forall f ks, exists f' t', ops x f (Begin ks) f' t' /\ over t' /\ t' <> Failed) by (intros; apply finish_begin).
  assert (W : forall f id pos todo ks, exists f' t', ops x f (Writing id pos todo ks) f' t' /\ over t' /\ t' <> Failed).
  { intros g id pos todo ks. destruct (B (put g id (write_at (content g id) pos todo)) ks) as (f' & t' & HO & HT). exists f', t'. split; [|exact HT].
    eapply ops_more; [apply op_write_all|]. eapply ops_more; [apply op_close|]. exact HO. }
  assert (C : forall f out save ks, exists f' t', ops x f (Computed out save ks) f' t' /\ over t' /\ t' <> Failed).
  { intros g out save ks. destruct (creates d out) as [o|] eqn:ED.
    - assert (SV : (exists b, save = Ok b) \/ forall b, save <> Ok b) by (destruct save; [left; eauto| |]; right; discriminate).
      destruct SV as [(r & ->)|NS].
      + destruct (W (put g o []) o 0%nat r ks) as (f' & t' & HO & HT). exists f', t'. split; [|exact HT]. eapply ops_more; [eapply op_create; eauto|exact HO].
      + exists (put g o []), Stopped. repeat split; [|discriminate]. eapply ops_more; [eapply op_create_panic; eauto|constructor].
    - exists g, Stopped. repeat split; [|discriminate]. eapply ops_more; [now apply op_cannot_create|constructor]. }
  destruct t as [ks|k id got ks|out save ks|id pos todo ks| |].
  - destruct (B f ks) as (f' & t' & H1 & H2 & H3). exists f', t'. repeat split; auto. intros E. now elim H3.
  - set (all := got ++ skipn (List.length got) (content f id)).
    assert (R : operation p level d dir x f (Reading k id got ks) f (Reading k id all ks)).
    { pose proof (op_read p level d dir x f k id got (List.length (skipn (List.length got) (content f id))) ks) as H. now rewrite firstn_all in H. }
    assert (LE : (List.length (content f id) <= List.length all)%nat) by (subst all; rewrite app_length, skipn_length; lia).
    clearbody all.
    assert (S : forall t, operation p level d dir x f (Reading k id all ks) f t -> t = Stopped -> exists f' t', ops x f (Reading k id got ks) f' t' /\ over t' /\ (t' = Failed -> Reading k id got ks = Failed)).
    { intros t HO ->. exists f, Stopped. repeat split; [|discriminate]. eapply ops_more; [exact R|]. eapply ops_more; [exact HO|constructor]. }
    destruct (out_name k (snd x)) as [n|] eqn:EN; [|eapply S; [apply op_give_up; auto|reflexivity]].
    destruct (compute p level k all) as [[save|]| |] eqn:EC;
      try (eapply S; [apply op_give_up; auto; right; intros s; rewrite EC; discriminate|reflexivity]).
    destruct (C f (dir, n) save ks) as (f' & t' & H1 & H2 & H3). exists f', t'. repeat split; auto; [|intros E; now elim H3].
    eapply ops_more; [exact R|]. eapply ops_more; [eapply op_convert; eauto|exact H1].
  - destruct (C f out save ks) as (f' & t' & H1 & H2 & H3). exists f', t'. repeat split; auto. intros E. now elim H3.
  - destruct (W f id pos todo ks) as (f' & t' & H1 & H2 & H3). exists f', t'. repeat split; auto. intros E. now elim H3.
  - exists f, Stopped. split; [constructor|]. split; [exact I|auto].
  - exists f, Failed. split; [constructor|]. split; [exact I|auto].
Qed.
End Single.

(** ** C70 *)
(** At every moment of every run: a file that is nobody's output, every input among them, is as it was; an
    output is as it was, or empty, or a beginning of what its input converts to. *)
Theorem C70_any_moment : forall p level d dir inputs f0 f ts, apart d dir inputs ->
  run p level d dir inputs f0 (map start inputs) f ts ->
  (forall id, ~ In id (flat_map (out_files d dir) inputs) -> f id = f0 id) /\
  (forall x id, In x inputs -> opens d x = Some id -> f id = f0 id) /\
  (forall x k o, In x inputs -> In k (kinds_of (snd x)) -> out_file d dir x k = Some o ->
     f o = f0 o \/
     exists save, converted p level d f0 x k = Some save /\
       (f o = Some [] \/ exists b n, save = Ok b /\ f o = Some (firstn n b))).
Proof.
  intros p level d dir inputs f0 f ts HA HR. destruct (run_ok p level d dir f0 inputs f ts HA HR) as (HL & HU & HT). split; [exact HU|]. split.
  - intros x id Hx Hid. apply HU. now apply (proj2 HA x).
  - intros x k o Hx Hk Ho. apply In_nth_error in Hx. destruct Hx as (i & Hi).
    destruct (nth_error ts i) as [t|] eqn:Et; [|apply nth_error_None in Et; assert (i < List.length inputs)%nat by (apply nth_error_Some; congruence); lia].
    destruct (HT i x t Hi Et) as (done & rest & EK & HC & HS). rewrite EK in Hk. apply in_app_or in Hk. destruct Hk as [Hk|Hk].
    + destruct (HC k Hk) as (o' & b & E1 & E2 & E3). rewrite Ho in E1. injection E1 as <-. right. exists (Ok b). split; [exact E2|]. right.
      exists b, (List.length b). split; [reflexivity|]. now rewrite firstn_all.
    + destruct t as [ks|k' id got ks|out save ks|id pos todo ks| |].
      * destruct HS as (-> & HS). left. now apply (HS k).
      * destruct HS as (-> & HS & _). left. now apply (HS k).
      * destruct HS as (k' & n & -> & HS & _). left. now apply (HS k).
      * destruct HS as (k' & b & -> & HS & Ho' & HC' & _ & _ & Hf). destruct Hk as [<-|Hk]; [|left; now apply (HS k)].
        rewrite Ho in Ho'. injection Ho' as <-. right. exists (Ok b). split; [exact HC'|]. right. eauto.
      * destruct HS as (k' & ks & -> & HS & _ & Hf). destruct Hk as [<-|Hk]; [|left; now apply (HS k)].
        destruct (Hf o Ho) as [E|[E (save & Es)]]; [now left|]. right. exists save. auto.
      * destruct HS as (k' & ks & o' & b & n & -> & HS & Ho' & HC' & Hf). destruct Hk as [<-|Hk]; [|left; now apply (HS k)].
        rewrite Ho in Ho'. injection Ho' as <-. right. exists (Ok b). split; [exact HC'|]. right. eauto.
Qed.
(** An input that is done has all its outputs complete, whatever the other inputs are doing or went through;
    an input the tool gave up on has a conversion that cannot be carried out. *)
Theorem C70_finished : forall p level d dir inputs f0 f ts i x, apart d dir inputs ->
  run p level d dir inputs f0 (map start inputs) f ts -> nth_error inputs i = Some x ->
  (nth_error ts i = Some (Begin []) -> forall k, In k (kinds_of (snd x)) ->
     exists o b, out_file d dir x k = Some o /\ converted p level d f0 x k = Some (Ok b) /\ f o = Some b) /\
  (nth_error ts i = Some Stopped -> exists k, In k (kinds_of (snd x)) /\ stuck p level d dir f0 x k).
Proof.
  intros p level d dir inputs f0 f ts i x HA HR Hx. destruct (run_ok p level d dir f0 inputs f ts HA HR) as (_ & _ & HT). split; intros Ht.
  - destruct (HT i x _ Hx Ht) as (done & rest & EK & HC & -> & _). rewrite app_nil_r in EK. rewrite EK. exact HC.
  - destruct (HT i x _ Hx Ht) as (done & rest & EK & HC & k & ks & -> & _ & HS & _). exists k. split; [rewrite EK; apply in_elt|exact HS].
Qed.
(** No moment is a dead end: from every one of them all inputs can be brought to an end without a further write error. *)
Theorem C70_can_finish : forall p level d dir inputs f0 f ts, run p level d dir inputs f0 (map start inputs) f ts ->
  exists f' ts', run p level d dir inputs f0 (map start inputs) f' ts' /\ List.length ts' = List.length inputs /\
    forall i t, nth_error ts' i = Some t -> over t /\ (t = Failed -> nth_error ts i = Some Failed).
Proof.
  intros p level d dir inputs f0 f ts HR.
  assert (HL : List.length ts = List.length inputs).
  { remember (map start inputs) as ts0. induction HR; subst; [apply map_length|rewrite length_replace_nth; auto]. }
  enough (G : forall n, (n <= List.length inputs)%nat -> exists f' ts', run p level d dir inputs f0 (map start inputs) f' ts' /\ List.length ts' = List.length inputs /\
    (forall i t, nth_error ts' i = Some t -> (i < n)%nat -> over t /\ (t = Failed -> nth_error ts i = Some Failed)) /\
    (forall i, (n <= i)%nat -> nth_error ts' i = nth_error ts i)).
  { destruct (G (List.length inputs) ltac:(lia)) as (f' & ts' & H1 & H2 & H3 & _). exists f', ts'. repeat split; auto; intros; eapply H3; eauto; rewrite <- H2; apply nth_error_Some; congruence. }
  induction n as [|n IH]; intros Hn; [exists f, ts; repeat split; auto; lia|].
  destruct (IH ltac:(lia)) as (f1 & ts1 & H1 & H2 & H3 & H4). clear IH.
  destruct (nth_error inputs n) as [x|] eqn:Ex; [|apply nth_error_None in Ex; lia].
  destruct (nth_error ts1 n) as [t|] eqn:Et; [|apply nth_error_None in Et; lia].
  destruct (finish p level d dir x f1 t) as (f2 & t2 & HO & HV & HF).
  exists f2, (replace_nth n ts1 t2). split; [eapply ops_run; eauto|]. split; [now rewrite length_replace_nth|]. split.
  - intros i s Hs Hi. destruct (Nat.eq_dec n i) as [<-|Ne].
    + rewrite nth_error_replace_same in Hs by lia. injection Hs as <-. split; [exact HV|]. intros E. apply HF in E. rewrite <- H4 by lia. congruence.
    + rewrite nth_error_replace_other in Hs by exact Ne. apply H3; auto. lia.
  - intros i Hi. rewrite nth_error_replace_other by lia. apply H4. lia.
Qed.
(** When two outputs are one file, a run without any error can leave a file that is neither result: the
    longer result with the shorter one written over its beginning. *)
Theorem C70_clash_mixes : forall p level d dir x y f0 o a b,
  kinds_of (snd x) = [WavToAdhoc] -> kinds_of (snd y) = [WavToAdhoc] ->
  out_file d dir x WavToAdhoc = Some o -> out_file d dir y WavToAdhoc = Some o ->
  (opens d x <> Some o) -> (opens d y <> Some o) ->
  converted p level d f0 x WavToAdhoc = Some (Ok a) -> converted p level d f0 y WavToAdhoc = Some (Ok b) ->
  (List.length b < List.length a)%nat ->
  exists f, run p level d dir [x; y] f0 (map start [x; y]) f [Begin []; Begin []] /\
    f o = Some (b ++ skipn (List.length b) a) /\ f o <> Some b /\ (firstn (List.length b) a <> b -> f o <> Some a).
Proof.
  intros p level d dir x y f0 o a b Kx Ky Ox Oy Ix Iy Cx Cy HL.
  assert (P : forall z r f, kinds_of (snd z) = [WavToAdhoc] -> out_file d dir z WavToAdhoc = Some o -> converted p level d f0 z WavToAdhoc = Some (Ok r) ->
    (forall i, i <> o -> f i = f0 i) -> opens d z <> Some o ->
    exists out, creates d out = Some o /\ ops p level d dir z f (start z) f (Computed out (Ok r) [])).
  { intros z r f Kz Oz Cz Hf Iz. unfold out_file in Oz. destruct (out_name WavToAdhoc (snd z)) as [n|] eqn:En; [|discriminate Oz].
    exists (dir, n). split; [exact Oz|]. unfold converted in Cz. destruct (opens d z) as [id|] eqn:Eo; [|discriminate Cz].
    assert (Nid : id <> o) by congruence. pose proof (Hf id Nid) as Hid. destruct (f0 id) as [c|] eqn:Ec; [|discriminate Cz].
    destruct (compute p level WavToAdhoc c) as [s| |] eqn:EC; try discriminate Cz. subst s. unfold start. rewrite Kz.
    eapply ops_more; [eapply op_open; eauto|]. eapply ops_more; [apply (op_read _ _ _ _ _ _ _ _ _ (List.length c))|].
    cbn [List.length skipn app]. unfold content. rewrite Hid, firstn_all. eapply ops_more; [eapply op_convert; eauto|constructor].
    unfold content. rewrite Hid. lia. }
  destruct (P x a f0 Kx Ox Cx (fun _ _ => eq_refl) Ix) as (ox & Dx & Rx).
  set (f1 := put f0 o []).
  assert (H1 : forall i, i <> o -> f1 i = f0 i) by (intros i Hi; now apply put_other).
  destruct (P y b f1 Ky Oy Cy H1 Iy) as (oy & Dy & Ry).
  set (f2 := put f1 o []). set (f3 := put f2 o (write_at (content f2 o) 0 a)). set (f4 := put f3 o (write_at (content f3 o) 0 b)).
  assert (E3 : content f3 o = a).
  { unfold content, f3. rewrite put_same. unfold write_at. cbn [firstn app plus]. unfold content, f2. rewrite put_same. rewrite skipn_nil. apply app_nil_r. }
  assert (E4 : f4 o = Some (b ++ skipn (List.length b) a)).
  { unfold f4. rewrite put_same, E3. reflexivity. }
  assert (R1 : run p level d dir [x; y] f0 (map start [x; y]) f0 [Computed ox (Ok a) []; start y]).
  { apply (ops_run p level d dir [x; y] f0 (map start [x; y]) x 0 f0 (start x) f0 _ [start x; start y] Rx eq_refl eq_refl). constructor. }
  assert (R2 : run p level d dir [x; y] f0 (map start [x; y]) f1 [Writing o 0 a []; start y]).
  { apply (run_more _ _ _ _ _ _ _ _ _ 0%nat x _ _ _ R1 eq_refl eq_refl). now apply op_create with (id := o). }
  assert (R3 : run p level d dir [x; y] f0 (map start [x; y]) f1 [Writing o 0 a []; Computed oy (Ok b) []]).
  { apply (ops_run p level d dir [x; y] f0 (map start [x; y]) y 1 f1 (start y) f1 _ [Writing o 0 a []; start y] Ry eq_refl eq_refl R2). }
  assert (R4 : run p level d dir [x; y] f0 (map start [x; y]) f2 [Writing o 0 a []; Writing o 0 b []]).
  { apply (run_more _ _ _ _ _ _ _ _ _ 1%nat y _ _ _ R3 eq_refl eq_refl). now apply op_create with (id := o). }
  assert (R5 : run p level d dir [x; y] f0 (map start [x; y]) f3 [Writing o (0 + List.length a) [] []; Writing o 0 b []]).
  { apply (run_more _ _ _ _ _ _ _ _ _ 0%nat x (Writing o 0 a []) f3 (Writing o (0 + List.length a) [] []) R4 eq_refl eq_refl).
    apply op_write_all. }
  assert (R6 : run p level d dir [x; y] f0 (map start [x; y]) f4 [Writing o (0 + List.length a) [] []; Writing o (0 + List.length b) [] []]).
  { apply (run_more _ _ _ _ _ _ _ _ _ 1%nat y (Writing o 0 b []) f4 (Writing o (0 + List.length b) [] []) R5 eq_refl eq_refl).
    apply op_write_all. }
  assert (R7 : run p level d dir [x; y] f0 (map start [x; y]) f4 [Begin []; Writing o (0 + List.length b) [] []]).
  { apply (run_more _ _ _ _ _ _ _ _ _ 0%nat x _ _ (Begin []) R6 eq_refl eq_refl). apply op_close. }
  exists f4. split; [|split; [exact E4|split]].
  - apply (run_more _ _ _ _ _ _ _ _ _ 1%nat y _ _ (Begin []) R7 eq_refl eq_refl). apply op_close.
  - rewrite E4. intros E. injection E as E. apply (f_equal (@List.length Z)) in E. rewrite app_length, skipn_length in E. lia.
  - intros N. rewrite E4. intros E. injection E as E. apply N. rewrite <- E at 1. rewrite firstn_app, firstn_all, Nat.sub_diag. cbn [firstn]. apply app_nil_r.
Qed.
Print Assumptions C70_any_moment.
Print Assumptions C70_finished.
Print Assumptions C70_can_finish.
Print Assumptions C70_clash_mixes.

Open Scope Z_scope.
(** Two recordings, an output directory, and takes whose outputs are one file. *)
Definition demo_disk : disk :=
  let find (l : list (string * string * nat)) (q : path) :=
    option_map snd (List.find (fun e => path_eqb (text (fst (fst e)), text (snd (fst e))) q) l) in
  mkDisk (find [("in", "a.wav", 1%nat); ("in", "b.wav", 2%nat); ("in", "take.1.wav", 1%nat); ("in", "take.2.wav", 2%nat)]%string)
    (find [("out", "a.adhoc", 3%nat); ("out", "b.adhoc", 4%nat); ("out", "take.adhoc", 5%nat)]%string).
Definition demo_store : store := fun id =>
  match id with
  | 1%nat => Some (Spec.Wave.canonical_header 8000 1 600 ++ repeat 0 600)
  | 2%nat => Some (Spec.Wave.canonical_header 8000 1 212 ++ repeat 0 212)
  | 4%nat => Some [1; 2; 3]
  | _ => None
  end.
Example C70_applies :
  apart demo_disk (text "out") [(text "in", text "a.wav"); (text "in", text "b.wav")] /\
  map (out_file demo_disk (text "out") (text "in", text "a.wav")) [WavToAdhoc] = [Some 3%nat].
Proof.
  split; [|reflexivity]. split.
  - vm_compute. repeat constructor; cbn; intuition discriminate.
  - intros x id [<-|[<-|[]]] E; vm_compute in E; injection E as <-; vm_compute; intuition discriminate.
Qed.
Example C70_clash_applies : let x := (text "in", text "take.1.wav") in let y := (text "in", text "take.2.wav") in
  kinds_of (snd x) = [WavToAdhoc] /\ kinds_of (snd y) = [WavToAdhoc] /\
  out_file demo_disk (text "out") x WavToAdhoc = Some 5%nat /\ out_file demo_disk (text "out") y WavToAdhoc = Some 5%nat /\
  match converted Release 5 demo_disk demo_store x WavToAdhoc, converted Release 5 demo_disk demo_store y WavToAdhoc with
  | Some (Ok a), Some (Ok b) => (List.length b < List.length a)%nat /\ list_eqb (firstn (List.length b) a) b = false
  | _, _ => False
  end.
Proof.
  cbv zeta. do 4 (split; [vm_compute; reflexivity|]).
  vm_compute. split; [|reflexivity]. apply Nat.ltb_lt. reflexivity.
Qed.
