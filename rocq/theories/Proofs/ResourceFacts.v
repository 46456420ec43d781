(** * Reading and writing call by call comes to the same as reading and writing whole files *)
From Coq Require Import ZArith List Bool Lia.
From Verif Require Import Model.Base Model.F32 Model.Sample Model.BitStream Model.NibbleList Model.BitVec Model.Frame Model.Adhoc Model.Bincode Model.Wav Model.Resource Spec.Streams
  Proofs.BaseFacts.
Import ListNotations.
Open Scope Z_scope.

(** Reading from a source is reading from its bytes, unless a call fails. *)
Definition sim {A} (sp : sparser A) (pp : parser A) : Prop := forall s,
  match pp (so_left s) with
  | Some (a, r) => (exists sc, sp s = Some (a, mkSource r sc) /\ (calm (so_script s) -> calm sc)) \/ (sp s = None /\ ~ calm (so_script s))
  | None => sp s = None
  end.
Definition eats {A} (pp : parser A) : Prop := forall l a r, pp l = Some (a, r) -> (length r < length l)%nat.

Lemma exact_sim n : forall script left,
  if (n <=? length left)%nat
  then (exists sc, exact script left n = Some (firstn n left, mkSource (skipn n left) sc) /\ (calm script -> calm sc)) \/ (exact script left n = None /\ ~ calm script)
  else exact script left n = None.
Proof.
  intros script. revert n. induction script as [|t script IH]; intros n left.
  - destruct n as [|n]; cbn [exact].
    + left. exists []. split; auto.
    + destruct (S n <=? length left)%nat; [left; exists []; auto|reflexivity].
  - destruct n as [|n].
    + left. exists (t :: script). cbn [exact firstn skipn]. auto.
    + destruct t as [k| | |]; cbn [exact].
      * set (m := Nat.min (S n) (S k)). assert (Hm : (1 <= m <= S n)%nat) by (subst m; lia). clearbody m.
        set (got := firstn m left). assert (Lg : length got = Nat.min m (length left)) by (subst got; apply firstn_length).
        destruct left as [|x left].
        { subst got. rewrite firstn_nil. destruct (Nat.leb_spec (S n) (@length Z [])) as [H|H]; [cbn in H; lia|reflexivity]. }
        assert (G : got <> []) by (intros ->; cbn in Lg; lia). destruct got as [|g0 got0] eqn:EG; [now destruct G|]. rewrite <- EG in *. clear G g0 got0 EG.
        assert (Sk : skipn (length got) (x :: left) = skipn m (x :: left)).
        { rewrite Lg. destruct (Nat.le_gt_cases m (length (x :: left))); [f_equal; lia|]. rewrite !skipn_all2 by lia. reflexivity. }
        rewrite Sk. specialize (IH (S n - length got)%nat (skipn m (x :: left))). rewrite skipn_length in IH.
        destruct (Nat.leb_spec (S n) (length (x :: left))) as [H|H].
        -- assert (E : length got = m) by lia. rewrite E in *. destruct (Nat.leb_spec (S n - m) (length (x :: left) - m)) as [H2|H2]; [|lia].
           assert (E1 : firstn m (x :: left) ++ firstn (S n - m) (skipn m (x :: left)) = firstn (S n) (x :: left)).
           { rewrite <- (firstn_skipn m (x :: left)) at 3. rewrite firstn_app. fold got. rewrite E. f_equal. symmetry. apply firstn_all2. lia. }
           assert (E2 : skipn (S n - m) (skipn m (x :: left)) = skipn (S n) (x :: left)).
           { rewrite <- (firstn_skipn m (x :: left)) at 2. rewrite skipn_app. fold got. rewrite E. rewrite (skipn_all2 got) by lia. reflexivity. }
           destruct IH as [(sc & IH & C)|(IH & C)].
           ++ left. exists sc. rewrite IH. subst got. rewrite E1, E2. split; [reflexivity|]. intros HC. apply C. now inversion HC.
           ++ right. rewrite IH. split; [reflexivity|]. intros HC. apply C. now inversion HC.
        -- destruct (Nat.leb_spec (S n - length got) (length (x :: left) - m)) as [H2|H2]; [lia|]. now rewrite IH.
      * specialize (IH (S n) left). destruct (Nat.leb_spec (S n) (length left)); [|exact IH].
        destruct IH as [(sc & IH & C)|(IH & C)].
        -- left. exists sc. split; [exact IH|]. intros HC. apply C. now inversion HC.
        -- right. split; [exact IH|]. intros HC. apply C. now inversion HC.
      * destruct (_ <=? _)%nat; [|reflexivity]. right. split; [reflexivity|]. intros HC. inversion HC. auto.
      * destruct (_ <=? _)%nat; [|reflexivity]. right. split; [reflexivity|]. intros HC. inversion HC. auto.
Qed.

Lemma sim_ret {A} (a : A) : sim (sret a) (pret a).
Proof. intros [l sc]. cbn. left. exists sc. auto. Qed.
Lemma sim_fail {A} : @sim A (fun _ => None) (fun _ => None).
Proof. intros s. reflexivity. Qed.
Lemma sim_bind {A B} (sp : sparser A) (pp : parser A) (sk : A -> sparser B) (pk : A -> parser B) :
  sim sp pp -> (forall a, sim (sk a) (pk a)) -> sim (sbind sp sk) (pbind pp pk).
Proof.
  intros H K s. unfold sbind, pbind. specialize (H s). destruct (pp (so_left s)) as [[a r]|]; [|now rewrite H].
  destruct H as [(sc & H & C)|(H & C)]; rewrite H.
  - specialize (K a (mkSource r sc)). cbn [so_left so_script] in K. destruct (pk a r) as [[b r2]|]; [|exact K].
    destruct K as [(sc2 & K & C2)|(K & C2)]; [left; exists sc2; auto|right; auto].
  - destruct (pk a r) as [[b r2]|]; [right; auto|reflexivity].
Qed.
Lemma sim_uint n : sim (sread_uint n) (get_uint n).
Proof.
  intros [l sc]. unfold sread_uint, get_uint, sbind, read_exact. cbn [so_left so_script]. pose proof (exact_sim n sc l) as H.
  destruct (n <=? length l)%nat; [|now rewrite H]. destruct H as [(sc2 & H & C)|(H & C)]; rewrite H; [left; exists sc2; auto|right; auto].
Qed.
Lemma sim_i16 : sim sread_i16 get_i16.
Proof. apply sim_bind; [apply sim_uint|]. intros. apply sim_ret. Qed.
Lemma sim_n {A} (sp : sparser A) (pp : parser A) n : sim sp pp -> sim (sread_n sp n) (get_n pp n).
Proof.
  intros H. induction n as [|n IH]; cbn [sread_n get_n]; [apply sim_ret|].
  apply sim_bind; [exact H|]. intros a. apply sim_bind; [exact IH|]. intros. apply sim_ret.
Qed.
Lemma eats_n {A} (pp : parser A) n : eats pp -> forall l v r, get_n pp n l = Some (v, r) -> (n + length r <= length l)%nat.
Proof.
  intros H. induction n as [|n IH]; intros l v r E; cbn [get_n] in E; [injection E as <- <-; lia|].
  unfold pbind, pret in E. destruct (pp l) as [[a r1]|] eqn:P; [|discriminate]. destruct (get_n pp n r1) as [[t r2]|] eqn:P2; [|discriminate].
  injection E as <- <-. apply H in P. apply IH in P2. lia.
Qed.
Lemma sim_vec {A} (sp : sparser A) (pp : parser A) : eats pp -> sim sp pp -> sim (sread_vec sp) (get_vec pp).
Proof.
  intros E H. apply sim_bind; [apply sim_uint|]. intros len s. pose proof (sim_n sp pp (Z.to_nat len) H s) as S.
  destruct (Z.leb_spec len (zlen (so_left s))) as [L|L]; [exact S|].
  destruct (get_n pp (Z.to_nat len) (so_left s)) as [[v r]|] eqn:G; [|exact S].
  apply (eats_n _ _ E) in G. unfold zlen in L. lia.
Qed.
Lemma eats_uint n : (1 <= n)%nat -> eats (get_uint n).
Proof. intros H l a r E. unfold get_uint in E. destruct (Nat.leb_spec n (length l)); [|discriminate]. injection E as _ <-. rewrite skipn_length. lia. Qed.
Lemma eats_bind {A B} (pp : parser A) (k : A -> parser B) : eats pp -> (forall a l b r, k a l = Some (b, r) -> (length r <= length l)%nat) -> eats (pbind pp k).
Proof. intros H K l b r E. unfold pbind in E. destruct (pp l) as [[a r1]|] eqn:P; [|discriminate]. apply H in P. apply K in E. lia. Qed.
Lemma eats_i16 : eats get_i16.
Proof. apply eats_bind; [apply eats_uint; lia|]. intros a l b r E. injection E as _ <-. lia. Qed.
Lemma eats_history : eats get_history.
Proof.
  apply eats_bind; [apply eats_i16|]. intros a l b r E. unfold pbind, pret in E.
  destruct (get_i16 l) as [[x r1]|] eqn:P; [|discriminate]. destruct (get_i16 r1) as [[y r2]|] eqn:P2; [|discriminate]. injection E as _ <-.
  apply eats_i16 in P, P2. lia.
Qed.
Lemma sim_history : sim sread_history get_history.
Proof. do 3 (apply sim_bind; [apply sim_i16|intros]). apply sim_ret. Qed.
Ltac simp := repeat first [apply sim_ret | apply sim_uint | apply sim_i16 | apply sim_history | apply sim_vec; [first [apply eats_uint; lia | apply eats_history]|] | apply sim_bind; [|intros]].
Lemma sim_codec : sim sread_codec get_codec.
Proof.
  unfold sread_codec, get_codec. apply sim_bind; [apply sim_uint|intros lvl]. apply sim_bind; [|intros h; apply sim_bind; [|intros i; apply sim_bind; [|intros; apply sim_ret]]].
  - unfold sread_headers, get_headers, sread_nibble_list, get_nibble_list, sread_bitvec, get_bitvec. simp.
  - unfold sread_info, get_info. apply sim_bind; [apply sim_uint|intros tag]. destruct (tag =? 0); [apply sim_ret|]. destruct (tag =? 1); [simp|apply sim_fail].
  - unfold sread_bitstream, get_bitstream. simp.
Qed.

(** A parser depends only on the bytes it uses. *)
Definition local {A} (pp : parser A) : Prop := forall l a r, pp l = Some (a, r) -> exists u, l = u ++ r /\ forall x, pp (u ++ x) = Some (a, x).
Lemma local_ret {A} (a : A) : local (pret a).
Proof. intros l b r E. injection E as <- <-. exists []. auto. Qed.
Lemma local_fail {A} : @local A (fun _ => None).
Proof. intros l a r E. discriminate E. Qed.
Lemma local_bind {A B} (pp : parser A) (k : A -> parser B) : local pp -> (forall a, local (k a)) -> local (pbind pp k).
Proof.
  intros H K l b r E. unfold pbind in E. destruct (pp l) as [[a r1]|] eqn:P; [|discriminate]. apply H in P. destruct P as (u & -> & P).
  apply K in E. destruct E as (u2 & -> & E). exists (u ++ u2). split; [apply app_assoc|]. intros x. unfold pbind. now rewrite <- app_assoc, P, E.
Qed.
Lemma local_uint n : local (get_uint n).
Proof.
  intros l a r E. unfold get_uint in E. destruct (Nat.leb_spec n (length l)) as [H|H]; [|discriminate]. injection E as <- <-. exists (firstn n l).
  split; [symmetry; apply firstn_skipn|]. intros x. assert (L : length (firstn n l) = n) by (rewrite firstn_length; lia). set (u := firstn n l) in *. clearbody u.
  unfold get_uint. rewrite app_length. destruct (Nat.leb_spec n (length u + length x)); [|lia].
  rewrite firstn_app, skipn_app, L, Nat.sub_diag, firstn_all2, skipn_all2 by lia. cbn [firstn skipn app]. now rewrite app_nil_r.
Qed.
Lemma local_n {A} (pp : parser A) n : local pp -> local (get_n pp n).
Proof.
  intros H. induction n as [|n IH]; cbn [get_n]; [apply local_ret|]. apply local_bind; [exact H|]. intros a. apply local_bind; [exact IH|]. intros. apply local_ret.
Qed.
Lemma local_vec {A} (pp : parser A) : eats pp -> local pp -> local (get_vec pp).
Proof.
  intros HE H. apply local_bind; [apply local_uint|]. intros len l a r E. destruct (Z.leb_spec len (zlen l)) as [L|L]; [|discriminate].
  destruct (local_n pp (Z.to_nat len) H _ _ _ E) as (u & -> & X). exists u. split; [reflexivity|]. intros x. rewrite X.
  apply (eats_n _ _ HE) in E. rewrite app_length in E. destruct (Z.leb_spec len (zlen (u ++ x))) as [L2|L2]; [reflexivity|].
  unfold zlen in L2. rewrite app_length in L2. lia.
Qed.
Lemma local_i16 : local get_i16.
Proof. apply local_bind; [apply local_uint|]. intros. apply local_ret. Qed.
Lemma local_history : local get_history.
Proof. do 3 (apply local_bind; [apply local_i16|intros]). apply local_ret. Qed.
Ltac loc := repeat first [apply local_ret | apply local_uint | apply local_i16 | apply local_history | apply local_vec; [first [apply eats_uint; lia | apply eats_history]|] | apply local_bind; [|intros]].
Lemma local_codec : local get_codec.
Proof.
  unfold get_codec. apply local_bind; [apply local_uint|intros lvl]. apply local_bind; [|intros h; apply local_bind; [|intros i; apply local_bind; [|intros; apply local_ret]]].
  - unfold get_headers, get_nibble_list, get_bitvec. loc.
  - unfold get_info. apply local_bind; [apply local_uint|intros tag]. destruct (tag =? 0); [apply local_ret|]. destruct (tag =? 1); [loc|apply local_fail].
  - unfold get_bitstream. loc.
Qed.

Lemma to_end_sim : forall script rem, (to_end script rem = Some rem) \/ (to_end script rem = None /\ ~ calm script).
Proof.
  induction script as [|t script IH]; intros rem; cbn [to_end]; [now left|]. destruct t as [k| | |].
  - destruct rem as [|x rem]; [now left|]. destruct (IH (skipn (S k) (x :: rem))) as [E|[E C]]; rewrite E.
    + left. f_equal. apply firstn_skipn.
    + right. split; [reflexivity|]. intros HC. apply C. now inversion HC.
  - destruct (IH rem) as [E|[E C]]; [now left|right]. split; [exact E|]. intros HC. apply C. now inversion HC.
  - right. split; [reflexivity|]. intros HC. inversion HC. auto.
  - right. split; [reflexivity|]. intros HC. inversion HC. auto.
Qed.

Lemma all_spec : forall script got data s ok, all script got data = (s, ok) ->
  exists sent rest, data = sent ++ rest /\ si_got s = got ++ sent /\ (ok = true <-> rest = []) /\ (calm script -> ok = true /\ calm (si_script s)).
Proof.
  induction script as [|t script IH]; intros got data s ok H; (destruct data as [|x data]; [injection H as <- <-; exists [], []; cbn [si_got si_script app]; rewrite app_nil_r; repeat split; auto|cbn [all] in H]).
  - injection H as <- <-. exists (x :: data), []. cbn [si_got si_script]. rewrite app_nil_r. repeat split; auto; intros; constructor.
  - destruct t as [k| | |].
    + apply IH in H. destruct H as (sent & rest & D & G & O & C). exists (firstn (S k) (x :: data) ++ sent), rest.
      split; [rewrite <- app_assoc, <- D; symmetry; apply firstn_skipn|]. split; [now rewrite app_assoc|]. split; [exact O|].
      intros HC. apply C. now inversion HC.
    + apply IH in H. destruct H as (sent & rest & D & G & O & C). exists sent, rest. split; [exact D|]. split; [exact G|]. split; [exact O|].
      intros HC. apply C. now inversion HC.
    + injection H as <- <-. exists [], (x :: data). cbn [app si_got]. rewrite app_nil_r. split; [reflexivity|]. split; [reflexivity|]. split; [split; discriminate|].
      intros HC. inversion HC. now exfalso.
    + injection H as <- <-. exists [], (x :: data). cbn [app si_got]. rewrite app_nil_r. split; [reflexivity|]. split; [reflexivity|]. split; [split; discriminate|].
      intros HC. inversion HC. now exfalso.
Qed.
Lemma save_into_spec : forall pieces s s' ok, ad_save_into pieces s = (s', ok) ->
  exists sent rest, concat pieces = sent ++ rest /\ si_got s' = si_got s ++ sent /\ (ok = true <-> rest = []) /\ (calm (si_script s) -> ok = true /\ calm (si_script s')).
Proof.
  induction pieces as [|d pieces IH]; intros s s' ok H; cbn [ad_save_into concat] in *.
  - injection H as <- <-. exists [], []. split; [reflexivity|]. split; [symmetry; apply app_nil_r|]. split; [split; auto|]. auto.
  - destruct (write_all s d) as [s1 ok1] eqn:W. apply all_spec in W. destruct W as (sent & rest & D & G & O & C). destruct ok1.
    + assert (rest = []) by now apply O. subst rest. rewrite app_nil_r in D. subst d. apply IH in H. destruct H as (sent2 & rest2 & D2 & G2 & O2 & C2).
      exists (sent ++ sent2), rest2. split; [rewrite D2; apply app_assoc|]. split; [rewrite G2, G; symmetry; apply app_assoc|]. split; [exact O2|].
      intros HC. apply C2. apply C. exact HC.
    + injection H as <- <-. exists sent, (rest ++ concat pieces). split; [rewrite D; symmetry; apply app_assoc|]. split; [exact G|]. split.
      * split; [discriminate|]. intros E. apply app_eq_nil in E. apply O. apply E.
      * intros HC. destruct (C HC) as [X _]. discriminate X.
Qed.
