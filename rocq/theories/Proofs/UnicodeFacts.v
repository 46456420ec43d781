(** * [str::from_utf8] accepts exactly the texts *)
From Coq Require Import ZArith List Bool Lia ZifyBool.
From Verif Require Import Model.Base Model.CliFiles Spec.Unicode.
Import ListNotations.
Open Scope Z_scope.

Ltac split_mod := Z.div_mod_to_equations.
Lemma accepts fuel c l : scalar c -> is_utf8 (S fuel) (utf8 c ++ l) = is_utf8 fuel l.
Proof.
  intros S. unfold utf8. destruct (Z.ltb_spec c 128).
  { cbn [app is_utf8]. replace (c <? 128) with true by lia. reflexivity. }
  destruct (Z.ltb_spec c 2048).
  { cbn [app is_utf8]. assert (A : 2 <= c / 64 < 32) by (split_mod; lia). assert (B : 0 <= c mod 64 < 64) by (split_mod; lia).
    replace (192 + c / 64 <? 128) with false by lia. replace ((194 <=? 192 + c / 64) && (192 + c / 64 <=? 223)) with true by lia.
    replace ((128 <=? 128 + c mod 64) && (128 + c mod 64 <=? 191)) with true by lia. reflexivity. }
  destruct (Z.ltb_spec c 65536).
  { cbn [app is_utf8]. assert (A : 0 <= c / 4096 < 16) by (split_mod; lia). assert (B : 0 <= c mod 64 < 64) by (split_mod; lia).
    assert (D : 0 <= c / 64 mod 64 < 64) by (split_mod; lia).
    replace (224 + c / 4096 <? 128) with false by lia. replace ((194 <=? 224 + c / 4096) && (224 + c / 4096 <=? 223)) with false by lia.
    replace ((224 <=? 224 + c / 4096) && (224 + c / 4096 <=? 239)) with true by lia.
    replace ((if 224 + c / 4096 =? 224 then 160 else 128) <=? 128 + c / 64 mod 64) with true
      by (destruct (Z.eqb_spec (224 + c / 4096) 224); split_mod; lia).
    replace (128 + c / 64 mod 64 <=? (if 224 + c / 4096 =? 237 then 159 else 191)) with true
      by (destruct (Z.eqb_spec (224 + c / 4096) 237); unfold scalar in S; split_mod; lia).
    replace ((128 <=? 128 + c mod 64) && (128 + c mod 64 <=? 191)) with true by lia. reflexivity. }
  cbn [app is_utf8]. unfold scalar in S.
  assert (A : 0 <= c / 262144 < 5) by (split_mod; lia). assert (B : 0 <= c mod 64 < 64) by (split_mod; lia).
  assert (D : 0 <= c / 64 mod 64 < 64) by (split_mod; lia). assert (E : 0 <= c / 4096 mod 64 < 64) by (split_mod; lia).
  replace (240 + c / 262144 <? 128) with false by lia. replace ((194 <=? 240 + c / 262144) && (240 + c / 262144 <=? 223)) with false by lia.
  replace ((224 <=? 240 + c / 262144) && (240 + c / 262144 <=? 239)) with false by lia.
  replace ((240 <=? 240 + c / 262144) && (240 + c / 262144 <=? 244)) with true by lia.
  replace ((if 240 + c / 262144 =? 240 then 144 else 128) <=? 128 + c / 4096 mod 64) with true
    by (destruct (Z.eqb_spec (240 + c / 262144) 240); split_mod; lia).
  replace (128 + c / 4096 mod 64 <=? (if 240 + c / 262144 =? 244 then 143 else 191)) with true
    by (destruct (Z.eqb_spec (240 + c / 262144) 244); split_mod; lia).
  replace ((128 <=? 128 + c / 64 mod 64) && (128 + c / 64 mod 64 <=? 191)) with true by lia.
  replace ((128 <=? 128 + c mod 64) && (128 + c mod 64 <=? 191)) with true by lia. reflexivity.
Qed.
Lemma one_more c l : scalar c -> unicode l -> unicode (utf8 c ++ l).
Proof. intros S (cs & F & ->). exists (c :: cs). split; [now constructor|reflexivity]. Qed.
Lemma two a b : 2 <= a < 32 -> 0 <= b < 64 -> utf8 (a * 64 + b) = [192 + a; 128 + b].
Proof.
  intros A B. unfold utf8. replace (a * 64 + b <? 128) with false by lia. replace (a * 64 + b <? 2048) with true by lia.
  assert (E : (a * 64 + b) / 64 = a /\ (a * 64 + b) mod 64 = b) by (split_mod; lia). destruct E as [-> ->]. reflexivity.
Qed.
Lemma three a b d : 0 <= a < 16 -> 0 <= b < 64 -> 0 <= d < 64 -> (a = 0 -> 32 <= b) -> utf8 (a * 4096 + b * 64 + d) = [224 + a; 128 + b; 128 + d].
Proof.
  intros A B D Q. unfold utf8. replace (a * 4096 + b * 64 + d <? 128) with false by lia. replace (a * 4096 + b * 64 + d <? 2048) with false by lia.
  replace (a * 4096 + b * 64 + d <? 65536) with true by lia.
  assert (E : (a * 4096 + b * 64 + d) / 64 = a * 64 + b /\ (a * 4096 + b * 64 + d) mod 64 = d) by (split_mod; lia). destruct E as [-> ->].
  assert (E : (a * 64 + b) mod 64 = b /\ (a * 4096 + b * 64 + d) / 4096 = a) by (split_mod; lia). destruct E as [-> ->]. reflexivity.
Qed.
Lemma four a b d e : 0 <= a < 5 -> 0 <= b < 64 -> 0 <= d < 64 -> 0 <= e < 64 -> (a = 0 -> 16 <= b) ->
  utf8 (a * 262144 + b * 4096 + d * 64 + e) = [240 + a; 128 + b; 128 + d; 128 + e].
Proof.
  intros A B D E0 Q. set (c := a * 262144 + b * 4096 + d * 64 + e). unfold utf8.
  replace (c <? 128) with false by lia. replace (c <? 2048) with false by lia. replace (c <? 65536) with false by lia.
  assert (E : c / 64 = a * 4096 + b * 64 + d /\ c mod 64 = e) by (subst c; split_mod; lia). destruct E as [-> ->].
  assert (E : (a * 4096 + b * 64 + d) mod 64 = d /\ c / 4096 = a * 64 + b) by (subst c; split_mod; lia). destruct E as [-> ->].
  assert (E : (a * 64 + b) mod 64 = b /\ c / 262144 = a) by (subst c; split_mod; lia). destruct E as [-> ->]. reflexivity.
Qed.
Lemma accepted_text fuel : forall l, Forall (fun b => 0 <= b < 256) l -> is_utf8 fuel l = true -> unicode l.
Proof.
  assert (N : unicode []) by (exists []; split; [constructor|reflexivity]).
  induction fuel as [|fuel IH]; intros l F H; destruct l as [|a t]; cbn [is_utf8] in H; try discriminate H; auto.
  inversion F as [|? ? Fa Ft]; subst.
  destruct (Z.ltb_spec a 128).
  { change (a :: t) with ([a] ++ t). replace [a] with (utf8 a) by (unfold utf8; replace (a <? 128) with true by lia; reflexivity).
    apply one_more; [unfold scalar; lia|]. now apply IH. }
  destruct ((194 <=? a) && (a <=? 223)) eqn:E2.
  { destruct t as [|b t]; [discriminate H|]. apply andb_true_iff in H. destruct H as [Hb H]. inversion Ft; subst.
    replace (a :: b :: t) with (utf8 ((a - 192) * 64 + (b - 128)) ++ t).
    - apply one_more; [unfold scalar; lia|]. now apply IH.
    - rewrite two by lia. replace (192 + (a - 192)) with a by lia. replace (128 + (b - 128)) with b by lia. reflexivity. }
  destruct ((224 <=? a) && (a <=? 239)) eqn:E3.
  { destruct t as [|b [|d t]]; try discriminate H. apply andb_true_iff in H. destruct H as [H H3]. apply andb_true_iff in H. destruct H as [H Hd].
    apply andb_true_iff in H. destruct H as [H1 H2]. inversion Ft as [|? ? Fb Ft']; subst. inversion Ft'; subst.
    replace (a :: b :: d :: t) with (utf8 ((a - 224) * 4096 + (b - 128) * 64 + (d - 128)) ++ t).
    - apply one_more; [|now apply IH]. unfold scalar. destruct (Z.eqb_spec a 224), (Z.eqb_spec a 237); lia.
    - rewrite three by (destruct (Z.eqb_spec a 224), (Z.eqb_spec a 237); lia).
      replace (224 + (a - 224)) with a by lia. replace (128 + (b - 128)) with b by lia. replace (128 + (d - 128)) with d by lia. reflexivity. }
  destruct ((240 <=? a) && (a <=? 244)) eqn:E4; [|discriminate H].
  destruct t as [|b [|d [|e t]]]; try discriminate H. apply andb_true_iff in H. destruct H as [H H3]. apply andb_true_iff in H. destruct H as [H He].
  apply andb_true_iff in H. destruct H as [H Hd].
  apply andb_true_iff in H. destruct H as [H1 H2]. inversion Ft as [|? ? Fb Ft']; subst. inversion Ft' as [|? ? Fd Ft'']; subst. inversion Ft''; subst.
  replace (a :: b :: d :: e :: t) with (utf8 ((a - 240) * 262144 + (b - 128) * 4096 + (d - 128) * 64 + (e - 128)) ++ t).
  - apply one_more; [|now apply IH]. unfold scalar. destruct (Z.eqb_spec a 240), (Z.eqb_spec a 244); lia.
  - rewrite four by (destruct (Z.eqb_spec a 240), (Z.eqb_spec a 244); lia).
    replace (240 + (a - 240)) with a by lia. replace (128 + (b - 128)) with b by lia. replace (128 + (d - 128)) with d by lia.
    replace (128 + (e - 128)) with e by lia. reflexivity.
Qed.
Lemma text_accepted cs : Forall scalar cs -> forall fuel, (length (flat_map utf8 cs) <= fuel)%nat -> is_utf8 fuel (flat_map utf8 cs) = true.
Proof.
  induction 1 as [|c cs S F IH]; intros fuel L; [destruct fuel; reflexivity|]. cbn [flat_map] in *.
  assert (1 <= length (utf8 c))%nat by (unfold utf8; repeat match goal with |- context [if ?b then _ else _] => destruct b end; cbn; lia).
  rewrite app_length in L. destruct fuel as [|fuel]; [lia|]. rewrite accepts by exact S. apply IH. lia.
Qed.
Lemma utf8_spec l : Forall (fun b => 0 <= b < 256) l -> is_utf8 (length l) l = true <-> unicode l.
Proof.
  intros F. split; [now apply accepted_text|]. intros (cs & S & ->). apply text_accepted; auto.
Qed.
