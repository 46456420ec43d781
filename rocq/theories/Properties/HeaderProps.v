(** * Property C35: FrameHeaders against a plain list with a cursor *)
From Coq Require Import ZArith List Bool Lia.
From Verif Require Import Model.Base Model.NibbleList Model.BitVec Model.Frame
  Proofs.BaseFacts Proofs.Containers Proofs.Headers.
Import ListNotations.
Open Scope Z_scope.

Inductive h_op := HPush (h : frame_header) | HNext | HReset | HSetCursor (i : Z) | HGet (i : Z).
(** Results of the calls that return something. *)
Fixpoint h_run (p : profile) (f : frame_headers) (ops : list h_op)
  : outcome (frame_headers * list (option frame_header)) :=
  match ops with
  | [] => Ok (f, [])
  | HPush h :: ops => f <- fhs_push p f h ;; h_run p f ops
  | HNext :: ops =>
      '(f, r) <- fhs_next p f ;; '(f, rs) <- h_run p f ops ;; Ok (f, r :: rs)
  | HReset :: ops => h_run p (fhs_reset f) ops
  | HSetCursor i :: ops => h_run p (fhs_set_cursor f i) ops
  | HGet i :: ops =>
      r <- fhs_get f i ;; '(f, rs) <- h_run p f ops ;; Ok (f, r :: rs)
  end.
(** A vector of headers and a cursor. *)
Fixpoint h_list_run (l : list frame_header) (c : Z) (ops : list h_op)
  : list frame_header * list (option frame_header) :=
  match ops with
  | [] => (l, [])
  | HPush h :: ops =>
      h_list_run (if c <? zlen l then replace_nth (Z.to_nat c) l h else l ++ [h]) (c + 1) ops
  | HNext :: ops =>
      let '(l', rs) := h_list_run l (if c <? zlen l then c + 1 else c) ops in
      (l', nth_error l (Z.to_nat c) :: rs)
  | HReset :: ops => h_list_run l 0 ops
  | HSetCursor i :: ops => h_list_run l i ops
  | HGet i :: ops =>
      let '(l', rs) := h_list_run l c ops in (l', nth_error l (Z.to_nat i) :: rs)
  end.
(** The stored exponent has four bits and the stored bit position 64; cursors are u32. *)
Definition h_legal (n : Z) (o : h_op) : Prop :=
  match o with
  | HPush h => 0 <= fh_exponent h < 16 /\ 0 <= fh_bit_cursor h < 2 ^ 64
  | HSetCursor i => 0 <= i /\ i + n < 2 ^ 32
  | HGet i => 0 <= i
  | _ => True
  end.

Theorem C35_headers_refine_list : forall p ops,
  Forall (h_legal (zlen ops + 1)) ops -> zlen ops + 1 < 2 ^ 32 ->
  let (l, results) := h_list_run [] 0 ops in
  exists f, h_run p fhs_new ops = Ok (f, results) /\ fhs_len f = zlen l /\
            forall i, 0 <= i -> fhs_get f i = Ok (nth_error l (Z.to_nat i)).
Proof.
  intros p ops HO HB.
  assert (G : forall n ops f l, fhs_rep f l -> Forall (h_legal n) ops -> zlen ops < n ->
    0 <= fhs_cursor f -> fhs_cursor f + zlen ops < 2 ^ 32 -> n < 2 ^ 32 ->
    zlen l + zlen ops < 2 ^ 32 - 1 ->
    exists f', h_run p f ops = Ok (f', snd (h_list_run l (fhs_cursor f) ops)) /\
      fhs_rep f' (fst (h_list_run l (fhs_cursor f) ops)) /\
      zlen (fst (h_list_run l (fhs_cursor f) ops)) <= zlen l + zlen ops).
  { clear. intros n. induction ops as [|o ops IH]; intros f l R HO Hn H0 HC HN HL.
    - exists f. cbn [h_run h_list_run fst snd]. change (zlen (@nil h_op)) with 0. repeat split; auto; try apply R. lia.
    - inversion HO as [|? ? Ho HO']; subst. rewrite zlen_cons in *.
      pose proof (zlen_nonneg ops). pose proof (zlen_nonneg l).
      destruct o as [h| | |i|i]; cbn [h_run h_list_run h_legal] in *.
      + destruct (fhs_push_rep p f l h R Ho H0 ltac:(lia) ltac:(lia)) as (f' & E & R' & C').
        rewrite E. cbn [bind]. unfold push_at in R'. rewrite <- C'.
        assert (zlen (if fhs_cursor f <? zlen l then replace_nth (Z.to_nat (fhs_cursor f)) l h else l ++ [h])
                <= zlen l + 1).
        { destruct (_ <? _); [rewrite zlen_replace_nth; lia|rewrite zlen_app; change (zlen [h]) with 1; lia]. }
        destruct (IH f' _ R' HO' ltac:(lia) ltac:(lia) ltac:(lia) HN ltac:(lia)) as (f2 & E2 & R2 & L2).
        exists f2. repeat split; auto; try apply R2. lia.
      + rewrite (fhs_next_rep p f l R) by lia. cbn [bind].
        set (f1 := if fhs_cursor f <? zlen l then fhs_set_cursor f (fhs_cursor f + 1) else f).
        assert (C1 : fhs_cursor f1 = if fhs_cursor f <? zlen l then fhs_cursor f + 1 else fhs_cursor f).
        { subst f1. destruct (_ <? _); reflexivity. }
        assert (R1 : fhs_rep f1 l) by (subst f1; destruct (_ <? _); auto).
        rewrite <- C1.
        destruct (IH f1 l R1 HO' ltac:(lia)) as (f2 & E2 & R2 & L2); auto; try lia.
        { rewrite C1; destruct (_ <? _); lia. } { rewrite C1; destruct (_ <? _); lia. }
        exists f2. rewrite E2. cbn [bind].
        destruct (h_list_run l (fhs_cursor f1) ops) as [l' rs]; cbn [fst snd] in *.
        repeat split; auto; try apply R2. lia.
      + destruct (IH (fhs_reset f) l (fhs_rep_cursor f l 0 R) HO' ltac:(lia)) as (f2 & E2 & R2 & L2);
          try (cbn [fhs_reset fhs_set_cursor fhs_cursor]; lia).
        cbn [fhs_reset fhs_set_cursor fhs_cursor] in *. exists f2. repeat split; auto; try apply R2. lia.
      + destruct (IH (fhs_set_cursor f i) l (fhs_rep_cursor f l i R) HO' ltac:(lia)) as (f2 & E2 & R2 & L2);
          try (cbn [fhs_reset fhs_set_cursor fhs_cursor]; lia).
        cbn [fhs_reset fhs_set_cursor fhs_cursor] in *. exists f2. repeat split; auto; try apply R2. lia.
      + rewrite (fhs_get_rep f l i R) by lia. cbn [bind].
        destruct (IH f l R HO' ltac:(lia)) as (f2 & E2 & R2 & L2); auto; try lia.
        exists f2. rewrite E2. cbn [bind].
        destruct (h_list_run l (fhs_cursor f) ops) as [l' rs]; cbn [fst snd] in *.
        repeat split; auto; try apply R2. lia. }
  specialize (G (zlen ops + 1) ops fhs_new [] fhs_rep_new HO ltac:(lia)).
  change (fhs_cursor fhs_new) with 0 in G. change (zlen (@nil frame_header)) with 0 in G.
  destruct G as (f & E & R & L); try lia.
  destruct (h_list_run [] 0 ops) as [l rs]; cbn [fst snd] in *.
  exists f. split; auto. split; [now apply fhs_rep_len|]. intros. apply fhs_get_rep; auto. lia.
Qed.
Print Assumptions C35_headers_refine_list.

Example C35_not_vacuous :
  let h1 := mkFH 3 7 0 true (1, 2, 3) in
  let h2 := mkFH 15 9 1000 false (4, 5, 6) in
  let ops := [HPush h1; HPush h2; HReset; HNext; HNext; HNext; HSetCursor 1; HPush h1; HGet 1; HGet 9] in
  Forall (h_legal 11) ops /\
  h_list_run [] 0 ops = ([h1; h1], [Some h1; Some h2; None; Some h1; None]).
Proof. split; [repeat constructor; cbn; (lia || discriminate)|reflexivity]. Qed.

(** Outside these ranges a header is not stored faithfully: exponent 16 comes back as 0. *)
Theorem C35_wide_exponent_refuted : forall p,
  exists f h, fhs_push p fhs_new (mkFH 16 1 0 false (0, 0, 0)) = Ok f /\
              fhs_get f 0 = Ok (Some h) /\ fh_exponent h = 0.
Proof. destruct p; eexists; eexists; (split; [vm_compute; reflexivity|split; reflexivity]). Qed.
Print Assumptions C35_wide_exponent_refuted.
