(** * FrameHeaders represents a list of headers with a cursor *)
From Coq Require Import ZArith List Bool Lia.
From Verif Require Import Model.Base Model.NibbleList Model.BitVec Model.Frame
  Proofs.BaseFacts Proofs.Containers.
Import ListNotations.
Open Scope Z_scope.

(** Headers whose fields survive being stored: 4-bit exponent, 64-bit cursor. *)
Definition header_ok (h : frame_header) : Prop :=
  0 <= fh_exponent h < 16 /\ 0 <= fh_bit_cursor h < 2 ^ 64.

Definition fhs_rep (f : frame_headers) (l : list frame_header) : Prop :=
  Forall header_ok l /\
  nl_rep (fhs_exps f) (map fh_exponent l) /\
  bv_rep (fhs_inits f) (map fh_is_init l) (zlen l) /\
  fhs_sizes f = map fh_size l /\
  fhs_cursors f = map fh_bit_cursor l /\
  fhs_hists f = map fh_history l.

Lemma fhs_rep_new : fhs_rep fhs_new [].
Proof.
  split; [constructor|]. split; [apply nl_rep_new|]. split; [apply bv_rep_new|]. auto.
Qed.

Lemma fhs_rep_len f l : fhs_rep f l -> fhs_len f = zlen l.
Proof.
  intros (_ & H & _). unfold fhs_len. rewrite (nl_rep_len _ _ H). apply zlen_map.
Qed.

Lemma fhs_rep_cursor f l i : fhs_rep f l -> fhs_rep (fhs_set_cursor f i) l.
Proof. intros H; exact H. Qed.

Lemma map_replace_nth {A B} (g : A -> B) n l a :
  map g (replace_nth n l a) = replace_nth n (map g l) (g a).
Proof. revert n; induction l; destruct n; cbn; auto. now rewrite IHl. Qed.

Definition dummy_header : frame_header := mkFH 0 0 0 false (0, 0, 0).

(** What the abstract list does on a push at cursor [c]. *)
Definition push_at (l : list frame_header) (c : Z) (h : frame_header) : list frame_header :=
  if c <? zlen l then replace_nth (Z.to_nat c) l h else l ++ [h].

Theorem fhs_push_rep p f l h :
  fhs_rep f l -> header_ok h -> 0 <= fhs_cursor f -> fhs_cursor f + 1 < 2 ^ 32 -> zlen l + 1 < 2 ^ 32 ->
  exists f', fhs_push p f h = Ok f' /\ fhs_rep f' (push_at l (fhs_cursor f) h) /\
             fhs_cursor f' = fhs_cursor f + 1.
Proof.
  intros R [He Hc] H0 Hb1 Hb2. pose proof R as (HF & HN & HB & HS & HCu & HH).
  unfold fhs_push. rewrite (fhs_rep_len f l R). rewrite (uwrap_small 64) by lia.
  set (b := if fh_is_init h then 1 else 0).
  assert (Eb : Z.odd b = fh_is_init h) by (subst b; destruct (fh_is_init h); reflexivity).
  unfold push_at.
  destruct (Z.leb_spec (zlen l) (fhs_cursor f)), (Z.ltb_spec (fhs_cursor f) (zlen l)); try lia.
  - destruct (nl_push_rep p _ _ (fh_exponent h) HN He) as (e' & E1 & R1).
    { rewrite zlen_map; lia. }
    destruct (bv_push_rep p _ _ _ b HB) as (v' & E2 & R2).
    { rewrite zlen_map. rewrite pow2_32, pow2_64 in *. lia. }
    rewrite E1, E2. cbn [bind]. rewrite uchk_ok by lia. cbn [bind].
    eexists; split; [reflexivity|]. split; [|reflexivity].
    rewrite Eb in R2. rewrite zlen_map in R2.
    unfold fhs_rep, fhs_set_cursor. cbn [fhs_exps fhs_inits fhs_sizes fhs_cursors fhs_hists].
    rewrite !map_app. cbn [map]. rewrite HS, HCu, HH.
    split; [apply Forall_app; split; auto; constructor; [split; auto|constructor]|].
    split; [exact R1|]. split; auto.
    rewrite Z.max_r in R2 by lia. rewrite zlen_app. exact R2.
  - cbn [bind]. rewrite HS, HCu, HH.
    rewrite !store_ok by (rewrite zlen_map; lia). cbn [bind]. rewrite uchk_ok by lia. cbn [bind].
    eexists; split; [reflexivity|]. split; [|reflexivity].
    unfold fhs_rep, fhs_set_cursor. cbn [fhs_exps fhs_inits fhs_sizes fhs_cursors fhs_hists].
    rewrite !map_replace_nth. split; [|split; [|split]]; auto.
    + apply Forall_replace; auto. split; auto.
    + apply nl_set_rep; auto. rewrite zlen_map. lia.
    + rewrite <- Eb, zlen_replace_nth. apply bv_set_rep; auto.
      rewrite pow2_32, pow2_64 in *. lia.
Qed.

Theorem fhs_get_rep f l i :
  fhs_rep f l -> 0 <= i -> zlen l < 2 ^ 32 ->
  fhs_get f i = Ok (nth_error l (Z.to_nat i)).
Proof.
  intros R Hi Hb. pose proof R as (HF & HN & HB & HS & HCu & HH).
  unfold fhs_get. rewrite (fhs_rep_len f l R). destruct (Z.ltb_spec i (zlen l)).
  - rewrite HS, HCu, HH.
    rewrite (index_ok (map fh_size l) i (fh_size dummy_header)) by (rewrite zlen_map; lia).
    rewrite (index_ok (map fh_bit_cursor l) i (fh_bit_cursor dummy_header)) by (rewrite zlen_map; lia).
    rewrite (index_ok (map fh_history l) i (fh_history dummy_header)) by (rewrite zlen_map; lia).
    cbn [bind]. rewrite !map_nth.
    rewrite (nl_get_rep _ _ i HN) by (rewrite zlen_map; lia).
    rewrite (bv_get_rep _ _ _ i HB) by (rewrite zlen_map; rewrite pow2_32, ?pow2_64 in *; lia).
    change 0 with (fh_exponent dummy_header) at 1. change false with (fh_is_init dummy_header).
    rewrite !map_nth.
    rewrite (nth_error_nth' l dummy_header) by (unfold zlen in *; lia).
    do 2 f_equal. destruct (nth (Z.to_nat i) l dummy_header) as [a b c [] e]; reflexivity.
  - assert (E : nth_error l (Z.to_nat i) = None) by (apply nth_error_None; unfold zlen in *; lia).
    now rewrite E.
Qed.

Theorem fhs_next_rep p f l :
  fhs_rep f l -> 0 <= fhs_cursor f -> zlen l + 1 < 2 ^ 32 ->
  fhs_next p f = Ok (if fhs_cursor f <? zlen l then fhs_set_cursor f (fhs_cursor f + 1) else f,
                     nth_error l (Z.to_nat (fhs_cursor f))).
Proof.
  intros R H0 Hb. pose proof (fhs_get_rep f l (fhs_cursor f) R H0 ltac:(lia)) as G.
  unfold fhs_get in G. unfold fhs_next. rewrite (fhs_rep_len f l R) in *.
  destruct (Z.ltb_spec (fhs_cursor f) (zlen l)).
  - inv_bind G. inv_bind G. inv_bind G. rewrite Ha, Ha0, Ha1. cbn [bind].
    rewrite uchk_ok by lia. cbn [bind]. injection G as G. now rewrite G.
  - injection G as G. now rewrite G.
Qed.
