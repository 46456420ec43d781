(** * Which input samples an output sample depends on *)
From Coq Require Import ZArith List Bool Lia.
From Verif Require Import Model.Base Model.F32 Model.Sample Model.Adhoc Spec.Codec Spec.Recording Spec.Tracks
  Proofs.BaseFacts Proofs.EncodeFacts Proofs.RoundTrip.
Import ListNotations.
Open Scope Z_scope.

Lemma nth_interleave {A} (d : A) n : forall chans c k, (k < n)%nat -> (c < length chans)%nat ->
  nth (k * length chans + c) (interleave d n chans) d = nth k (nth c chans []) d.
Proof.
  induction n as [|n IH]; intros chans c k Hk Hc; [lia|]. cbn [interleave]. destruct k as [|k].
  - cbn [Nat.mul Nat.add]. rewrite app_nth1 by (rewrite map_length; auto).
    change d with (hd d []) at 2. rewrite map_nth. now destruct (nth c chans []).
  - rewrite app_nth2 by (rewrite map_length; cbn [Nat.mul]; lia). rewrite map_length.
    replace (S k * length chans + c - length chans)%nat with (k * length (map (@tl A) chans) + c)%nat by (rewrite map_length; cbn [Nat.mul]; lia).
    rewrite IH by (rewrite ?map_length; lia). change (@nil A) with (tl (@nil A)) at 1. rewrite map_nth.
    destruct (nth c chans []); cbn [tl]; auto. destruct k; reflexivity.
Qed.

(** ** The decoder looks back only *)
Lemma firstn_diffs k : forall t qs, firstn k (diffs t qs) = diffs t (firstn k qs).
Proof. induction k; intros t [|q qs]; cbn [firstn diffs]; auto. now rewrite IHk. Qed.
Lemma firstn_reconstruct k : forall t es, firstn k (reconstruct t es) = reconstruct t (firstn k es).
Proof. induction k; intros t [|e es]; cbn [firstn reconstruct]; auto. now rewrite IHk. Qed.
Lemma lossy_prefix n qs : firstn (3 + n) (lossy qs) = lossy (firstn (3 + n) qs).
Proof.
  destruct qs as [|a [|b [|c qs]]]; auto; try (cbn; now rewrite !firstn_nil).
  unfold lossy. cbn [Nat.add firstn skipn nth app]. do 3 f_equal.
  rewrite firstn_reconstruct. unfold residuals. now rewrite firstn_map, firstn_diffs.
Qed.
Lemma lossy_short n qs : (n <= 3)%nat -> firstn n (lossy qs) = firstn n qs.
Proof.
  intros H. destruct qs as [|a [|b [|c qs]]]; destruct n as [|[|[|[|n]]]]; try lia; reflexivity.
Qed.
Lemma lossy_causal n qs qs' : firstn n qs = firstn n qs' -> firstn n (lossy qs) = firstn n (lossy qs').
Proof.
  intros H. destruct (Nat.le_gt_cases n 3) as [L|L].
  - now rewrite !lossy_short.
  - replace n with (3 + (n - 3))%nat in * by lia. now rewrite !lossy_prefix, H.
Qed.

(** ** The quantiser: which noise value goes with which sample *)
Fixpoint draws (ch c : Z) (base : nat) (lens : list Z) : list nat :=
  match lens with
  | [] => []
  | z :: lens => map (fun k => base + Z.to_nat (c * (z / ch) + k))%nat (range (z / ch)) ++ draws ch c (base + Z.to_nat (ch * (z / ch))) lens
  end.
Definition quantised (inv : f32) (x : f32 * nat) : Z := quantise (dithered inv (fst x) (noise (snd x))).
Lemma combine_app {A B} (a a' : list A) (b b' : list B) : length a = length b -> combine (a ++ a') (b ++ b') = combine a b ++ combine a' b'.
Proof. revert b; induction a; intros [|y b] H; cbn in *; try lia; auto. f_equal. apply IHa. lia. Qed.
Lemma combine_map {A B C} (f : A -> B) (g : A -> C) l : combine (map f l) (map g l) = map (fun x => (f x, g x)) l.
Proof. induction l; cbn; auto. now rewrite IHl. Qed.
Lemma quant_from inv ch c pcms : 0 <= c < ch -> forall base,
  flat_map (fun call => nth (Z.to_nat c) call []) (quant_calls inv base ch pcms) =
    map (quantised inv) (combine (track ch c pcms) (draws ch c base (map zlen pcms))).
Proof.
  intros Hc. induction pcms as [|pcm pcms IH]; intros base; [reflexivity|].
  cbn [quant_calls flat_map track map draws]. rewrite IH. fold (track ch c pcms).
  rewrite combine_app by now rewrite !map_length. rewrite map_app. f_equal.
  rewrite nth_quant_call by lia. rewrite combine_map, map_map. reflexivity.
Qed.
Lemma quant_signal_draws inv ch c pcms : 0 <= c < ch ->
  quant_signal inv ch pcms c = map (quantised inv) (combine (track ch c pcms) (draws ch c 0 (map zlen pcms))).
Proof. intros Hc. now apply quant_from. Qed.
Lemma track_app ch c a b : track ch c (a ++ b) = track ch c a ++ track ch c b.
Proof. apply flat_map_app. Qed.
Lemma draws_app ch c a b : forall base, exists base', draws ch c base (a ++ b) = draws ch c base a ++ draws ch c base' b.
Proof.
  induction a as [|z a IH]; intros base; [exists base; reflexivity|]. cbn [app draws].
  destruct (IH (base + Z.to_nat (ch * (z / ch)))%nat) as [b' E]. exists b'. now rewrite E, app_assoc.
Qed.
Lemma length_track ch c pcms : 0 < ch -> length (track ch c pcms) = Z.to_nat (total_blocks ch pcms).
Proof.
  intros Hch. induction pcms as [|pcm pcms IH]; [reflexivity|]. unfold track, total_blocks in *. cbn [flat_map map fold_right].
  rewrite app_length, IH, map_length, length_range.
  pose proof (total_blocks_nonneg ch pcms Hch) as H. unfold total_blocks in H.
  pose proof (Z.div_pos (zlen pcm) ch (zlen_nonneg pcm) Hch). lia.
Qed.
Lemma length_draws ch c pcms : 0 < ch -> forall base, length (draws ch c base (map zlen pcms)) = Z.to_nat (total_blocks ch pcms).
Proof.
  intros Hch. induction pcms as [|pcm pcms IH]; intros base; [reflexivity|]. unfold total_blocks in *. cbn [draws map fold_right].
  rewrite app_length, IH, map_length, length_range.
  pose proof (total_blocks_nonneg ch pcms Hch) as H. unfold total_blocks in H.
  pose proof (Z.div_pos (zlen pcm) ch (zlen_nonneg pcm) Hch). lia.
Qed.
Lemma firstn_app_1 {A} n (a b : list A) : (n <= length a)%nat -> firstn n (a ++ b) = firstn n a.
Proof. intros H. rewrite firstn_app. replace (n - length a)%nat with 0%nat by lia. cbn [firstn]. apply app_nil_r. Qed.

Lemma quant_causal inv ch c A A' B B' n : 0 <= c < ch -> map zlen A = map zlen A' -> (n <= Z.to_nat (total_blocks ch A))%nat ->
  firstn n (track ch c A) = firstn n (track ch c A') ->
  firstn n (quant_signal inv ch (A ++ B) c) = firstn n (quant_signal inv ch (A' ++ B') c).
Proof.
  intros Hc HL Hn HT. rewrite !quant_signal_draws by auto. rewrite !track_app, !map_app.
  destruct (draws_app ch c (map zlen A) (map zlen B) 0) as [b1 ->].
  destruct (draws_app ch c (map zlen A') (map zlen B') 0) as [b2 ->].
  assert (HB : total_blocks ch A = total_blocks ch A').
  { unfold total_blocks. rewrite <- (map_map zlen (fun z => z / ch)), HL, map_map. reflexivity. }
  rewrite !combine_app by (rewrite length_track, length_draws by lia; reflexivity).
  rewrite !map_app, !firstn_app_1 by (rewrite map_length, combine_length, length_track, length_draws by lia; lia).
  rewrite !firstn_map, !combine_firstn, HT, HL. reflexivity.
Qed.

(** ** Cutting *)
Lemma draws_mono lens : Forall (fun z => 0 <= z) lens -> forall base, draws 1 0 base lens = seq base (Z.to_nat (fold_right Z.add 0 lens)).
Proof.
  induction lens as [|z lens IH]; intros HF base; [reflexivity|]. inversion HF as [|? ? Hz HF']; subst. cbn [draws fold_right].
  rewrite IH by auto. rewrite Z.div_1_r, Z.mul_1_l, Z.mul_0_l.
  assert (0 <= fold_right Z.add 0 lens) by (clear -HF'; induction HF'; cbn; lia).
  rewrite Z2Nat.inj_add, seq_app by lia. f_equal. unfold range. rewrite map_map.
  assert (G : forall n s, map (fun x => base + Z.to_nat (0 + Z.of_nat x))%nat (seq s n) = seq (base + s) n).
  { induction n; intros s; cbn [seq map]; auto. rewrite IHn. f_equal; [lia|f_equal; lia]. }
  rewrite G. f_equal. lia.
Qed.
