(** * With enough memory a target never runs out of it *)
From Coq Require Import ZArith List Bool Lia.
From Verif Require Import Model.Base Model.F32 Model.Noise Model.Sample Model.BitStream Model.NibbleList Model.BitVec Model.CircularStack
  Model.Frame Model.Adhoc Model.Bincode Model.Wav Model.Narrow Spec.Files Spec.Targets Proofs.BaseFacts Proofs.NarrowFacts.
Import ListNotations.
Open Scope Z_scope.

(** ** Nothing but an allocation runs out of memory *)
Definition calm {A} (m : outcome A) : Prop := m <> Panic OutOfMemory.
Lemma calm_ok {A} (a : A) : calm (Ok a).
Proof. discriminate. Qed.
Lemma calm_fuel {A} : calm (@OutOfFuel A).
Proof. discriminate. Qed.
Lemma calm_bind {A B} (m : outcome A) (k : A -> outcome B) : calm m -> (forall a, calm (k a)) -> calm (bind m k).
Proof. intros H1 H2. destruct m; cbn [bind]; auto; unfold calm in *; congruence. Qed.
Lemma calm_foldM {S X} (f : S -> X -> outcome S) l : (forall s x, calm (f s x)) -> forall s, calm (foldM f l s).
Proof. intros H. induction l as [|x l IH]; intros s; cbn [foldM]; [apply calm_ok|]. apply calm_bind; auto. Qed.
Lemma calm_mapM {X Y} (f : X -> outcome Y) l : (forall x, calm (f x)) -> calm (mapM f l).
Proof. intros H. induction l as [|x l IH]; cbn [mapM]; [apply calm_ok|]. apply calm_bind; auto. intros y. apply calm_bind; auto. intros; apply calm_ok. Qed.
Create HintDb calm.
Ltac calm1 :=
  match goal with
  | |- calm (Ok _) => apply calm_ok
  | |- calm OutOfFuel => apply calm_fuel
  | |- calm (Panic _) => discriminate
  | |- calm (bind _ _) => apply calm_bind
  | |- calm (foldM _ _ _) => apply calm_foldM
  | |- calm (mapM _ _) => apply calm_mapM
  | |- forall _, _ => intros
  | |- calm (if ?b then _ else _) => destruct b
  | |- calm (match ?x with _ => _ end) => destruct x
  | |- calm (let _ := _ in _) => cbv zeta
  | |- calm _ => solve [auto with calm]
  end.
Ltac calm := cbv beta; repeat (calm1; cbv beta).
Lemma calm_uchk p v x : calm (uchk p v x). Proof. unfold uchk. calm. Qed.
Lemma calm_schk p v x : calm (schk p v x). Proof. unfold schk. calm. Qed.
Lemma calm_ushl p v x s : calm (ushl p v x s). Proof. unfold ushl. calm. Qed.
Lemma calm_sshl p v x s : calm (sshl p v x s). Proof. unfold sshl. calm. Qed.
Lemma calm_shr p v x s : calm (shr p v x s). Proof. unfold shr. calm. Qed.
Lemma calm_udiv a b : calm (udiv a b). Proof. unfold udiv. calm. Qed.
Lemma calm_expect {A} (o : option A) : calm (expect o). Proof. unfold expect. calm. Qed.
Lemma calm_index {A} (l : list A) i : calm (index l i). Proof. unfold index. calm. Qed.
Lemma calm_store {A} (l : list A) i a : calm (store l i a). Proof. unfold store. calm. Qed.
Lemma calm_slice {A} (l : list A) i : calm (slice_from l i). Proof. unfold slice_from. calm. Qed.
Lemma calm_clampP x lo hi : calm (clampP x lo hi). Proof. unfold clampP. calm. Qed.
#[export] Hint Resolve calm_uchk calm_schk calm_ushl calm_sshl calm_shr calm_udiv calm_expect calm_index calm_store calm_slice calm_clampP : calm.
Lemma calm_offset p s n : calm (offset_bit_cursor p s n). Proof. unfold offset_bit_cursor. calm. Qed.
Lemma calm_bv_offset p v n : calm (bv_offset_cursor p v n). Proof. unfold bv_offset_cursor. calm. Qed.
#[export] Hint Resolve calm_offset calm_bv_offset : calm.
Lemma calm_info c : calm (ad_info c). Proof. unfold ad_info. calm. Qed.
#[export] Hint Resolve calm_info : calm.
Lemma calm_cost p e k : calm (cost_of p e k). Proof. unfold cost_of. calm. Qed.
#[export] Hint Resolve calm_cost : calm.
Lemma calm_costs p t e : calm (add_costs p t e). Proof. unfold add_costs. calm. Qed.
#[export] Hint Resolve calm_costs : calm.
Lemma calm_sum p l : forall h t, calm (sum_costs p h l t). Proof. induction l; intros; cbn [sum_costs]; calm. Qed.
#[export] Hint Resolve calm_sum : calm.
Lemma calm_exponent p h l : calm (compute_optimal_divisor_exponent p h l). Proof. unfold compute_optimal_divisor_exponent. calm. Qed.
Lemma calm_triangle p s : calm (triangle_next p s). Proof. unfold triangle_next, rand. calm. Qed.
#[export] Hint Resolve calm_triangle : calm.
Lemma calm_dither p i l : forall s, calm (dither p i s l). Proof. induction l; intros; cbn [dither]; calm. Qed.
Lemma calm_pop n fuel : forall chs c room, calm (pop_block chs n c fuel room). Proof. induction fuel; intros; cbn [pop_block]; calm. Qed.
Lemma calm_prune fuel : forall n sk t chs, calm (prune fuel n sk t chs). Proof. induction fuel; intros; cbn [prune]; calm. Qed.
#[export] Hint Resolve calm_exponent calm_dither calm_pop calm_prune : calm.
Lemma calm_read_bit w p s : calm (t_read_bit w p s). Proof. unfold t_read_bit. calm. Qed.
Lemma calm_get w f i : calm (t_fhs_get w f i). Proof. unfold t_fhs_get. calm. Qed.
Lemma calm_next w p f : calm (t_fhs_next w p f). Proof. unfold t_fhs_next. calm. Qed.
#[export] Hint Resolve calm_read_bit calm_get calm_next : calm.
Lemma calm_count w p c : calm (t_ad_sample_count w p c). Proof. unfold t_ad_sample_count. calm. Qed.
Lemma calm_deinterleave w p pcm n j k : calm (t_deinterleave w p pcm n j k). Proof. unfold t_deinterleave. calm. Qed.
Lemma calm_walk w p hs n off len fuel : forall sk idx, calm (t_seek_walk w p hs n off fuel sk idx len). Proof. induction fuel; intros; cbn [t_seek_walk]; calm. Qed.
#[export] Hint Resolve calm_count calm_deinterleave calm_walk : calm.

(** ** How much memory is enough *)
Definition cont {A} (m : (Z -> bool) -> outcome A) : Prop :=
  exists B r, calm r /\ forall alloc, (forall n, n <= B -> alloc n = true) -> m alloc = r.
Lemma cont_const {A} (m : outcome A) : calm m -> cont (fun _ => m).
Proof. intros H. exists 0, m. auto. Qed.
Lemma cont_bind {A B} (m : (Z -> bool) -> outcome A) (k : (Z -> bool) -> A -> outcome B) :
  cont m -> (forall a, cont (fun al => k al a)) -> cont (fun al => bind (m al) (k al)).
Proof.
  intros (B1 & r1 & C1 & H1) H2. destruct r1 as [a|r|] eqn:E.
  - destruct (H2 a) as (B2 & r2 & C2 & H3). exists (Z.max B1 B2), r2. split; [exact C2|]. intros al HA.
    rewrite H1 by (intros; apply HA; lia). cbn [bind]. apply H3. intros; apply HA; lia.
  - exists B1, (Panic r). split; [unfold calm in *; congruence|]. intros al HA. now rewrite H1.
  - exists B1, OutOfFuel. split; [discriminate|]. intros al HA. now rewrite H1.
Qed.
Lemma cont_push {A} size (l : list A) a : cont (fun al => t_push al size l a).
Proof. exists (size * (zlen l + 1)), (Ok (l ++ [a])). split; [apply calm_ok|]. intros al HA. unfold t_push. now rewrite HA by lia. Qed.
Lemma cont_reserve n : cont (fun al => t_reserve al n).
Proof. exists n, (Ok tt). split; [apply calm_ok|]. intros al HA. unfold t_reserve. now rewrite HA by lia. Qed.
Lemma cont_foldM {S X} (f : (Z -> bool) -> S -> X -> outcome S) l : (forall s x, cont (fun al => f al s x)) -> forall s, cont (fun al => foldM (f al) l s).
Proof.
  intros H. induction l as [|x l IH]; intros s; cbn [foldM]; [apply cont_const, calm_ok|]. apply (cont_bind (fun al => f al s x) (fun al s => foldM (f al) l s)); auto.
Qed.
Create HintDb cont.
#[export] Hint Resolve cont_push cont_reserve : cont.
Ltac cont1 :=
  match goal with
  | |- cont (fun _ => ?m) => apply cont_const; calm
  | |- cont (fun al => bind _ _) => apply cont_bind
  | |- cont (fun al => foldM _ _ _) => apply cont_foldM
  | |- forall _, _ => intros
  | |- cont (fun al => if ?b then _ else _) => destruct b
  | |- cont (fun al => match ?x with _ => _ end) => destruct x
  | |- cont _ => solve [auto with cont]
  end.
Ltac cont := cbv beta zeta; repeat (cont1; cbv beta zeta).
Lemma cont_allocate s i : cont (fun al => t_allocate al s i). Proof. unfold t_allocate. cont. Qed.
#[export] Hint Resolve cont_allocate : cont.
Lemma cont_write_bits w p s v n : cont (fun al => t_write_bits w al p s v n). Proof. unfold t_write_bits. cont. Qed.
Lemma cont_peek w p s n : cont (fun al => t_peek_bits w al p s n). Proof. unfold t_peek_bits. cont. Qed.
Lemma cont_write_bit w p s v : cont (fun al => t_write_bit w al p s v). Proof. unfold t_write_bit. cont. Qed.
#[export] Hint Resolve cont_write_bits cont_peek cont_write_bit : cont.
Lemma cont_read_bits w p s n : cont (fun al => t_read_bits w al p s n). Proof. unfold t_read_bits. cont. Qed.
Lemma cont_unary w p fuel : forall s q, cont (fun al => t_write_unary w al p fuel s q). Proof. induction fuel; intros; cbn [t_write_unary]; cont. Qed.
Lemma cont_skip w p fuel : forall s q, cont (fun al => t_skip_ones w al p fuel s q). Proof. induction fuel; intros; cbn [t_skip_ones]; cont. Qed.
#[export] Hint Resolve cont_read_bits cont_unary cont_skip : cont.
Lemma cont_write w p s e v : cont (fun al => t_write_compressed w al p s e v). Proof. unfold t_write_compressed. cont. Qed.
Lemma cont_read w p s e : cont (fun al => t_read_compressed w al p s e). Proof. unfold t_read_compressed. cont. Qed.
Lemma cont_bv_push w p v b : cont (fun al => t_bv_push w al p v b). Proof. unfold t_bv_push. cont. Qed.
Lemma cont_nl_push p v b : cont (fun al => t_nl_push al p v b). Proof. unfold t_nl_push. cont. Qed.
#[export] Hint Resolve cont_write cont_read cont_bv_push cont_nl_push : cont.
Lemma cont_fhs_push w p f h : cont (fun al => t_fhs_push w al p f h). Proof. unfold t_fhs_push. cont. Qed.
Lemma cont_samples w p e l : forall s h, cont (fun al => t_encode_samples w al p s h e l). Proof. induction l; intros; cbn [t_encode_samples]; cont. Qed.
Lemma cont_raw w p pcm ks : forall s h, cont (fun al => t_encode_raw w al p s h pcm ks). Proof. induction ks; intros; cbn [t_encode_raw]; cont. Qed.
Lemma cont_dsamples w p e n : forall s h b, cont (fun al => t_decode_samples w al p s h b e n). Proof. induction n; intros; cbn [t_decode_samples]; cont. Qed.
Lemma cont_draw w p n : forall s h, cont (fun al => t_decode_raw w al p s h n). Proof. induction n; intros; cbn [t_decode_raw]; cont. Qed.
#[export] Hint Resolve cont_fhs_push cont_samples cont_raw cont_dsamples cont_draw : cont.
Lemma cont_encode_frame w p c s hs pcm : cont (fun al => t_encode_frame w al p c s hs pcm). Proof. unfold t_encode_frame. cont. Qed.
Lemma cont_decode_frame w p c s hs : cont (fun al => t_decode_frame w al p c s hs). Proof. unfold t_decode_frame. cont. Qed.
#[export] Hint Resolve cont_encode_frame cont_decode_frame : cont.
Lemma cont_set_info c i : cont (fun al => t_ad_set_info al c i). Proof. unfold t_ad_set_info. cont. Qed.
Lemma cont_encode_channel w p pcm n k c j : cont (fun al => t_encode_channel w al p pcm n k c j). Proof. unfold t_encode_channel. cont. Qed.
Lemma cont_decode_channel w p d j : cont (fun al => t_decode_channel w al p d j). Proof. unfold t_decode_channel. cont. Qed.
Lemma cont_seek_channel w p st d j : cont (fun al => t_seek_channel w al p st d j). Proof. unfold t_seek_channel. cont. Qed.
#[export] Hint Resolve cont_set_info cont_encode_channel cont_decode_channel cont_seek_channel : cont.
Lemma cont_buffer w p n fuel : forall d, cont (fun al => t_buffer_audio w al p n fuel d). Proof. induction fuel; intros; cbn [t_buffer_audio]; cont. Qed.
#[export] Hint Resolve cont_buffer : cont.
Lemma cont_loop w p n fuel : forall room d, cont (fun al => t_decode_loop w al p n fuel room d). Proof. induction fuel; intros; cbn [t_decode_loop]; cont. Qed.
#[export] Hint Resolve cont_loop : cont.
Lemma cont_encode w p c pcm : cont (fun al => t_ad_encode w al p c pcm). Proof. unfold t_ad_encode. cont. Qed.
Lemma cont_decode w p c buf : cont (fun al => t_ad_decode w al p c buf). Proof. unfold t_ad_decode. cont. Qed.
Lemma cont_seek w p c dt : cont (fun al => t_ad_seek w al p c dt). Proof. unfold t_ad_seek. cont. Qed.
Lemma cont_load w p f : cont (fun al => t_ad_load w al p f).
Proof.
  unfold t_ad_load. destruct (t_get_codec w f) as [[[[lvl h] s] rest]|]; [|cont]. apply cont_bind; [cont|]. intros sc. cbv beta zeta.
  destruct (as_info s) as [info|]; [|cont]. set (c := ad_init _). clearbody c. generalize (t_vectors h (as_stream s) (si_channels info)). intros l.
  induction l as [|n l (B & r & C & H)]; cbn [forallb]; [cont|]. exists (Z.max n B), (Ok (Some c)). split; [apply calm_ok|]. intros al HA.
  rewrite (HA n) by lia. cbn [andb]. assert (HB : forall m, m <= B -> al m = true) by (intros; apply HA; lia). pose proof (H al HB) as E.
  destruct (forallb al l); [reflexivity|]. exfalso. apply C. now rewrite <- E.
Qed.
#[export] Hint Resolve cont_encode cont_decode cont_seek cont_load : cont.
Lemma cont_perform w p c k : cont (fun al => perform (on w al p) c k).
Proof. destruct k; cbn [perform on lib_set_info lib_encode lib_decode lib_seek lib_count lib_load]; cont. Qed.
#[export] Hint Resolve cont_perform : cont.
Lemma cont_run w p ks : forall c, cont (fun al => run (on w al p) ks c).
Proof. induction ks; intros c; cbn [run]; cont. Qed.
(** One amount for all widths. *)
Lemma all_widths (P : Z -> Z -> Prop) : (forall w, exists B, P w B) -> (forall w B B', B <= B' -> P w B -> P w B') -> exists B, forall w, 32 <= w <= 64 -> P w B.
Proof.
  intros HE HM. enough (X : forall n : nat, exists B, forall w, 32 <= w < 32 + Z.of_nat n -> P w B).
  { destruct (X 33%nat) as [B H]. exists B. intros w Hw. apply H. lia. }
  induction n as [|n [B IH]]; [exists 0; lia|]. destruct (HE (32 + Z.of_nat n)) as [B' H']. exists (Z.max B B'). intros w Hw.
  destruct (Z.eq_dec w (32 + Z.of_nat n)) as [->|]; [apply (HM _ B'); [lia|auto]|]. apply (HM _ B); [lia|]. apply IH. lia.
Qed.
Theorem program_enough p ks : exists B, forall w alloc, 32 <= w <= 64 -> (forall n, n <= B -> alloc n = true) -> program (on w alloc p) ks <> Panic OutOfMemory.
Proof.
  destruct (all_widths (fun w B => forall alloc, (forall n, n <= B -> alloc n = true) -> calm (program (on w alloc p) ks))) as [B HB].
  - intros w. destruct (cont_run w p ks ad_new) as (B & r & C & H). exists B. intros al HA. unfold program. now rewrite H.
  - intros w B B' L H al HA. apply H. intros; apply HA; lia.
  - exists B. intros w alloc Hw HA. now apply (HB w Hw alloc HA).
Qed.

(** ** WavCodec *)
Lemma calm_pcm_at pcm i : calm (pcm_at pcm i). Proof. unfold pcm_at. calm. Qed.
#[export] Hint Resolve calm_pcm_at : calm.
Lemma calm_wav_read w pcm n len : forall c, calm (t_wav_read w pcm n c len). Proof. induction n; intros; cbn [t_wav_read]; calm. Qed.
#[export] Hint Resolve calm_wav_read : calm.
Lemma calm_wav_decode w v b : calm (t_wav_decode w v b). Proof. unfold t_wav_decode. calm. Qed.
Lemma calm_wav_offset p v n : calm (wav_offset_cursor p v n). Proof. unfold wav_offset_cursor. calm. Qed.
Lemma calm_wav_seek p v dt : calm (wav_seek p v dt). Proof. unfold wav_seek. calm. Qed.
Lemma calm_wav_save p v : calm (wav_save p v). Proof. unfold wav_save, wav_save_to, wav_header. calm. Qed.
Lemma calm_wav_load p f : calm (wav_load p f). Proof. unfold wav_load, expand_pcm, expand_step. calm. Qed.
#[export] Hint Resolve calm_wav_decode calm_wav_offset calm_wav_seek calm_wav_save calm_wav_load : calm.
Lemma cont_wav_write w p v s : cont (fun al => t_wav_write_sample w al p v s). Proof. unfold t_wav_write_sample. cont. Qed.
#[export] Hint Resolve cont_wav_write : cont.
Lemma cont_wav_encode w p v l : cont (fun al => t_wav_encode w al p v l). Proof. unfold t_wav_encode. cont. Qed.
Lemma cont_wav_load p f : cont (fun al => t_wav_load al p f).
Proof.
  unfold t_wav_load. apply cont_bind; [cont|]. intros [v|]; [|cont]. exists (zlen (wav_pcm v)), (Ok (Some v)). split; [apply calm_ok|].
  intros al HA. now rewrite HA by lia.
Qed.
#[export] Hint Resolve cont_wav_encode cont_wav_load : cont.
Lemma cont_wperform w p v k : cont (fun al => wperform p (won w al p) v k).
Proof. destruct k; cbn [wperform won wlib_encode wlib_decode wlib_load]; cont. Qed.
#[export] Hint Resolve cont_wperform : cont.
Lemma cont_wrun w p ks : forall v, cont (fun al => wrun p (won w al p) ks v).
Proof. induction ks; intros v; cbn [wrun]; cont. Qed.
Theorem wprogram_enough p info ks : exists B, forall w alloc, 32 <= w <= 64 -> (forall n, n <= B -> alloc n = true) -> wprogram p (won w alloc p) info ks <> Panic OutOfMemory.
Proof.
  destruct (all_widths (fun w B => forall alloc, (forall n, n <= B -> alloc n = true) -> calm (wprogram p (won w alloc p) info ks))) as [B HB].
  - intros w. destruct (cont_wrun w p ks (wav_new info)) as (B & r & C & H). exists B. intros al HA. unfold wprogram. now rewrite H.
  - intros w B B' L H al HA. apply H. intros; apply HA; lia.
  - exists B. intros w alloc Hw HA. now apply (HB w Hw alloc HA).
Qed.
