(** * Debug and release builds, function by function *)
From Coq Require Import ZArith List Bool Lia.
From Verif Require Import Model.Base Model.F32 Model.Sample Model.BitStream Model.NibbleList Model.BitVec Model.CircularStack Model.Noise Model.Resample
  Model.Frame Model.Adhoc Model.Bincode Model.Wav Model.RingBuffer Model.LinkedList Model.LruCache Model.Cli Model.Resource Model.Narrow Spec.Profiles.
Import ListNotations.
Open Scope Z_scope.

Local Notation same := same_unless_overflow.
Lemma same_refl {A} (m : outcome A) : same m m. Proof. now left. Qed.
Lemma same_bind {A B} (m m' : outcome A) (f f' : A -> outcome B) : same m m' -> (forall a, same (f a) (f' a)) -> same (bind m f) (bind m' f').
Proof. intros [->| ->] H; [|right; reflexivity]. destruct m'; cbn [bind]; [apply H|now left|now left]. Qed.
Lemma same_uchk w x : same (uchk Debug w x) (uchk Release w x).
Proof. unfold uchk. destruct (in_u w x); [now left|now right]. Qed.
Lemma same_schk w x : same (schk Debug w x) (schk Release w x).
Proof. unfold schk. destruct (in_s w x); [now left|now right]. Qed.
Lemma same_ushl w x s : same (ushl Debug w x s) (ushl Release w x s).
Proof. unfold ushl. destruct (_ && _); [now left|now right]. Qed.
Lemma same_sshl w x s : same (sshl Debug w x s) (sshl Release w x s).
Proof. unfold sshl. destruct (_ && _); [now left|now right]. Qed.
Lemma same_shr w x s : same (shr Debug w x s) (shr Release w x s).
Proof. unfold shr. destruct (_ && _); [now left|now right]. Qed.
Lemma same_mapM {A B} (f f' : A -> outcome B) l : (forall a, same (f a) (f' a)) -> same (mapM f l) (mapM f' l).
Proof. intros H. induction l as [|a l IH]; cbn [mapM]; [apply same_refl|]. apply same_bind; [apply H|]. intros b. apply same_bind; [exact IH|]. intros. apply same_refl. Qed.
Lemma same_foldM {S A} (f f' : S -> A -> outcome S) l : (forall s a, same (f s a) (f' s a)) -> forall s, same (foldM f l s) (foldM f' l s).
Proof. intros H. induction l as [|a l IH]; intros s; cbn [foldM]; [apply same_refl|]. apply same_bind; [apply H|]. intros b. apply IH. Qed.
Global Create HintDb profiles.
Global Hint Resolve same_uchk same_schk same_ushl same_sshl same_shr : profiles.
Ltac agree_step :=
  match goal with
  | |- same_unless_overflow ?a ?b => constr_eq a b; apply same_refl
  | |- same_unless_overflow (bind _ _) (bind _ _) => apply same_bind; [|intros ?]
  | |- same_unless_overflow (mapM _ ?l) (mapM _ ?l) => apply same_mapM; intros ?
  | |- same_unless_overflow (foldM _ ?l ?s) (foldM _ ?l ?s) => apply same_foldM; intros ? ?
  | |- same_unless_overflow (match ?x with _ => _ end) (match ?x with _ => _ end) => destruct x
  | |- _ => progress (cbv beta zeta)
  | |- _ => solve [auto with profiles nocore]
  end.
Ltac agree := repeat agree_step.
Tactic Notation "one" reference(f) := intros; unfold f; agree.

Lemma same_offset_bit_cursor s o : same (offset_bit_cursor Debug s o) (offset_bit_cursor Release s o). Proof. one offset_bit_cursor. Qed.
Global Hint Resolve same_offset_bit_cursor : profiles.
Lemma same_write_bits s v n : same (write_bits Debug s v n) (write_bits Release s v n). Proof. one write_bits. Qed.
Global Hint Resolve same_write_bits : profiles.
Lemma same_peek_bits s n : same (peek_bits Debug s n) (peek_bits Release s n). Proof. one peek_bits. Qed.
Global Hint Resolve same_peek_bits : profiles.
Lemma same_write_bit s v : same (write_bit Debug s v) (write_bit Release s v). Proof. one write_bit. Qed.
Lemma same_read_bit s : same (read_bit Debug s) (read_bit Release s). Proof. one read_bit. Qed.
Lemma same_read_bits s n : same (read_bits Debug s n) (read_bits Release s n). Proof. one read_bits. Qed.
Global Hint Resolve same_write_bit same_read_bit same_read_bits : profiles.
Lemma same_write_typed s v n : same (write_typed Debug s v n) (write_typed Release s v n). Proof. one write_typed. Qed.
Lemma same_read_typed s n : same (read_typed Debug s n) (read_typed Release s n). Proof. one read_typed. Qed.
Lemma same_write_unary fuel : forall s q, same (write_unary Debug fuel s q) (write_unary Release fuel s q).
Proof. induction fuel as [|fuel IH]; intros; cbn [write_unary]; agree. Qed.
Global Hint Resolve same_write_typed same_read_typed same_write_unary : profiles.
Lemma same_write_compressed s e v : same (write_compressed Debug s e v) (write_compressed Release s e v). Proof. one write_compressed. Qed.
Lemma same_skip_ones fuel : forall s q, same (skip_ones Debug fuel s q) (skip_ones Release fuel s q).
Proof. induction fuel as [|fuel IH]; intros; cbn [skip_ones]; agree. Qed.
Global Hint Resolve same_write_compressed same_skip_ones : profiles.
Lemma same_read_compressed s e : same (read_compressed Debug s e) (read_compressed Release s e). Proof. one read_compressed. Qed.
Global Hint Resolve same_read_compressed : profiles.
Lemma same_write_compressed_divisor s e v : same (write_compressed_divisor Debug s e v) (write_compressed_divisor Release s e v). Proof. one write_compressed_divisor. Qed.
Lemma same_read_compressed_divisor s e : same (read_compressed_divisor Debug s e) (read_compressed_divisor Release s e). Proof. one read_compressed_divisor. Qed.
Global Hint Resolve same_write_compressed_divisor same_read_compressed_divisor : profiles.
Lemma same_write_compressed_capped s e v : same (write_compressed_capped Debug s e v) (write_compressed_capped Release s e v). Proof. one write_compressed_capped. Qed.
Lemma same_read_compressed_capped s e : same (read_compressed_capped Debug s e) (read_compressed_capped Release s e). Proof. one read_compressed_capped. Qed.
Global Hint Resolve same_write_compressed_capped same_read_compressed_capped : profiles.
Lemma same_bv_offset_cursor v o : same (bv_offset_cursor Debug v o) (bv_offset_cursor Release v o). Proof. one bv_offset_cursor. Qed.
Global Hint Resolve same_bv_offset_cursor : profiles.
Lemma same_bv_push v b : same (bv_push Debug v b) (bv_push Release v b). Proof. one bv_push. Qed.
Lemma same_nl_push v b : same (nl_push Debug v b) (nl_push Release v b). Proof. one nl_push. Qed.
Global Hint Resolve same_bv_push same_nl_push : profiles.
Lemma same_rand s : same (rand Debug s) (rand Release s). Proof. one rand. Qed.
Global Hint Resolve same_rand : profiles.
Lemma same_uniform_next s : same (uniform_next Debug s) (uniform_next Release s). Proof. one uniform_next. Qed.
Lemma same_triangle_next s : same (triangle_next Debug s) (triangle_next Release s). Proof. one triangle_next. Qed.
Global Hint Resolve same_uniform_next same_triangle_next : profiles.
Lemma same_scale_at i f o k : same (scale_at Debug i f o k) (scale_at Release i f o k). Proof. one scale_at. Qed.
Global Hint Resolve same_scale_at : profiles.
Lemma same_scale_signal i n o : same (scale_signal Debug i n o) (scale_signal Release i n o). Proof. one scale_signal. Qed.
Lemma same_fhs_push f h : same (fhs_push Debug f h) (fhs_push Release f h). Proof. one fhs_push. Qed.
Lemma same_fhs_next f : same (fhs_next Debug f) (fhs_next Release f). Proof. one fhs_next. Qed.
Lemma same_cost_of e k : same (cost_of Debug e k) (cost_of Release e k). Proof. one cost_of. Qed.
Global Hint Resolve same_fhs_push same_fhs_next same_cost_of : profiles.
Lemma same_add_costs t e : same (add_costs Debug t e) (add_costs Release t e). Proof. one add_costs. Qed.
Global Hint Resolve same_add_costs : profiles.
Lemma same_sum_costs samples : forall h t, same (sum_costs Debug h samples t) (sum_costs Release h samples t).
Proof. induction samples as [|x samples IH]; intros; cbn [sum_costs]; agree. Qed.
Global Hint Resolve same_sum_costs : profiles.
Lemma same_optimal h r : same (compute_optimal_divisor_exponent Debug h r) (compute_optimal_divisor_exponent Release h r). Proof. one compute_optimal_divisor_exponent. Qed.
Lemma same_encode_samples samples : forall s h e, same (encode_samples Debug s h e samples) (encode_samples Release s h e samples).
Proof. induction samples as [|x samples IH]; intros; cbn [encode_samples]; agree. Qed.
Global Hint Resolve same_optimal same_encode_samples : profiles.
Lemma same_encode_raw ks : forall s h pcm, same (encode_raw Debug s h pcm ks) (encode_raw Release s h pcm ks).
Proof. induction ks as [|k ks IH]; intros; cbn [encode_raw]; agree. Qed.
Global Hint Resolve same_encode_raw : profiles.
Lemma same_encode_frame c s hs pcm : same (encode_frame Debug c s hs pcm) (encode_frame Release c s hs pcm). Proof. one encode_frame. Qed.
Lemma same_decode_samples n : forall s h buf e, same (decode_samples Debug s h buf e n) (decode_samples Release s h buf e n).
Proof. induction n as [|n IH]; intros; cbn [decode_samples]; agree. Qed.
Lemma same_decode_raw n : forall s h, same (decode_raw Debug s h n) (decode_raw Release s h n).
Proof. induction n as [|n IH]; intros; cbn [decode_raw]; agree. Qed.
Global Hint Resolve same_encode_frame same_decode_samples same_decode_raw : profiles.
Lemma same_decode_frame c s hs : same (decode_frame Debug c s hs) (decode_frame Release c s hs). Proof. one decode_frame. Qed.
Global Hint Resolve same_decode_frame : profiles.

Lemma same_sample_count c : same (ad_sample_count Debug c) (ad_sample_count Release c). Proof. one ad_sample_count. Qed.
Lemma same_dither k samples : forall seq, same (dither Debug k seq samples) (dither Release k seq samples).
Proof. induction samples as [|x samples IH]; intros; cbn [dither]; agree. Qed.
Global Hint Resolve same_sample_count same_dither : profiles.
Lemma same_encode_channel pcm n k c ch : same (encode_channel Debug pcm n k c ch) (encode_channel Release pcm n k c ch). Proof. one encode_channel. Qed.
Global Hint Resolve same_encode_channel : profiles.
Lemma same_ad_encode c pcm : same (ad_encode Debug c pcm) (ad_encode Release c pcm). Proof. one ad_encode. Qed.
Lemma same_decode_channel d ch : same (decode_channel Debug d ch) (decode_channel Release d ch). Proof. one decode_channel. Qed.
Global Hint Resolve same_ad_encode same_decode_channel : profiles.
Lemma same_buffer_audio n fuel : forall d, same (buffer_audio Debug n fuel d) (buffer_audio Release n fuel d).
Proof. induction fuel as [|fuel IH]; intros; cbn [buffer_audio]; agree. Qed.
Global Hint Resolve same_buffer_audio : profiles.
Lemma same_decode_loop n fuel : forall room d, same (decode_loop Debug n fuel room d) (decode_loop Release n fuel room d).
Proof. induction fuel as [|fuel IH]; intros; cbn [decode_loop]; agree. Qed.
Global Hint Resolve same_decode_loop : profiles.
Lemma same_ad_decode c buf : same (ad_decode Debug c buf) (ad_decode Release c buf). Proof. one ad_decode. Qed.
Lemma same_seek_walk hs ch o fuel : forall a b n, same (seek_walk Debug hs ch o fuel a b n) (seek_walk Release hs ch o fuel a b n).
Proof. induction fuel as [|fuel IH]; intros; cbn [seek_walk]; agree. Qed.
Lemma same_seek_channel k d o : same (seek_channel Debug k d o) (seek_channel Release k d o). Proof. one seek_channel. Qed.
Global Hint Resolve same_ad_decode same_seek_walk same_seek_channel : profiles.
Lemma same_ad_seek c dt : same (ad_seek Debug c dt) (ad_seek Release c dt). Proof. one ad_seek. Qed.
Lemma same_ad_load b : same (ad_load Debug b) (ad_load Release b). Proof. one ad_load. Qed.
Lemma same_ad_load_from s : same (ad_load_from Debug s) (ad_load_from Release s). Proof. one ad_load_from. Qed.
Global Hint Resolve same_ad_seek same_ad_load same_ad_load_from : profiles.

Lemma same_wav_header w : same (wav_header Debug w) (wav_header Release w). Proof. one wav_header. Qed.
Global Hint Resolve same_wav_header : profiles.
Lemma same_wav_save_to w n : same (wav_save_to Debug w n) (wav_save_to Release w n). Proof. one wav_save_to. Qed.
Global Hint Resolve same_wav_save_to : profiles.
Lemma same_wav_save w : same (wav_save Debug w) (wav_save Release w). Proof. one wav_save. Qed.
Lemma same_wav_load b : same (wav_load Debug b) (wav_load Release b). Proof. one wav_load. Qed.
Lemma same_wav_offset_cursor w o : same (wav_offset_cursor Debug w o) (wav_offset_cursor Release w o). Proof. one wav_offset_cursor. Qed.
Global Hint Resolve same_wav_save same_wav_load same_wav_offset_cursor : profiles.
Lemma same_wav_write_sample w s : same (wav_write_sample Debug w s) (wav_write_sample Release w s). Proof. one wav_write_sample. Qed.
Global Hint Resolve same_wav_write_sample : profiles.
Lemma same_wav_encode w s : same (wav_encode Debug w s) (wav_encode Release w s). Proof. one wav_encode. Qed.
Lemma same_wav_seek w s : same (wav_seek Debug w s) (wav_seek Release w s). Proof. one wav_seek. Qed.
Lemma same_wav_load_from b pos sc : same (wav_load_from Debug b pos sc) (wav_load_from Release b pos sc). Proof. one wav_load_from. Qed.
Lemma same_wav_save_into w s : same (wav_save_into Debug w s) (wav_save_into Release w s). Proof. one wav_save_into. Qed.
Global Hint Resolve same_wav_encode same_wav_seek same_wav_load_from same_wav_save_into : profiles.

Lemma same_wav_to_adhoc_loop fuel : forall w c buf, same (wav_to_adhoc_loop Debug fuel w c buf) (wav_to_adhoc_loop Release fuel w c buf).
Proof. induction fuel as [|fuel IH]; intros; cbn [wav_to_adhoc_loop]; agree. Qed.
Lemma same_adhoc_to_wav_loop fuel : forall c w buf, same (adhoc_to_wav_loop Debug fuel c w buf) (adhoc_to_wav_loop Release fuel c w buf).
Proof. induction fuel as [|fuel IH]; intros; cbn [adhoc_to_wav_loop]; agree. Qed.
Global Hint Resolve same_wav_to_adhoc_loop same_adhoc_to_wav_loop : profiles.
Lemma same_wav_to_adhoc f l : same (wav_to_adhoc Debug f l) (wav_to_adhoc Release f l). Proof. one wav_to_adhoc. Qed.
Lemma same_adhoc_to_wav f : same (adhoc_to_wav Debug f) (adhoc_to_wav Release f). Proof. one adhoc_to_wav. Qed.

Section Collections.
Context {T : Type}.
Lemma same_rb_before (r : ring T) i : same (rb_before Debug r i) (rb_before Release r i). Proof. one rb_before. Qed.
Lemma same_rb_after (r : ring T) i : same (rb_after Debug r i) (rb_after Release r i). Proof. one rb_after. Qed.
Hint Resolve same_rb_before same_rb_after : profiles.
Lemma same_rb_push_front (r : ring T) x : same (rb_push_front Debug r x) (rb_push_front Release r x). Proof. one rb_push_front. Qed.
Lemma same_rb_pop_front (r : ring T) : same (rb_pop_front Debug r) (rb_pop_front Release r). Proof. one rb_pop_front. Qed.
Lemma same_rb_push_rear (r : ring T) x : same (rb_push_rear Debug r x) (rb_push_rear Release r x). Proof. one rb_push_rear. Qed.
Lemma same_rb_pop_rear (r : ring T) : same (rb_pop_rear Debug r) (rb_pop_rear Release r). Proof. one rb_pop_rear. Qed.
Lemma same_rb_iter (r : ring T) : same (rb_iter Debug r) (rb_iter Release r). Proof. one rb_iter. Qed.
Lemma same_ll_remove_at (l : llist T) i : same (ll_remove_at Debug l i) (ll_remove_at Release l i). Proof. one ll_remove_at. Qed.
Lemma same_ll_insert_at (l : llist T) i d x : same (ll_insert_at Debug l i d x) (ll_insert_at Release l i d x). Proof. one ll_insert_at. Qed.
Hint Resolve same_ll_remove_at same_ll_insert_at : profiles.
Lemma same_ll_push_front (l : llist T) x : same (ll_push_front Debug l x) (ll_push_front Release l x). Proof. one ll_push_front. Qed.
Lemma same_ll_push_rear (l : llist T) x : same (ll_push_rear Debug l x) (ll_push_rear Release l x). Proof. one ll_push_rear. Qed.
Lemma same_ll_pop_front (l : llist T) : same (ll_pop_front Debug l) (ll_pop_front Release l). Proof. one ll_pop_front. Qed.
Lemma same_ll_pop_rear (l : llist T) : same (ll_pop_rear Debug l) (ll_pop_rear Release l). Proof. one ll_pop_rear. Qed.
End Collections.
Global Hint Resolve same_rb_push_front same_rb_pop_front same_rb_push_rear same_rb_pop_rear same_rb_iter
  same_ll_remove_at same_ll_insert_at same_ll_push_front same_ll_push_rear same_ll_pop_front same_ll_pop_rear same_scale_signal same_wav_to_adhoc same_adhoc_to_wav : profiles.
Section Cache.
Context {K V : Type} (eqb : K -> K -> bool).
Lemma same_raise_key n (l : llist (K * V)) v : same (raise_key Debug n l v) (raise_key Release n l v). Proof. one raise_key. Qed.
Hint Resolve same_raise_key : profiles.
Lemma same_lru_get (c : lru K V) k : same (lru_get eqb Debug c k) (lru_get eqb Release c k). Proof. one lru_get. Qed.
Lemma same_lru_get_mut_set (c : lru K V) k v : same (lru_get_mut_set eqb Debug c k v) (lru_get_mut_set eqb Release c k v). Proof. one lru_get_mut_set. Qed.
Lemma same_lru_remove (c : lru K V) k : same (lru_remove eqb Debug c k) (lru_remove eqb Release c k). Proof. one lru_remove. Qed.
Lemma same_lru_put (c : lru K V) k v : same (lru_put eqb Debug c k v) (lru_put eqb Release c k v). Proof. one lru_put. Qed.
End Cache.
Global Hint Resolve same_lru_get same_lru_get_mut_set same_lru_remove same_lru_put : profiles.

(** ** Other targets *)
Section Targets.
Context (w : Z) (alloc : Z -> bool).
Lemma same_t_write_bits s v n : same (t_write_bits w alloc Debug s v n) (t_write_bits w alloc Release s v n). Proof. one t_write_bits. Qed.
Hint Resolve same_t_write_bits : profiles.
Lemma same_t_peek_bits s n : same (t_peek_bits w alloc Debug s n) (t_peek_bits w alloc Release s n). Proof. one t_peek_bits. Qed.
Hint Resolve same_t_peek_bits : profiles.
Lemma same_t_write_bit s v : same (t_write_bit w alloc Debug s v) (t_write_bit w alloc Release s v). Proof. one t_write_bit. Qed.
Hint Resolve same_t_write_bit : profiles.
Lemma same_t_read_bit s : same (t_read_bit w Debug s) (t_read_bit w Release s). Proof. one t_read_bit. Qed.
Hint Resolve same_t_read_bit : profiles.
Lemma same_t_read_bits s n : same (t_read_bits w alloc Debug s n) (t_read_bits w alloc Release s n). Proof. one t_read_bits. Qed.
Hint Resolve same_t_read_bits : profiles.
Lemma same_t_write_unary  fuel : forall s q, same (t_write_unary w alloc Debug fuel s q) (t_write_unary w alloc Release fuel s q).
Proof. induction fuel as [|fuel IH]; intros; cbn [t_write_unary]; agree. Qed.
Hint Resolve same_t_write_unary : profiles.
Lemma same_t_write_compressed s e v : same (t_write_compressed w alloc Debug s e v) (t_write_compressed w alloc Release s e v). Proof. one t_write_compressed. Qed.
Hint Resolve same_t_write_compressed : profiles.
Lemma same_t_skip_ones  fuel : forall s q, same (t_skip_ones w alloc Debug fuel s q) (t_skip_ones w alloc Release fuel s q).
Proof. induction fuel as [|fuel IH]; intros; cbn [t_skip_ones]; agree. Qed.
Hint Resolve same_t_skip_ones : profiles.
Lemma same_t_read_compressed s e : same (t_read_compressed w alloc Debug s e) (t_read_compressed w alloc Release s e). Proof. one t_read_compressed. Qed.
Hint Resolve same_t_read_compressed : profiles.
Lemma same_t_bv_capacity v : same (t_bv_capacity w Debug v) (t_bv_capacity w Release v). Proof. one t_bv_capacity. Qed.
Hint Resolve same_t_bv_capacity : profiles.
Lemma same_t_bv_push v b : same (t_bv_push w alloc Debug v b) (t_bv_push w alloc Release v b). Proof. one t_bv_push. Qed.
Hint Resolve same_t_bv_push : profiles.
Lemma same_t_nl_push v b : same (t_nl_push alloc Debug v b) (t_nl_push alloc Release v b). Proof. one t_nl_push. Qed.
Hint Resolve same_t_nl_push : profiles.
Lemma same_t_fhs_push f h : same (t_fhs_push w alloc Debug f h) (t_fhs_push w alloc Release f h). Proof. one t_fhs_push. Qed.
Hint Resolve same_t_fhs_push : profiles.
Lemma same_t_fhs_next f : same (t_fhs_next w Debug f) (t_fhs_next w Release f). Proof. one t_fhs_next. Qed.
Hint Resolve same_t_fhs_next : profiles.
Lemma same_t_encode_samples  samples : forall s h e, same (t_encode_samples w alloc Debug s h e samples) (t_encode_samples w alloc Release s h e samples).
Proof. induction samples as [|x samples IH]; intros; cbn [t_encode_samples]; agree. Qed.
Hint Resolve same_t_encode_samples : profiles.
Lemma same_t_encode_raw  ks : forall s h pcm, same (t_encode_raw w alloc Debug s h pcm ks) (t_encode_raw w alloc Release s h pcm ks).
Proof. induction ks as [|x ks IH]; intros; cbn [t_encode_raw]; agree. Qed.
Hint Resolve same_t_encode_raw : profiles.
Lemma same_t_encode_frame c s hs pcm : same (t_encode_frame w alloc Debug c s hs pcm) (t_encode_frame w alloc Release c s hs pcm). Proof. one t_encode_frame. Qed.
Hint Resolve same_t_encode_frame : profiles.
Lemma same_t_decode_samples  n : forall s h buf e, same (t_decode_samples w alloc Debug s h buf e n) (t_decode_samples w alloc Release s h buf e n).
Proof. induction n as [|n IH]; intros; cbn [t_decode_samples]; agree. Qed.
Hint Resolve same_t_decode_samples : profiles.
Lemma same_t_decode_raw  n : forall s h, same (t_decode_raw w alloc Debug s h n) (t_decode_raw w alloc Release s h n).
Proof. induction n as [|n IH]; intros; cbn [t_decode_raw]; agree. Qed.
Hint Resolve same_t_decode_raw : profiles.
Lemma same_t_decode_frame c s hs : same (t_decode_frame w alloc Debug c s hs) (t_decode_frame w alloc Release c s hs). Proof. one t_decode_frame. Qed.
Hint Resolve same_t_decode_frame : profiles.
Lemma same_t_ad_sample_count c : same (t_ad_sample_count w Debug c) (t_ad_sample_count w Release c). Proof. one t_ad_sample_count. Qed.
Hint Resolve same_t_ad_sample_count : profiles.
Lemma same_t_deinterleave pcm n k m : same (t_deinterleave w Debug pcm n k m) (t_deinterleave w Release pcm n k m). Proof. one t_deinterleave. Qed.
Hint Resolve same_t_deinterleave : profiles.
Lemma same_t_encode_channel pcm n k c ch : same (t_encode_channel w alloc Debug pcm n k c ch) (t_encode_channel w alloc Release pcm n k c ch). Proof. one t_encode_channel. Qed.
Hint Resolve same_t_encode_channel : profiles.
Lemma same_t_ad_encode c pcm : same (t_ad_encode w alloc Debug c pcm) (t_ad_encode w alloc Release c pcm). Proof. one t_ad_encode. Qed.
Hint Resolve same_t_ad_encode : profiles.
Lemma same_t_decode_channel d ch : same (t_decode_channel w alloc Debug d ch) (t_decode_channel w alloc Release d ch). Proof. one t_decode_channel. Qed.
Hint Resolve same_t_decode_channel : profiles.
Lemma same_t_buffer_audio n fuel : forall d, same (t_buffer_audio w alloc Debug n fuel d) (t_buffer_audio w alloc Release n fuel d).
Proof. induction fuel as [|fuel IH]; intros; cbn [t_buffer_audio]; agree. Qed.
Hint Resolve same_t_buffer_audio : profiles.
Lemma same_t_decode_loop n fuel : forall room d, same (t_decode_loop w alloc Debug n fuel room d) (t_decode_loop w alloc Release n fuel room d).
Proof. induction fuel as [|fuel IH]; intros; cbn [t_decode_loop]; agree. Qed.
Hint Resolve same_t_decode_loop : profiles.
Lemma same_t_ad_decode c buf : same (t_ad_decode w alloc Debug c buf) (t_ad_decode w alloc Release c buf). Proof. one t_ad_decode. Qed.
Hint Resolve same_t_ad_decode : profiles.
Lemma same_t_seek_walk hs ch o fuel : forall a b n, same (t_seek_walk w Debug hs ch o fuel a b n) (t_seek_walk w Release hs ch o fuel a b n).
Proof. induction fuel as [|fuel IH]; intros; cbn [t_seek_walk]; agree. Qed.
Hint Resolve same_t_seek_walk : profiles.
Lemma same_t_seek_channel k d o : same (t_seek_channel w alloc Debug k d o) (t_seek_channel w alloc Release k d o). Proof. one t_seek_channel. Qed.
Hint Resolve same_t_seek_channel : profiles.
Lemma same_t_ad_seek c dt : same (t_ad_seek w alloc Debug c dt) (t_ad_seek w alloc Release c dt). Proof. one t_ad_seek. Qed.
Hint Resolve same_t_ad_seek : profiles.
Lemma same_t_ad_load b : same (t_ad_load w alloc Debug b) (t_ad_load w alloc Release b). Proof. one t_ad_load. Qed.
Hint Resolve same_t_ad_load : profiles.
Lemma same_t_wav_write_sample v s : same (t_wav_write_sample w alloc Debug v s) (t_wav_write_sample w alloc Release v s). Proof. one t_wav_write_sample. Qed.
Hint Resolve same_t_wav_write_sample : profiles.
Lemma same_t_wav_encode v s : same (t_wav_encode w alloc Debug v s) (t_wav_encode w alloc Release v s). Proof. one t_wav_encode. Qed.
Hint Resolve same_t_wav_encode : profiles.
Lemma same_t_wav_load b : same (t_wav_load alloc Debug b) (t_wav_load alloc Release b). Proof. one t_wav_load. Qed.
Hint Resolve same_t_wav_load : profiles.
End Targets.
Global Hint Resolve same_t_ad_encode same_t_ad_decode same_t_ad_seek same_t_ad_sample_count same_t_ad_load same_t_wav_encode same_t_wav_load : profiles.
