(** PropsChunks.v -- C47: processing a tensor in chunks gives the same bytes as processing it in one call. *)
From Coq Require Import ZArith List Lia Bool Arith ZifyBool ZifyNat Reals Lra.
From Flocq Require Import Core Binary Bits.
From Verif Require Import Base Floats Simd Dtypes Spec ApiSpec QuantKernels DequantKernels ExecFacts FloatFacts QuantFacts QuantKernelFacts
  QuantGenericFacts DequantFacts DequantGenericFacts QuantLanes Context ContextFacts Footprint QuantizeFacts DequantizeFacts Api PropsQuantize Schedule
  PropsMemory FloatFacts2 PropsDequantize PropsRoundTrip PropsDequantBf16 PropsBf16Zero.
Import ListNotations.

Ltac Zify.zify_post_hook ::= Z.div_mod_to_equations.

(** [na] elements end on a byte boundary of the packed format. *)
Definition whole_bytes (dq : dtype) (na : nat) : Prop := na mod codes_per_byte dq = 0.

Lemma slice_app_l off len (a b : mem) : off + len <= length a -> slice off len (a ++ b) = slice off len a.
Proof.
  intros H. unfold slice. rewrite skipn_app. replace (off - length a) with 0 by lia. cbn [skipn]. rewrite firstn_app, skipn_length.
  replace (len - (length a - off)) with 0 by lia. cbn [firstn]. apply app_nil_r.
Qed.
Lemma slice_app_r off len (a b : mem) : slice (length a + off) len (a ++ b) = slice off len b.
Proof. rewrite <- slice_skipn. rewrite skipn_app, skipn_all, Nat.sub_diag. reflexivity. Qed.

Lemma elem_at_app_l d (a b : mem) i : float_type d -> (stride d * S i <= length a) -> elem_at d (a ++ b) i = elem_at d a i.
Proof. intros [->| ->] H; [change (stride DT_F32) with 4 in H|change (stride DT_BF16) with 2 in H]; cbn [elem_at]; unfold f32_at, bf16_at; rewrite slice_app_l by lia; reflexivity. Qed.
Lemma elem_at_app_r d (a b : mem) na i : float_type d -> length a = stride d * na -> elem_at d (a ++ b) (na + i) = elem_at d b i.
Proof.
  intros [->| ->] H; cbn [elem_at]; unfold f32_at, bf16_at.
  - change (stride DT_F32) with 4 in H. replace (4 * (na + i)) with (length a + 4 * i) by lia. rewrite slice_app_r. reflexivity.
  - change (stride DT_BF16) with 2 in H. replace (2 * (na + i)) with (length a + 2 * i) by lia. rewrite slice_app_r. reflexivity.
Qed.
Lemma numel_exact d (a : mem) na : float_type d -> length a = stride d * na -> numel d (length a) = na.
Proof. intros [->| ->] ->; unfold numel; [change (stride DT_F32) with 4|change (stride DT_BF16) with 2]; lia. Qed.
Lemma numel_app d (a b : mem) na : float_type d -> length a = stride d * na -> numel d (length (a ++ b)) = na + numel d (length b).
Proof. intros Hd H. rewrite app_length, H. destruct Hd as [->| ->]; unfold numel; [change (stride DT_F32) with 4|change (stride DT_BF16) with 2]; lia. Qed.
Lemma bytes_for_add d na nb : quant_type d -> whole_bytes d na -> bytes_for d (na + nb) = bytes_for d na + bytes_for d nb /\ codes_per_byte d * bytes_for d na = na.
Proof.
  unfold whole_bytes, codes_per_byte, bytes_for. intros [->|[->| ->]] H; cbn [bit_size] in *; [change (8 / 2) with 4 in *|change (8 / 4) with 2 in *|change (8 / 8) with 1 in *]; lia.
Qed.

Lemma packed_byte_l d na n C C' k : quant_type d -> whole_bytes d na -> codes_per_byte d * S k <= na -> na <= n ->
  (forall i, i < na -> C i = C' i) -> packed_byte d n C k = packed_byte d na C' k.
Proof.
  intros Hd Hw Hk Hn HC. unfold packed_byte. f_equal. apply map_ext_in. intros j Hj. apply in_seq in Hj. cbv zeta.
  assert (codes_per_byte d * k + j < na) by nia. rewrite (proj2 (Nat.ltb_lt _ n)), (proj2 (Nat.ltb_lt _ na)) by lia. rewrite HC by lia. reflexivity.
Qed.
Lemma packed_byte_r d na nb C C' ka k : codes_per_byte d * ka = na -> (forall i, i < nb -> C (na + i) = C' i) ->
  packed_byte d (na + nb) C (ka + k) = packed_byte d nb C' k.
Proof.
  intros Hka HC. unfold packed_byte. f_equal. apply map_ext_in. intros j Hj. cbv zeta.
  replace (codes_per_byte d * (ka + k) + j) with (na + (codes_per_byte d * k + j)) by nia. set (i := codes_per_byte d * k + j).
  destruct (Nat.ltb_spec i nb); [rewrite (proj2 (Nat.ltb_lt _ _)), HC by lia|rewrite (proj2 (Nat.ltb_ge _ _)) by lia]; reflexivity.
Qed.

Lemma seq_shift_map s z m : seq (s + z) m = map (fun k => s + k) (seq z m).
Proof. revert z. induction m as [|m IH]; intros z; cbn; f_equal. rewrite <- IH. f_equal. lia. Qed.

Lemma input_ok_thr A rm scale zp thr thr' x : (rm = RM_STOCHASTIC -> thr' = thr) -> input_ok A rm scale zp thr x -> input_ok A rm scale zp thr' x.
Proof. destruct rm; cbn [input_ok]; auto. intros E. rewrite E by auto. auto. Qed.
Lemma expected_code_thr rm d scale zp thr thr' x : (rm = RM_STOCHASTIC -> thr' = thr) -> expected_code rm d scale zp thr' x = expected_code rm d scale zp thr x.
Proof. destruct rm; cbn [expected_code]; auto. intros E. rewrite E by auto. auto. Qed.

(** ** C47: quantize.  The first chunk holds [na] whole elements that fill whole bytes; the three calls may run on three kernel sets, with three thread
    counts, at three addresses, under any schedules.  (A stochastic call draws a new threshold each time: the equality is for equal draws.) *)
Theorem C47_quantize_chunks A Aa Ab nt nta ntb oaddr oaddra oaddrb din dq scale zp rm thr thra thrb a b pa pb na ra rb r :
  length a = stride din * na -> whole_bytes dq na ->
  buffers_ok nta din dq a pa -> buffers_ok ntb din dq b pb -> sizes_ok (length (a ++ b)) (numel din (length (a ++ b))) nt -> good_scale scale ->
  (rm = RM_STOCHASTIC -> thra = thr /\ thrb = thr /\ threshold thr /\ (Z.abs zp <= 2 ^ 62)%Z) -> (rm = RM_NEAREST -> (Z.abs zp <= 2 ^ 22)%Z) ->
  (forall i, i < numel din (length a) -> input_ok A rm scale zp thr (elem_at din a i) /\ input_ok Aa rm scale zp thra (elem_at din a i)) ->
  (forall i, i < numel din (length b) -> input_ok A rm scale zp thr (elem_at din b i) /\ input_ok Ab rm scale zp thrb (elem_at din b i)) ->
  returns a pa (quantize_call Aa nta oaddra din dq scale zp rm thra a pa) ra ->
  returns b pb (quantize_call Ab ntb oaddrb din dq scale zp rm thrb b pb) rb ->
  returns (a ++ b) (pa ++ pb) (quantize_call A nt oaddr din dq scale zp rm thr (a ++ b) (pa ++ pb)) r ->
  exists qa qb, ra = Ok qa /\ rb = Ok qb /\ r = Ok (qa ++ qb) /\ length qa = length pa /\ length qb = length pb.
Proof.
  intros La Hw (Hfp & Hq & Ha & Hla & HSa) (_ & _ & Hb & Hlb & HSb) HS Hsc Hst Hne HIa HIb Ra Rb R.
  assert (Na : numel din (length a) = na) by (apply numel_exact; auto).
  assert (Nab : numel din (length (a ++ b)) = na + numel din (length b)) by (apply numel_app; auto).
  destruct (bytes_for_add dq na (numel din (length b)) Hq Hw) as [Eb Ec].
  assert (Hpo : codes_per_byte dq > 0) by (rewrite codes_per_byte_q by auto; destruct Hq as [->|[->| ->]]; cbn; lia).
  unfold quantize_call in *.
  apply quantize_bytes in Ra; auto; [|intros E; destruct (Hst E) as (-> & _ & ? & ?); auto|intros i Hi; apply HIa; auto].
  apply quantize_bytes in Rb; auto; [|intros E; destruct (Hst E) as (_ & -> & ? & ?); auto|intros i Hi; apply HIb; auto].
  assert (HI : forall i, i < numel din (length (a ++ b)) -> input_ok A rm scale zp thr (elem_at din (a ++ b) i)).
  { rewrite Nab. intros i Hi. destruct (Nat.lt_ge_cases i na) as [Hl|Hl].
    - rewrite elem_at_app_l; auto; [apply HIa; lia|rewrite La; apply Nat.mul_le_mono_l; lia].
    - replace i with (na + (i - na)) by lia. rewrite elem_at_app_r by auto. apply HIb. lia. }
  apply quantize_bytes in R; auto; [|apply Forall_app; auto|rewrite app_length, Hla, Hlb, Nab, Na; auto|intros E; destruct (Hst E) as (_ & _ & ? & ?); auto].
  rewrite skipn_all, app_nil_r in Ra, Rb, R.
  do 2 eexists. split; [exact Ra|]. split; [exact Rb|]. rewrite !map_length, !seq_length. split; [|auto].
  rewrite R. f_equal. rewrite (app_length pa pb), seq_app, map_app, Nat.add_0_l. f_equal.
  - apply map_ext_in. intros k Hk. apply in_seq in Hk. rewrite Nab, Na. apply packed_byte_l; auto; try lia.
    + rewrite <- Ec. apply Nat.mul_le_mono_l. rewrite Hla, Na in Hk. lia.
    + intros i Hi. rewrite elem_at_app_l by (auto; rewrite La; apply Nat.mul_le_mono_l; lia). symmetry. apply expected_code_thr. intros E. apply Hst; auto.
  - replace (seq (length pa) (length pb)) with (map (fun k => length pa + k) (seq 0 (length pb))).
    2:{ symmetry. rewrite <- (Nat.add_0_r (length pa)) at 1. apply seq_shift_map. }
    rewrite map_map. apply map_ext. intros k. rewrite Nab. apply packed_byte_r; [rewrite Hla, Na; auto|].
    intros i Hi. rewrite elem_at_app_r by auto. symmetry. apply expected_code_thr. intros E. apply Hst; auto.
Qed.

Lemma code_at_app_r d p q na i : quant_type d -> codes_per_byte d * length p = na -> code_at d (p ++ q) (na + i) = code_at d q i.
Proof.
  intros Hd Hp. unfold code_at. cbv zeta.
  assert (E : ((na + i) * bit_size d) / 8 = length p + i * bit_size d / 8 /\ ((na + i) * bit_size d) mod 8 = (i * bit_size d) mod 8).
  { subst na. unfold codes_per_byte. destruct Hd as [->|[->| ->]]; cbn [bit_size]; [change (8 / 2) with 4|change (8 / 4) with 2|change (8 / 8) with 1]; lia. }
  destruct E as [-> ->]. rewrite app_nth2 by lia. do 3 f_equal. lia.
Qed.

Lemma bytes_eq_slices e n (o o' : mem) : e > 0 -> length o = e * n -> length o' = e * n ->
  (forall i, i < n -> slice (e * i) e o = slice (e * i) e o') -> o = o'.
Proof.
  intros He L L' H. apply (nth_ext o o' 0%Z 0%Z); [lia|]. intros k Hk.
  assert (Hi : k / e < n) by (apply Nat.div_lt_upper_bound; lia). specialize (H _ Hi).
  pose proof (Nat.div_mod k e ltac:(lia)). pose proof (Nat.mod_upper_bound k e ltac:(lia)).
  apply (f_equal (fun l => nth (k mod e) l 0%Z)) in H. rewrite !nth_slice in H by auto. rewrite <- H0 in H. exact H.
Qed.

(** ** C47: dequantize to f32.  [qa ++ qb ++ extra] is the readable memory from the packed codes on; the second call starts behind the first chunk. *)
Theorem C47_dequantize_chunks_f32 A Aa Ab nt nta ntb oaddr oaddra oaddrb dq scale zp op qa qb extra oa ob na ra rb r :
  length oa = 4 * na -> (exists nb, length ob = 4 * nb) -> whole_bytes dq na ->
  dq_buffers nta dq DT_F32 (qa ++ qb ++ extra) (length qa) oa -> dq_buffers ntb dq DT_F32 (qb ++ extra) (length qb) ob ->
  sizes_ok (length (oa ++ ob)) (numel DT_F32 (length (oa ++ ob))) nt -> (Z.abs zp <= 2 ^ 30)%Z -> (op = RO_ADD -> finite scale) ->
  extra <> [] ->
  returns (qa ++ qb ++ extra) oa (dequantize_call Aa nta oaddra dq DT_F32 scale zp op (length qa) oa) ra ->
  returns (qb ++ extra) ob (dequantize_call Ab ntb oaddrb dq DT_F32 scale zp op (length qb) ob) rb ->
  returns (qa ++ qb ++ extra) (oa ++ ob) (dequantize_call A nt oaddr dq DT_F32 scale zp op (length (qa ++ qb)) (oa ++ ob)) r ->
  exists xa xb, ra = Ok xa /\ rb = Ok xb /\ r = Ok (xa ++ xb) /\ length xa = length oa /\ length xb = length ob.
Proof.
  intros La [nb Lb] Hw HBa HBb HS Hz Hs Hex Ra Rb R.
  assert (Hf : float_type DT_F32) by (left; reflexivity).
  assert (Na : numel DT_F32 (length oa) = na) by (apply numel_exact; auto).
  assert (Nb : numel DT_F32 (length ob) = nb) by (apply numel_exact; auto).
  assert (Nab : numel DT_F32 (length (oa ++ ob)) = na + nb) by (rewrite <- Nb; apply numel_app; auto).
  pose proof HBa as (Hq & _ & Hby & Ea & _). pose proof HBb as (_ & _ & _ & Eb & _). rewrite Na in Ea. rewrite Nb in Eb.
  destruct (bytes_for_add dq na nb Hq Hw) as [Es Ec].
  assert (HB : dq_buffers nt dq DT_F32 (qa ++ qb ++ extra) (length (qa ++ qb)) (oa ++ ob)).
  { unfold dq_buffers. rewrite Nab in *. repeat split; auto; try apply HS.
    - rewrite app_length, Ea, Eb. auto.
    - rewrite !app_length. lia.
    - intros _ _ _ _. rewrite !app_length. destruct extra; [congruence|cbn; lia]. }
  destruct (dequantize_f32 _ _ _ _ _ _ _ _ _ _ _ HBa Hz Hs Ra) as (xa & -> & Lxa & Hxa & _). rewrite Na in Hxa.
  destruct (dequantize_f32 _ _ _ _ _ _ _ _ _ _ _ HBb Hz Hs Rb) as (xb & -> & Lxb & Hxb & _). rewrite Nb in Hxb.
  destruct (dequantize_f32 _ _ _ _ _ _ _ _ _ _ _ HB Hz Hs R) as (x & -> & Lx & Hx & _). rewrite Nab in Hx.
  exists xa, xb. split; auto. split; auto. split; auto. f_equal.
  apply (bytes_eq_slices 4 (na + nb)); [lia|rewrite Lx, app_length; lia|rewrite app_length; lia|].
  assert (H4 : dq = DT_UINT2 -> na mod 4 = 0) by (intros ->; exact Hw).
  intros i Hi. rewrite Hx by auto. destruct (Nat.lt_ge_cases i na) as [Hl|Hl].
  - rewrite slice_app_l by lia. rewrite Hxa by auto.
    assert (Er : reaches dq op (na + nb) i = reaches dq op na i).
    { unfold reaches. destruct dq; auto. specialize (H4 eq_refl). rewrite !(proj2 (Nat.ltb_lt _ _)) by lia. auto. }
    rewrite Er. unfold f32_at. rewrite (slice_app_l _ _ oa) by lia. reflexivity.
  - replace i with (na + (i - na)) by lia. set (j := i - na). assert (Hj : j < nb) by (unfold j; lia).
    replace (4 * (na + j)) with (length xa + 4 * j) by lia. rewrite slice_app_r, Hxb by auto.
    assert (Er : reaches dq op (na + nb) (na + j) = reaches dq op nb j).
    { unfold reaches. destruct dq; auto. specialize (H4 eq_refl). destruct (Nat.ltb_spec j (4 * (nb / 4))); [rewrite (proj2 (Nat.ltb_lt _ _)) by lia|rewrite (proj2 (Nat.ltb_ge _ _)) by lia]; auto. }
    rewrite Er, code_at_app_r by (auto; rewrite Ea; auto). unfold f32_at. replace (4 * (na + j)) with (length oa + 4 * j) by lia. rewrite slice_app_r. reflexivity.
Qed.

(** ** ... to bf16, on the kernel sets without AVX-512 (with AVX-512 the element's place in its block selects one of two roundings: C07, C08, and
    [C47_bf16_avx512_refuted] below). *)
Theorem C47_dequantize_chunks_bf16 A Aa Ab nt nta ntb oaddr oaddra oaddrb dq scale zp op qa qb extra oa ob na ra rb r :
  avx512 A = false -> avx512 Aa = false -> avx512 Ab = false ->
  length oa = 2 * na -> (exists nb, length ob = 2 * nb) -> whole_bytes dq na ->
  dq_buffers nta dq DT_BF16 (qa ++ qb ++ extra) (length qa) oa -> dq_buffers ntb dq DT_BF16 (qb ++ extra) (length qb) ob ->
  sizes_ok (length (oa ++ ob)) (numel DT_BF16 (length (oa ++ ob))) nt -> (Z.abs zp <= 2 ^ 22)%Z -> Forall is_byte oa -> Forall is_byte ob ->
  returns (qa ++ qb ++ extra) oa (dequantize_call Aa nta oaddra dq DT_BF16 scale zp op (length qa) oa) ra ->
  returns (qb ++ extra) ob (dequantize_call Ab ntb oaddrb dq DT_BF16 scale zp op (length qb) ob) rb ->
  returns (qa ++ qb ++ extra) (oa ++ ob) (dequantize_call A nt oaddr dq DT_BF16 scale zp op (length (qa ++ qb)) (oa ++ ob)) r ->
  exists xa xb, ra = Ok xa /\ rb = Ok xb /\ r = Ok (xa ++ xb) /\ length xa = length oa /\ length xb = length ob.
Proof.
  intros V Va Vb La [nb Lb] Hw HBa HBb HS Hz Foa Fob Ra Rb R.
  assert (Hf : float_type DT_BF16) by (right; reflexivity).
  assert (Na : numel DT_BF16 (length oa) = na) by (apply numel_exact; auto).
  assert (Nb : numel DT_BF16 (length ob) = nb) by (apply numel_exact; auto).
  assert (Nab : numel DT_BF16 (length (oa ++ ob)) = na + nb) by (rewrite <- Nb; apply numel_app; auto).
  pose proof HBa as (Hq & _ & Hby & Ea & _). pose proof HBb as (_ & _ & _ & Eb & _). rewrite Na in Ea. rewrite Nb in Eb.
  destruct (bytes_for_add dq na nb Hq Hw) as [Es Ec].
  assert (HB : dq_buffers nt dq DT_BF16 (qa ++ qb ++ extra) (length (qa ++ qb)) (oa ++ ob)).
  { unfold dq_buffers. rewrite Nab in *. repeat split; auto; try apply HS; try discriminate.
    - rewrite app_length, Ea, Eb. auto.
    - rewrite !app_length. lia. }
  destruct (dequantize_bf16 _ _ _ _ _ _ _ _ _ _ _ HBa Hz Foa Ra) as (xa & -> & Lxa & Fxa & Hxa & _). rewrite Na in Hxa.
  destruct (dequantize_bf16 _ _ _ _ _ _ _ _ _ _ _ HBb Hz Fob Rb) as (xb & -> & Lxb & Fxb & Hxb & _). rewrite Nb in Hxb.
  destruct (dequantize_bf16 _ _ _ _ _ _ _ _ _ _ _ HB Hz ltac:(apply Forall_app; auto) R) as (x & -> & Lx & Fx & Hx & _). rewrite Nab in Hx.
  exists xa, xb. split; auto. split; auto. split; auto. f_equal.
  assert (G : forall B d n t i, avx512 B = false -> bf16_vector_path B d n t i = false) by (intros B d n t i E; unfold bf16_vector_path; rewrite E; reflexivity).
  assert (K : forall B B' s z c o, avx512 B = false -> bf16_result B dq false op s z c o = bf16_result B' dq false op s z c o) by reflexivity.
  assert (Inj : forall m m' i, Forall is_byte m -> Forall is_byte m' -> bf16_at m i = bf16_at m' i -> 2 * i + 2 <= length m -> 2 * i + 2 <= length m' ->
     slice (2 * i) 2 m = slice (2 * i) 2 m').
  { clear. intros m m' i Hm Hm' E L L'. unfold bf16_at in E. 
    pose proof (slice_length (2 * i) 2 m ltac:(lia)) as S1. pose proof (slice_length (2 * i) 2 m' ltac:(lia)) as S2.
    assert (B1 : Forall is_byte (slice (2 * i) 2 m)) by (unfold slice; apply Forall_forall; intros x Hx; eapply Forall_forall; [exact Hm|]; rewrite <- (firstn_skipn (2*i) m); apply in_or_app; right; rewrite <- (firstn_skipn 2 (skipn (2*i) m)); apply in_or_app; left; exact Hx).
    assert (B2 : Forall is_byte (slice (2 * i) 2 m')) by (unfold slice; apply Forall_forall; intros x Hx; eapply Forall_forall; [exact Hm'|]; rewrite <- (firstn_skipn (2*i) m'); apply in_or_app; right; rewrite <- (firstn_skipn 2 (skipn (2*i) m')); apply in_or_app; left; exact Hx).
    destruct (slice (2 * i) 2 m) as [|u [|v [|? ?]]]; try discriminate. destruct (slice (2 * i) 2 m') as [|u' [|v' [|? ?]]]; try discriminate.
    inversion B1 as [|? ? X1 X2]; inversion X2; inversion B2 as [|? ? Y1 Y2]; inversion Y2; subst. unfold is_byte in *. cbn [le_val] in E. f_equal; [lia|f_equal; lia]. }
  apply (bytes_eq_slices 2 (na + nb)); [lia|rewrite Lx, app_length; lia|rewrite app_length; lia|].
  intros i Hi. apply Inj; auto; [apply Forall_app; auto| |rewrite Lx, app_length; lia|rewrite app_length; lia].
  rewrite Hx, G by auto. destruct (Nat.lt_ge_cases i na) as [Hl|Hl].
  - unfold bf16_at at 2. rewrite slice_app_l by lia. fold (bf16_at xa i). rewrite Hxa, G by auto. rewrite (K A Aa) by auto.
    unfold bf16_at. rewrite (slice_app_l _ _ oa) by lia. reflexivity.
  - replace i with (na + (i - na)) by lia. set (j := i - na). assert (Hj : j < nb) by (unfold j; lia).
    unfold bf16_at at 2. replace (2 * (na + j)) with (length xa + 2 * j) by lia. rewrite slice_app_r. fold (bf16_at xb j). rewrite Hxb, G by auto. rewrite (K A Ab) by auto.
    rewrite code_at_app_r by (auto; rewrite Ea; auto). f_equal. unfold bf16_at. replace (2 * (na + j)) with (length oa + 2 * j) by lia. rewrite slice_app_r. reflexivity.
Qed.

(** ** ... and the fused call on f32 (chunks may end anywhere: no packed buffer is involved). *)
Theorem C47_fused_chunks_f32 A Aa Ab nt nta ntb oaddr oaddra oaddrb dq scale zp rm op thr thra thrb a b oa ob na ra rb r :
  length oa = 4 * na -> (exists nb, length ob = 4 * nb) -> length a = length oa -> length b = length ob -> quant_type dq ->
  sizes_ok (length oa) (numel DT_F32 (length oa)) nta -> sizes_ok (length ob) (numel DT_F32 (length ob)) ntb ->
  sizes_ok (length (oa ++ ob)) (numel DT_F32 (length (oa ++ ob))) nt -> good_scale scale -> (Z.abs zp <= 2 ^ 62)%Z ->
  (rm = RM_STOCHASTIC -> thra = thr /\ thrb = thr /\ threshold thr) ->
  (forall i, i < numel DT_F32 (length a) -> quantizable scale (f32_at a i)) -> (forall i, i < numel DT_F32 (length b) -> quantizable scale (f32_at b i)) ->
  returns a oa (fused_call Aa nta oaddra DT_F32 dq scale zp rm op thra a oa) ra ->
  returns b ob (fused_call Ab ntb oaddrb DT_F32 dq scale zp rm op thrb b ob) rb ->
  returns (a ++ b) (oa ++ ob) (fused_call A nt oaddr DT_F32 dq scale zp rm op thr (a ++ b) (oa ++ ob)) r ->
  exists xa xb, ra = Ok xa /\ rb = Ok xb /\ r = Ok (xa ++ xb) /\ length xa = length oa /\ length xb = length ob.
Proof.
  intros La [nb Lb] Laa Lbb Hq HSa HSb HS Hsc Hz Ht HXa HXb Ra Rb R.
  assert (Hf : float_type DT_F32) by (left; reflexivity).
  assert (Na : numel DT_F32 (length oa) = na) by (apply numel_exact; auto).
  assert (Nb : numel DT_F32 (length ob) = nb) by (apply numel_exact; auto).
  assert (Nab : numel DT_F32 (length (oa ++ ob)) = na + nb) by (rewrite <- Nb; apply numel_app; auto).
  rewrite Laa, Na in HXa. rewrite Lbb, Nb in HXb.
  assert (EL : forall i, i < na -> f32_at (a ++ b) i = f32_at a i) by (intros i Hi; unfold f32_at; rewrite slice_app_l by lia; reflexivity).
  assert (ER : forall i, f32_at (a ++ b) (na + i) = f32_at b i) by (intros i; unfold f32_at; replace (4 * (na + i)) with (length a + 4 * i) by lia; rewrite slice_app_r; reflexivity).
  assert (HX : forall i, i < na + nb -> quantizable scale (f32_at (a ++ b) i)).
  { intros i Hi. destruct (Nat.lt_ge_cases i na) as [Hl|Hl]; [rewrite EL by auto; auto|]. replace i with (na + (i - na)) by lia. rewrite ER. apply HXb. lia. }
  destruct (C28_fused_f32 Aa nta oaddra dq scale zp rm op thra a oa ra Hq Laa HSa Hsc Hz) as (xa & -> & Lxa & Hxa & _); auto; [intros E; destruct (Ht E) as (-> & _ & ?); auto|rewrite Na; auto|].
  destruct (C28_fused_f32 Ab ntb oaddrb dq scale zp rm op thrb b ob rb Hq Lbb HSb Hsc Hz) as (xb & -> & Lxb & Hxb & _); auto; [intros E; destruct (Ht E) as (_ & -> & ?); auto|rewrite Nb; auto|].
  destruct (C28_fused_f32 A nt oaddr dq scale zp rm op thr (a ++ b) (oa ++ ob) r Hq ltac:(rewrite !app_length; lia) HS Hsc Hz) as (x & -> & Lx & Hx & _); auto; [apply Ht|rewrite Nab; auto|].
  rewrite Na in Hxa. rewrite Nb in Hxb. rewrite Nab in Hx. cbv zeta in Hxa, Hxb, Hx.
  exists xa, xb. split; auto. split; auto. split; auto. f_equal.
  apply (bytes_eq_slices 4 (na + nb)); [lia|rewrite Lx, app_length; lia|rewrite app_length; lia|].
  intros i Hi. rewrite Hx by auto. destruct (Nat.lt_ge_cases i na) as [Hl|Hl].
  - rewrite slice_app_l by lia. rewrite Hxa, EL by auto. rewrite (expected_code_thr rm dq scale zp thr thra) by (intros E; apply Ht; auto).
    replace (f32_at (oa ++ ob) i) with (f32_at oa i); [reflexivity|]. unfold f32_at. rewrite (slice_app_l _ _ oa) by lia. reflexivity.
  - replace i with (na + (i - na)) by lia. set (j := i - na). assert (Hj : j < nb) by (unfold j; lia).
    replace (4 * (na + j)) with (length xa + 4 * j) by lia. rewrite slice_app_r, Hxb, ER by auto.
    rewrite (expected_code_thr rm dq scale zp thr thrb) by (intros E; apply Ht; auto).
    replace (f32_at (oa ++ ob) (na + j)) with (f32_at ob j); [reflexivity|]. unfold f32_at. replace (4 * (na + j)) with (length oa + 4 * j) by lia. rewrite slice_app_r. reflexivity.
Qed.

(** With AVX-512 kernels chunks of a uint4 -> bf16 dequantize are not bit-identical to one call: 128 codes equal to the zero point give -7.5e-9 in one
    call (vector loop) and 0 in two calls of 64 elements (scalar loop). *)
Theorem C47_bf16_avx512_refuted A oaddr oaddra oaddrb oa ob ra rb r :
  avx512 A = true -> length oa = 128 -> length ob = 128 -> Forall is_byte oa -> Forall is_byte ob ->
  let q := repeat 0x33%Z 32 in
  returns (q ++ q) oa (dequantize_call A 1 oaddra DT_UINT4 DT_BF16 tenth 3 RO_SET 32 oa) ra ->
  returns q ob (dequantize_call A 1 oaddrb DT_UINT4 DT_BF16 tenth 3 RO_SET 32 ob) rb ->
  returns (q ++ q) (oa ++ ob) (dequantize_call A 1 oaddr DT_UINT4 DT_BF16 tenth 3 RO_SET 64 (oa ++ ob)) r ->
  exists xa xb x, ra = Ok xa /\ rb = Ok xb /\ r = Ok x /\ forall i, i < 64 ->
    bf16_at xa i = 0%Z /\ bf16_at xb i = 0%Z /\ bf16_at x i = 0xb200%Z /\ bf16_at x (64 + i) = 0xb200%Z.
Proof.
  intros HA La Lb Ha Hb q Ra Rb R. change (q ++ q) with threes in *.
  destruct (C13_bf16_avx512_refuted A oaddr (oa ++ ob) r HA) as (x & -> & Hx); auto; [rewrite app_length; lia|apply Forall_app; auto|].
  assert (Hz : (Z.abs 3 <= 2 ^ 22)%Z) by lia.
  assert (HB : forall m o, Forall is_byte m -> 32 <= length m -> length o = 128 -> dq_buffers 1 DT_UINT4 DT_BF16 m 32 o).
  { intros m o Hm Lm Lo. unfold dq_buffers. rewrite Lo. change (numel DT_BF16 128) with 64. repeat split; try (right; left; reflexivity); try (left; reflexivity);
      try (right; reflexivity); try (unfold sizes_ok; lia); try discriminate; auto. }
  assert (B3 : forall n, Forall is_byte (repeat 0x33%Z n)) by (intros; apply repeat_bytes; unfold is_byte; lia).
  assert (G : forall m o, Forall is_byte m -> forall oad rr, Forall is_byte o -> 32 <= length m -> length o = 128 -> (forall i, i < 64 -> code_at DT_UINT4 m i = 3%Z) ->
     returns m o (dequantize_call A 1 oad DT_UINT4 DT_BF16 tenth 3 RO_SET 32 o) rr -> exists y, rr = Ok y /\ forall i, i < 64 -> bf16_at y i = 0%Z).
  { intros m o Hm oad rr Ho Lm Lo HC HR.
    destruct (dequantize_bf16 _ _ _ _ _ _ _ _ _ _ _ (HB m o Hm Lm Lo) Hz Ho HR) as (y & -> & _ & _ & HE & _). exists y. split; auto.
    rewrite Lo in HE. change (numel DT_BF16 128) with 64 in HE. intros i Hi. rewrite HE, HC by auto.
    assert (V : bf16_vector_path A DT_UINT4 64 1 i = false).
    { unfold bf16_vector_path. rewrite HA. cbn [andb seq existsb].
      change (part_bound (codes_per_byte DT_UINT4) 64 1 0) with 0. change (part_bound (codes_per_byte DT_UINT4) 64 1 1) with 64.
      change (bf16_block DT_UINT4 * ((64 - 0) / bf16_block DT_UINT4)) with 0. cbv zeta. rewrite (proj2 (Nat.ltb_ge (i - 0) 0)) by lia. rewrite !andb_false_r. reflexivity. }
    rewrite V. vm_compute. reflexivity. }
  destruct (G threes oa (B3 64) oaddra ra Ha) as (xa & -> & Hxa); auto.
  - unfold threes. rewrite repeat_length. lia.
  - intros i Hi. apply Hx. lia.
  - destruct (G q ob (B3 32) oaddrb rb Hb) as (xb & -> & Hxb); auto.
    + intros i Hi. assert (H : forallb (fun i => (code_at DT_UINT4 q i =? 3)%Z) (seq 0 64) = true) by (vm_compute; reflexivity).
      rewrite forallb_forall in H. apply Z.eqb_eq, H, in_seq. lia.
    + exists xa, xb, x. split; auto. split; auto. split; auto. intros i Hi. split; auto. split; auto. split; apply Hx; lia.
Qed.
