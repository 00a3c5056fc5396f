(** PropsChunksAny.v -- C47 without conditions on the data: chunked quantize and fused calls for every float, scale and int64 zero point. *)
From Coq Require Import ZArith List Lia Bool Arith ZifyBool ZifyNat Reals Lra.
From Flocq Require Import Core Binary Bits.
From Verif Require Import Base Floats Simd Dtypes Spec ApiSpec ExecFacts QuantKernelFacts QuantGenericFacts DequantFacts QuantLanes Context ContextFacts Api PropsQuantize Schedule
  PropsMemory PropsDequantize PropsRoundTrip PathSpec PropsPaths PropsChunks AnyInputSpec PropsAnyInput PropsAnyThreads PropsFusedAny.
Import ListNotations.
Ltac Zify.zify_post_hook ::= Z.div_mod_to_equations.

(** The two calls handle element [i] resp. [j] by the same kind of loop: both scalar, both x86 vector, or both NEON vector. *)
Definition same_path (A A' : arch) (din dq : dtype) (oaddr oaddr' : Z) (n n' nt nt' i j : nat) : Prop :=
  let v := vector_path A din dq oaddr n nt i in
  v = vector_path A' din dq oaddr' n' nt' j /\ (v = true -> (A = NEON <-> A' = NEON)).

Lemma result_same_path A A' nt nt' oaddr oaddr' din dq rm thr thr' scale zp inm inm' i j :
  elem_at din inm i = elem_at din inm' j -> (rm = RM_STOCHASTIC -> thr = thr') ->
  (rm = RM_NEAREST -> same_path A A' din dq oaddr oaddr' (numel din (length inm)) (numel din (length inm')) nt nt' i j) ->
  quantize_result A nt oaddr din dq rm thr scale zp inm i = quantize_result A' nt' oaddr' din dq rm thr' scale zp inm' j.
Proof.
  intros E Ht HP. unfold quantize_result. cbv zeta. rewrite E. destruct rm; [|rewrite (Ht eq_refl); reflexivity].
  destruct (HP eq_refl) as [EV K]. rewrite <- EV. destruct (vector_path A _ _ _ _ _ _); [|reflexivity]. specialize (K eq_refl).
  f_equal. unfold vector_result. cbv zeta. destruct A, A'; auto; destruct K as [K1 K2]; try (specialize (K1 eq_refl)); try (specialize (K2 eq_refl)); discriminate.
Qed.

(** quantize, every data, scale and zero point: always for stochastic rounding with equal draws; for nearest rounding if every element is handled by the
    same kind of loop in the chunk as in the whole call.  The whole call is undefined exactly if one of the two chunks is. *)
Theorem C47_quantize_any_data A Aa Ab nt nta ntb oaddr oaddra oaddrb din dq scale zp rm thr thra thrb a b pa pb na ra rb r :
  length a = stride din * na -> whole_bytes dq na ->
  buffers_ok nta din dq a pa -> buffers_ok ntb din dq b pb -> sizes_ok (length (a ++ b)) (numel din (length (a ++ b))) nt ->
  (- 2 ^ 63 <= zp < 2 ^ 63)%Z -> (rm = RM_STOCHASTIC -> thra = thr /\ thrb = thr /\ threshold thr) ->
  (rm = RM_NEAREST -> let nb := numel din (length b) in
     (forall i, i < na -> same_path A Aa din dq oaddr oaddra (na + nb) na nt nta i i) /\
     (forall i, i < nb -> same_path A Ab din dq oaddr oaddrb (na + nb) nb nt ntb (na + i) i)) ->
  returns a pa (quantize_call Aa nta oaddra din dq scale zp rm thra a pa) ra ->
  returns b pb (quantize_call Ab ntb oaddrb din dq scale zp rm thrb b pb) rb ->
  returns (a ++ b) (pa ++ pb) (quantize_call A nt oaddr din dq scale zp rm thr (a ++ b) (pa ++ pb)) r ->
  (r = UB /\ (ra = UB \/ rb = UB)) \/
  (exists qa qb, ra = Ok qa /\ rb = Ok qb /\ r = Ok (qa ++ qb) /\ length qa = length pa /\ length qb = length pb).
Proof.
  intros La Hw HBa HBb HS Hz Hst HP Ra Rb R. pose proof HBa as (Hfp & Hq & Ha & Hla & HSa). pose proof HBb as (_ & _ & Hb & Hlb & HSb).
  assert (Na : numel din (length a) = na) by (apply numel_exact; auto). set (nb := numel din (length b)) in *.
  assert (Nab : numel din (length (a ++ b)) = na + nb) by (apply numel_app; auto).
  destruct (bytes_for_add dq na nb Hq Hw) as [Eb Ec].
  assert (Hpo : codes_per_byte dq > 0) by (rewrite codes_per_byte_q by auto; clear - Hq; destruct Hq as [->|[->| ->]]; cbn; lia).
  assert (HB : buffers_ok nt din dq (a ++ b) (pa ++ pb)).
  { split; auto. split; auto. split; [apply Forall_app; auto|]. split; [rewrite app_length, Hla, Hlb, Nab, Na; auto|auto]. }
  assert (T : rm = RM_STOCHASTIC -> threshold thr) by (intros E; apply Hst; auto).
  assert (Ta : rm = RM_STOCHASTIC -> threshold thra) by (intros E; destruct (Hst E) as (-> & _ & ?); auto).
  assert (Tb : rm = RM_STOCHASTIC -> threshold thrb) by (intros E; destruct (Hst E) as (_ & -> & ?); auto).
  destruct (C36_complete _ _ _ _ _ _ _ _ _ _ _ _ HBa Ta Hz Ra) as [Ua Oa]. destruct (C36_complete _ _ _ _ _ _ _ _ _ _ _ _ HBb Tb Hz Rb) as [Ub Ob].
  destruct (C36_complete _ _ _ _ _ _ _ _ _ _ _ _ HB T Hz R) as [U O]. rewrite Na in Ua, Oa. fold nb in Ub, Ob. rewrite Nab in U, O.
  assert (Ql : forall i, i < na -> quantize_result A nt oaddr din dq rm thr scale zp (a ++ b) i = quantize_result Aa nta oaddra din dq rm thra scale zp a i).
  { intros i Hi. apply result_same_path.
    - apply elem_at_app_l; auto. rewrite La. apply Nat.mul_le_mono_l. lia.
    - intros E. destruct (Hst E) as (-> & _). reflexivity.
    - intros E. rewrite Nab, Na. apply (HP E); auto. }
  assert (Qr : forall i, i < nb -> quantize_result A nt oaddr din dq rm thr scale zp (a ++ b) (na + i) = quantize_result Ab ntb oaddrb din dq rm thrb scale zp b i).
  { intros i Hi. apply result_same_path.
    - apply elem_at_app_r; auto.
    - intros E. destruct (Hst E) as (_ & -> & _). reflexivity.
    - intros E. rewrite Nab. fold nb. apply (HP E); auto. }
  destruct (some_or_none na (quantize_result Aa nta oaddra din dq rm thra scale zp a)) as [(i & Hi & N)|Sa].
  { left. split; [apply U; exists i; split; [lia|rewrite Ql; auto]|left; apply Ua; eauto]. }
  destruct (some_or_none nb (quantize_result Ab ntb oaddrb din dq rm thrb scale zp b)) as [(i & Hi & N)|Sb].
  { left. split; [apply U; exists (na + i); split; [lia|rewrite Qr; auto]|right; apply Ub; eauto]. }
  right. destruct (Oa Sa) as (qa & -> & Lqa & Ca & Ba). destruct (Ob Sb) as (qb & -> & Lqb & Cb & Bb).
  destruct O as (q & -> & Lq & C & B).
  { intros i Hi. destruct (Nat.lt_ge_cases i na) as [Hl|Hl]; [rewrite Ql; auto|]. replace i with (na + (i - na)) by lia. rewrite Qr by lia. apply Sb. lia. }
  exists qa, qb. split; auto. split; auto. split; [|auto]. f_equal. rewrite app_length in Lq.
  assert (CL : forall i, i < na -> code_at dq q i = code_at dq qa i).
  { intros i Hi. assert (E1 := C i ltac:(lia)). assert (E2 := Ca i Hi). rewrite Ql in E1 by auto. congruence. }
  assert (CR : forall i, i < nb -> code_at dq q (na + i) = code_at dq qb i).
  { intros i Hi. assert (E1 := C (na + i) ltac:(lia)). assert (E2 := Cb i Hi). rewrite Qr in E1 by auto. congruence. }
  apply list_ext; [rewrite app_length; lia|]. intros k Hk.
  destruct (Nat.lt_ge_cases k (length qa)) as [Hl|Hl].
  - rewrite app_nth1 by auto. rewrite B, Ba by lia. apply packed_byte_l; auto; [|lia].
    rewrite <- Ec. apply Nat.mul_le_mono_l. rewrite Lqa, Hla, Na in Hl. lia.
  - rewrite app_nth2 by auto. rewrite B, Bb by lia. replace k with (length qa + (k - length qa)) at 1 by lia. apply packed_byte_r; [rewrite Lqa, Hla, Na; auto|auto].
Qed.

(** The fused call, f32 and bf16, cut anywhere, every data, scale and zero point. *)
Lemma fused_slices dt op scale na ca oa ob i : float_type dt -> length oa = stride dt * na -> 
  (i < na -> fused_bytes dt op scale ca (oa ++ ob) i = fused_bytes dt op scale ca oa i) /\ fused_bytes dt op scale ca (oa ++ ob) (na + i) = fused_bytes dt op scale ca ob i.
Proof.
  intros [->| ->] L; unfold fused_bytes; [change (stride DT_F32) with 4 in L|change (stride DT_BF16) with 2 in L]; unfold f32_at, bf16_at; split.
  - intros Hi. rewrite slice_app_l by lia. reflexivity.
  - replace (4 * (na + i)) with (length oa + 4 * i) by lia. rewrite slice_app_r. reflexivity.
  - intros Hi. rewrite slice_app_l by lia. reflexivity.
  - replace (2 * (na + i)) with (length oa + 2 * i) by lia. rewrite slice_app_r. reflexivity.
Qed.
Theorem C47_fused_any_data A Aa Ab nt nta ntb oaddr oaddra oaddrb dt dq scale zp rm op thr thra thrb a b oa ob na nb ra rb r :
  float_type dt -> quant_type dq -> length oa = stride dt * na -> length ob = stride dt * nb -> length a = length oa -> length b = length ob ->
  sizes_ok (length oa) na nta -> sizes_ok (length ob) nb ntb -> sizes_ok (length (oa ++ ob)) (na + nb) nt ->
  (- 2 ^ 63 <= zp < 2 ^ 63)%Z -> (rm = RM_STOCHASTIC -> thra = thr /\ thrb = thr /\ threshold thr) ->
  returns a oa (fused_call Aa nta oaddra dt dq scale zp rm op thra a oa) ra ->
  returns b ob (fused_call Ab ntb oaddrb dt dq scale zp rm op thrb b ob) rb ->
  returns (a ++ b) (oa ++ ob) (fused_call A nt oaddr dt dq scale zp rm op thr (a ++ b) (oa ++ ob)) r ->
  (r = UB /\ (ra = UB \/ rb = UB)) \/
  (exists xa xb, ra = Ok xa /\ rb = Ok xb /\ r = Ok (xa ++ xb) /\ length xa = length oa /\ length xb = length ob).
Proof.
  intros Hfp Hq La Lb Lia Lib HSa HSb HS Hz Hst Ra Rb R.
  assert (Na : numel dt (length oa) = na) by (apply numel_exact; auto). assert (Nb : numel dt (length ob) = nb) by (apply numel_exact; auto).
  assert (Nab : numel dt (length (oa ++ ob)) = na + nb) by (rewrite <- Nb; apply numel_app; auto).
  assert (T : rm = RM_STOCHASTIC -> threshold thr) by (intros E; apply Hst; auto).
  assert (Ta : rm = RM_STOCHASTIC -> threshold thra) by (intros E; destruct (Hst E) as (-> & _ & ?); auto).
  assert (Tb : rm = RM_STOCHASTIC -> threshold thrb) by (intros E; destruct (Hst E) as (_ & -> & ?); auto).
  assert (Lab : length (a ++ b) = length (oa ++ ob)) by (rewrite !app_length; lia).
  rewrite <- Na in HSa. rewrite <- Nb in HSb. rewrite <- Nab in HS.
  destruct (C28_complete _ _ _ _ _ _ _ _ _ _ _ _ _ Hfp Hq Lia HSa Hz Ta Ra) as [Ua Oa]. destruct (C28_complete _ _ _ _ _ _ _ _ _ _ _ _ _ Hfp Hq Lib HSb Hz Tb Rb) as [Ub Ob].
  destruct (C28_complete _ _ _ _ _ _ _ _ _ _ _ _ _ Hfp Hq Lab HS Hz T R) as [U O]. rewrite Na in Ua, Oa. rewrite Nb in Ub, Ob. rewrite Nab in U, O.
  assert (TH : forall x, fused_integer dq rm thra scale zp x = fused_integer dq rm thr scale zp x /\ fused_integer dq rm thrb scale zp x = fused_integer dq rm thr scale zp x).
  { intros x. unfold fused_integer, fused_code. destruct rm; [split; reflexivity|]. destruct (Hst eq_refl) as (-> & -> & _). split; reflexivity. }
  assert (Ql : forall i, i < na -> fused_integer dq rm thr scale zp (elem_at dt (a ++ b) i) = fused_integer dq rm thra scale zp (elem_at dt a i)).
  { intros i Hi. rewrite elem_at_app_l; auto; [symmetry; apply TH|]. rewrite Lia, La. apply Nat.mul_le_mono_l. lia. }
  assert (Qr : forall i, i < nb -> fused_integer dq rm thr scale zp (elem_at dt (a ++ b) (na + i)) = fused_integer dq rm thrb scale zp (elem_at dt b i)).
  { intros i Hi. rewrite elem_at_app_r by (auto; congruence). symmetry; apply TH. }
  destruct (some_or_none na (fun i => fused_integer dq rm thra scale zp (elem_at dt a i))) as [(i & Hi & N)|Sa].
  { left. split; [apply U; exists i; split; [lia|rewrite Ql; auto]|left; apply Ua; eauto]. }
  destruct (some_or_none nb (fun i => fused_integer dq rm thrb scale zp (elem_at dt b i))) as [(i & Hi & N)|Sb].
  { left. split; [apply U; exists (na + i); split; [lia|rewrite Qr; auto]|right; apply Ub; eauto]. }
  right. destruct (Oa Sa) as (xa & -> & Lxa & Ca & _). destruct (Ob Sb) as (xb & -> & Lxb & Cb & _).
  destruct O as (x & -> & Lx & C & _).
  { intros i Hi. destruct (Nat.lt_ge_cases i na) as [Hl|Hl]; [rewrite Ql; auto|]. replace i with (na + (i - na)) by lia. rewrite Qr by lia. apply Sb. lia. }
  exists xa, xb. split; auto. split; auto. split; [|auto]. f_equal. rewrite app_length in Lx.
  assert (Hst0 : stride dt > 0) by (clear - Hfp; destruct Hfp as [->| ->]; cbn; lia).
  apply (bytes_eq_slices (stride dt) (na + nb)); [auto|rewrite Lx; nia|rewrite app_length; nia|].
  intros i Hi. destruct (Nat.lt_ge_cases i na) as [Hl|Hl].
  - assert (B : stride dt * i + stride dt <= length xa) by (rewrite Lxa, La; nia). rewrite slice_app_l by exact B.
    destruct (fused_integer dq rm thra scale zp (elem_at dt a i)) as [c|] eqn:Ec; [|exfalso; eapply Sa; eauto].
    rewrite (Ca i c Hl Ec). assert (Ec' : fused_integer dq rm thr scale zp (elem_at dt (a ++ b) i) = Some c) by (rewrite Ql; auto).
    rewrite (C i c Hi Ec'). apply (fused_slices dt op scale na c oa ob i Hfp La); auto.
  - set (j := i - na). replace i with (na + j) in * by (unfold j; lia). assert (Hj : j < nb) by (unfold j; lia).
    replace (stride dt * (na + j)) with (length xa + stride dt * j) by (rewrite Lxa, La; nia). rewrite slice_app_r.
    destruct (fused_integer dq rm thrb scale zp (elem_at dt b j)) as [c|] eqn:Ec; [|exfalso; eapply Sb; eauto].
    rewrite (Cb j c Hj Ec). assert (Ec' : fused_integer dq rm thr scale zp (elem_at dt (a ++ b) (na + j)) = Some c) by (rewrite Qr; auto).
    replace (length xa + stride dt * j) with (stride dt * (na + j)) by (rewrite Lxa, La; nia).
    rewrite (C (na + j) c ltac:(lia) Ec'). apply (fused_slices dt op scale na c oa ob j Hfp La).
Qed.
