(** PropsFeedback.v -- C75: error feedback.  Every round the sender adds what the previous rounds failed to deliver to its new data, quantizes and sends
    the result, and keeps the difference between what it meant to send and what the receiver decodes.  The total of what was received stays within one
    code error of the total of the data, however many rounds; without the feedback one error per round can pile up. *)
From Coq Require Import ZArith List Lia Bool Arith Reals Lra Psatz.
From Flocq Require Import Core Binary Bits Relative Plus_error.
From Verif Require Import Base Floats Simd Dtypes Spec ApiSpec QuantKernels DequantKernels ExecFacts FloatFacts QuantFacts QuantKernelFacts QuantGenericFacts DequantFacts DequantGenericFacts Context ContextFacts QuantizeFacts DequantizeFacts Api PropsQuantize FloatFacts2 PropsDequantize PropsRoundTrip RoundTripFacts PropsIdempotent
  QuantLanes MinMax MinMaxFacts ConfigSpec F64Facts ConfigFacts PropsConfig PropsRepresent PropsRoundTripTypes PropsAccumulate PropsAggregate PropsReplicas PropsClip PropsRing.
Import ListNotations.
Open Scope nat_scope.

(** ** Vocabulary *)
(** One round: the sender's and receiver's settings (C55's [peer]; its data are the data of this round) and the buffer the receiver decodes into. *)
Record round := { t_peer : peer; t_out : mem }.
Definition t_data (t : round) : mem := p_data (t_peer t).
Definition carry (p : peer) (v : mem) (scale : f32) (zp : Z) : peer :=
  {| p_data_type := DT_F32; p_data := v; p_arch := p_arch p; p_threads := p_threads p; p_qaddr := p_qaddr p; p_type := p_type p; p_scale := scale; p_zp := zp;
     p_mode := p_mode p; p_thr := p_thr p; p_buffer := p_buffer p; p_extra := p_extra p; p_rarch := p_rarch p; p_rthreads := p_rthreads p; p_oaddr := p_oaddr p |}.
(** quantize(v), then dequantize(set) by the receiver, with parameters [scale], [zp] *)
Definition sends_with (scale : f32) (zp : Z) (t : round) (v : mem) (r : res mem) : Prop :=
  let p := t_peer t in
  exists q, returns v (p_buffer p) (quantize_call (p_arch p) (p_threads p) (p_qaddr p) DT_F32 (p_type p) scale zp (p_mode p) (p_thr p) v (p_buffer p)) q /\
  match q with
  | Ok b => returns (b ++ p_extra p) (t_out t) (dequantize_call (p_rarch p) (p_rthreads p) (p_oaddr p) (p_type p) DT_F32 scale zp RO_SET (length b) (t_out t)) r
  | Abort => r = Abort
  | UB => r = UB
  end.
(** parameters chosen in advance *)
Definition sends (t : round) (v : mem) (r : res mem) : Prop := sends_with (p_scale (t_peer t)) (p_zp (t_peer t)) t v r.
(** parameters the library computes from [v] (any CPU but SSE4.2, any cut into blocks), for [v] that straddles zero *)
Definition computed_sends (n : nat) (t : round) (v : mem) (r : res mem) : Prop :=
  exists a blocks lo hi scale zp, a <> SSE42 /\ block_cover n blocks /\ data_range DT_F32 v n lo hi /\ (lo <= 0 <= hi)%R /\ (bpow radix2 (-112) <= hi - lo <= bpow radix2 100)%R /\
    compute_quant_config_from_data a DT_F32 (p_type (t_peer t)) v blocks = Ok (scale, zp) /\ sends_with scale zp t v r.

(** tensors of [n] f32 *)
Definition tensor (n : nat) (m : mem) : Prop := Forall is_byte m /\ length m = 4 * n.
(** the sender's own float arithmetic: v = x + e, e = v - y *)
Definition sum_of (n : nat) (x e v : mem) : Prop := tensor n v /\ forall i, i < n -> f32_at v i = fadd (f32_at x i) (f32_at e i).
Definition difference_of (n : nat) (v y e : mem) : Prop := tensor n e /\ forall i, i < n -> f32_at e i = fsub (f32_at v i) (f32_at y i).

(** [exchange n snd ts e ys r]: starting from the residual [e], the rounds [ts] deliver the tensors [ys] and end with the residual [r], or with the
    abort or undefined behaviour of a call *)
Inductive exchange (n : nat) (snd : round -> mem -> res mem -> Prop) : list round -> mem -> list mem -> res mem -> Prop :=
| ex_done e : exchange n snd [] e [] (Ok e)
| ex_next t ts e v y e' ys r : sum_of n (t_data t) e v -> snd t v (Ok y) -> difference_of n v y e' -> exchange n snd ts e' ys r -> exchange n snd (t :: ts) e (y :: ys) r
| ex_stop t ts e v r : sum_of n (t_data t) e v -> snd t v r -> (forall y, r <> Ok y) -> exchange n snd (t :: ts) e [] r.

(** the settings of a round fit tensors of [n] elements *)
Definition round_ok (n : nat) (t : round) : Prop :=
  let p := t_peer t in
  finite_data DT_F32 (t_data t) n /\ tensor n (t_out t) /\ quant_type (p_type p) /\ length (p_buffer p) = bytes_for (p_type p) n /\
  sizes_ok (4 * n) n (p_threads p) /\ sizes_ok (4 * n) n (p_rthreads p) /\ Forall is_byte (p_extra p) /\ p_extra p <> [] /\ (p_mode p = RM_STOCHASTIC -> threshold (p_thr p)).

Local Open Scope R_scope.
Definition elem (m : mem) (i : nat) : R := val (f32_at m i).
(** worst code error of a round: half a step or a step, and a margin *)
Definition code_part (p : peer) : R := match p_mode p with RM_NEAREST => / 2 | RM_STOCHASTIC => 1 end + / 1024.
Definition sent (ts : list round) (i : nat) : R := rsum (fun t => elem (t_data t) i) ts.
Definition received (ys : list mem) (i : nat) : R := rsum (fun y => elem y i) ys.

(** ** One round *)
Lemma fsub_rel x y : finite x -> finite y -> Rabs (val x - val y) <= bpow radix2 127 ->
  finite (fsub x y) /\ exists d, Rabs d <= u_f32 /\ val (fsub x y) = (val x - val y) * (1 + d).
Proof.
  intros Fx Fy B. destruct (fsub_ok x y Fx Fy) as [F V].
  { apply PropsContract.RN32_no_overflow. auto. }
  split; auto. rewrite V. unfold RN32.
  destruct (FLT_plus_error_N_ex radix2 (-149) 24 (fun z => negb (Z.even z)) (val x) (- val y)) as (e & He & E).
  - exact (generic_format_B2R 24 128 x).
  - apply generic_format_opp. exact (generic_format_B2R 24 128 y).
  - exists e. split; [|exact E]. eapply Rle_trans; [exact He|]. clear.
    unfold Relative.u_ro. change (- (24) + 1)%Z with (-23)%Z. change (bpow radix2 (-23)) with (/ 8388608). unfold u_f32.
    set (w := / 2 * / 8388608). assert (W : w = / 16777216) by (unfold w; lra). clearbody w. rewrite <- W. assert (0 < w) by lra.
    apply Rmult_le_reg_r with (1 + w); [lra|]. replace (w / (1 + w) * (1 + w)) with w by (field; lra). nra.
Qed.

Lemma sends_accurate n t v r scale zp : round_ok n t -> finite_data DT_F32 v n -> normal_scale scale -> 0 < val scale -> (0 <= zp <= code_max (p_type (t_peer t)))%Z ->
  (forall i, (i < n)%nat -> IZR (0 - zp) - / 2 - / 8192 <= elem v i / val scale <= IZR (code_max (p_type (t_peer t)) - zp) + / 2 + / 8192) ->
  sends_with scale zp t v r ->
  exists y, r = Ok y /\ length y = (4 * n)%nat /\ forall i, (i < n)%nat -> finite (f32_at y i) /\ Rabs (elem y i - elem v i) <= val scale * code_part (t_peer t).
Proof.
  intros (_ & (Bo & Lo) & Hq & HL & HS & HS2 & He & Hne & Ht) (Bv & Lv & Fv) Hsn Hp Hz HC (q & HQ & HD). change (stride DT_F32) with 4%nat in Lv.
  set (p := t_peer t) in *. pose proof (code_max_range _ Hq) as Hm.
  assert (NV : numel DT_F32 (length v) = n) by (rewrite Lv; apply numel4). assert (NO : numel DT_F32 (length (t_out t)) = n) by (rewrite Lo; apply numel4).
  assert (HB : buffers_ok (p_threads p) DT_F32 (p_type p) v (p_buffer p)).
  { unfold buffers_ok. rewrite Lv, !numel4. split; [left; reflexivity|]. split; [exact Hq|]. split; [exact Bv|]. split; [exact HL|exact HS]. }
  assert (HI : forall i, (i < n)%nat -> quantizable scale (elem_at DT_F32 v i)) by (intros i Hi; apply (peer_quantizable scale _ (p_type p) zp Hq Hsn Hz (Fv i Hi) (HC i Hi))).
  assert (Hz22 : (Z.abs zp <= 2 ^ 22)%Z) by lia.
  destruct (quantize_near_rm (p_arch p) _ (p_qaddr p) _ _ _ _ _ _ _ _ q HB (normal_good _ Hsn) Hz22 Ht) as (b & -> & HLp & Hby & _).
  { rewrite NV. exact HI. }
  { exact HQ. }
  destruct (C72_clipped (p_arch p) (p_threads p) (p_qaddr p) (p_rarch p) (p_rthreads p) (p_oaddr p) DT_F32 DT_F32 (p_type p) scale zp (p_mode p) (p_thr p) v (p_buffer p) b (p_extra p) (t_out t) r
    HB (or_introl eq_refl) ltac:(congruence) ltac:(rewrite NO, Lo; exact HS2) Bo Hsn Hp Hz Ht He Hne ltac:(rewrite NO; exact HI) HQ HD) as (y & -> & HLy & HY).
  exists y. split; auto. split; [lia|]. intros i Hi. rewrite NO in HY. specialize (HY i Hi). cbv zeta in HY. destruct HY as [F E]. split; [exact F|].
  change (val (elem_at DT_F32 y i)) with (elem y i) in E. change (val (elem_at DT_F32 v i)) with (elem v i) in E. eapply Rle_trans; [exact E|].
  specialize (HC i Hi). set (x := elem v i) in *. set (s := val scale) in *. assert (EX : x = x / s * s) by (field; lra). set (w := x / s) in *.
  set (Lo' := IZR (0 - zp)) in *. set (Hi' := IZR (code_max (p_type p) - zp)) in *.
  assert (O : outside ((Lo' - / 2) * s) ((Hi' + / 2) * s) x <= s * / 8192).
  { apply outside_le; [apply Rmult_le_pos; lra| |]; rewrite EX.
    - replace ((Lo' - / 2) * s - w * s) with (s * (Lo' - / 2 - w)) by ring. apply Rmult_le_compat_l; lra.
    - replace (w * s - (Hi' + / 2) * s) with (s * (w - (Hi' + / 2))) by ring. apply Rmult_le_compat_l; lra. }
  change (bpow radix2 (-11)) with (/ 2048). unfold code_part. destruct (p_mode p); lra.
Qed.

(** ** Any number of rounds *)
Lemma sum_finite n x e v M E : finite_data DT_F32 x n -> finite_data DT_F32 e n -> sum_of n x e v ->
  (forall i, (i < n)%nat -> Rabs (elem x i) <= M) -> (forall i, (i < n)%nat -> Rabs (elem e i) <= E) -> M + E <= bpow radix2 127 ->
  finite_data DT_F32 v n /\ forall i, (i < n)%nat -> Rabs (elem v i - (elem x i + elem e i)) <= u_f32 * (M + E) /\ Rabs (elem v i) <= (1 + u_f32) * (M + E).
Proof.
  intros (_ & _ & Fx) (_ & _ & Fe) ((Bv & Lv) & HV) HM HE HB.
  assert (G : forall i, (i < n)%nat -> finite (f32_at v i) /\ Rabs (elem v i - (elem x i + elem e i)) <= u_f32 * (M + E) /\ Rabs (elem v i) <= (1 + u_f32) * (M + E)).
  { intros i Hi. rewrite HV by auto. specialize (HM i Hi). specialize (HE i Hi). pose proof (Rabs_triang (elem x i) (elem e i)) as T.
    destruct (fadd_rel (f32_at x i) (f32_at e i) (Fx i Hi) (Fe i Hi)) as (F & d & Hd & V).
    { unfold elem in *. lra. }
    split; [exact F|]. unfold elem at 1 4. rewrite HV by auto. rewrite V. fold (elem x i) (elem e i). set (w := elem x i + elem e i) in *. pose proof (Rabs_pos w). pose proof (Rabs_pos d). pose proof u_pos.
    replace (w * (1 + d) - w) with (d * w) by ring. rewrite !Rabs_mult. assert (Rabs (1 + d) <= 1 + u_f32) by (eapply Rle_trans; [apply Rabs_triang|]; rewrite Rabs_R1; lra).
    split; [apply Rmult_le_compat; lra|]. rewrite (Rmult_comm (Rabs w)). apply Rmult_le_compat; try lra. apply Rabs_pos. }
  split; [|intros i Hi; apply (G i Hi)]. split; [exact Bv|]. split; [exact Lv|]. intros i Hi. apply (G i Hi).
Qed.
Lemma difference_finite n v y e E : finite_data DT_F32 v n -> (forall i, (i < n)%nat -> finite (f32_at y i) /\ Rabs (elem y i - elem v i) <= E) -> difference_of n v y e ->
  E <= bpow radix2 127 ->
  finite_data DT_F32 e n /\ forall i, (i < n)%nat -> Rabs (elem e i - (elem v i - elem y i)) <= u_f32 * E /\ Rabs (elem e i) <= (1 + u_f32) * E.
Proof.
  intros (_ & _ & Fv) HY ((Be & Le) & HE) HB.
  assert (G : forall i, (i < n)%nat -> finite (f32_at e i) /\ Rabs (elem e i - (elem v i - elem y i)) <= u_f32 * E /\ Rabs (elem e i) <= (1 + u_f32) * E).
  { intros i Hi. rewrite HE by auto. destruct (HY i Hi) as [Fy D]. rewrite Rabs_minus_sym in D.
    destruct (fsub_rel (f32_at v i) (f32_at y i) (Fv i Hi) Fy) as (F & d & Hd & W).
    { unfold elem in *. lra. }
    split; [exact F|]. unfold elem at 1 4. rewrite HE by auto. rewrite W. fold (elem v i) (elem y i). set (w := elem v i - elem y i) in *. pose proof (Rabs_pos w). pose proof (Rabs_pos d). pose proof u_pos.
    replace (w * (1 + d) - w) with (d * w) by ring. rewrite !Rabs_mult. assert (Rabs (1 + d) <= 1 + u_f32) by (eapply Rle_trans; [apply Rabs_triang|]; rewrite Rabs_R1; lra).
    split; [apply Rmult_le_compat; lra|]. rewrite (Rmult_comm (Rabs w)). apply Rmult_le_compat; try lra. apply Rabs_pos. }
  split; [|intros i Hi; apply (G i Hi)]. split; [exact Be|]. split; [exact Le|]. intros i Hi. apply (G i Hi).
Qed.

(** Whatever way of sending is accurate to [E] on tensors of magnitude (1+u)(M + (1+u)E). *)
Lemma exchange_run n (snd : round -> mem -> res mem -> Prop) M E ts : 0 <= M -> 0 <= E -> M + 2 * E <= bpow radix2 127 ->
  Forall (fun t => finite_data DT_F32 (t_data t) n /\ (forall i, (i < n)%nat -> Rabs (elem (t_data t) i) <= M) /\
    forall v r, finite_data DT_F32 v n -> (forall i, (i < n)%nat -> Rabs (elem v i) <= (1 + u_f32) * (M + (1 + u_f32) * E)) -> snd t v r ->
      exists y, r = Ok y /\ forall i, (i < n)%nat -> finite (f32_at y i) /\ Rabs (elem y i - elem v i) <= E) ts ->
  forall e ys r, exchange n snd ts e ys r -> finite_data DT_F32 e n -> (forall i, (i < n)%nat -> Rabs (elem e i) <= (1 + u_f32) * E) ->
  exists e', r = Ok e' /\ length ys = length ts /\ finite_data DT_F32 e' n /\
    forall i, (i < n)%nat -> Rabs (elem e' i) <= (1 + u_f32) * E /\
      Rabs (received ys i + elem e' i - (elem e i + sent ts i)) <= INR (length ts) * (u_f32 * (M + 3 * E)).
Proof.
  intros HM HE HB HT e ys r HX. revert HT. induction HX as [e|t ts e v y e' ys r Hv Hs Hd HX IH|t ts e v r Hv Hs Hn]; intros HT Fe Be.
  - exists e. split; auto. split; auto. split; auto. intros i Hi. split; [auto|]. unfold received, sent, rsum. cbn [fold_right length]. change (INR 0) with 0.
    replace (0 + elem e i - (elem e i + 0)) with 0 by ring. rewrite Rabs_R0. lra.
  - inversion HT as [|? ? (Fx & Bx & ACC) HT']; subst. pose proof u_pos as U. unfold u_f32 in U.
    assert (U1 : (1 + u_f32) * E <= 2 * E) by (unfold u_f32; lra).
    destruct (sum_finite n _ e v M _ Fx Fe Hv Bx Be ltac:(lra)) as [Fv Vv].
    destruct (ACC v (Ok y) Fv ltac:(intros i Hi; apply Vv; auto) Hs) as (y' & EY & HY). injection EY as <-.
    destruct (difference_finite n v y e' E Fv HY Hd ltac:(lra)) as [Fe' Ve'].
    destruct (IH HT' Fe' ltac:(intros i Hi; apply Ve'; auto)) as (e'' & -> & HL & Fe'' & HR).
    exists e''. split; auto. split; [cbn [length]; auto|]. split; auto. intros i Hi. destruct (HR i Hi) as [R1 R2]. split; auto.
    unfold received, sent in *. rewrite !rsum_cons. cbn [length]. rewrite S_INR. destruct (Vv i Hi) as [V1 _]. destruct (Ve' i Hi) as [V2 _].
    set (rs := rsum (fun y0 => elem y0 i) ys) in *. set (ss := rsum (fun t0 => elem (t_data t0) i) ts) in *.
    replace (elem y i + rs + elem e'' i - (elem e i + (elem (t_data t) i + ss))) with
      ((rs + elem e'' i - (elem e' i + ss)) + ((elem v i - (elem (t_data t) i + elem e i)) + (elem e' i - (elem v i - elem y i)))) by ring.
    eapply Rle_trans; [apply Rabs_triang|]. rewrite Rmult_plus_distr_r, Rmult_1_l. apply Rplus_le_compat; [exact R2|]. eapply Rle_trans; [apply Rabs_triang|].
    assert (X : u_f32 * (M + (1 + u_f32) * E) <= u_f32 * (M + 2 * E)) by (apply Rmult_le_compat_l; [unfold u_f32; lra|lra]). lra.
  - inversion HT as [|? ? (Fx & Bx & ACC) HT']; subst. pose proof u_pos as U. unfold u_f32 in U.
    assert (U1 : (1 + u_f32) * E <= 2 * E) by (unfold u_f32; lra).
    destruct (sum_finite n _ e v M _ Fx Fe Hv Bx Be ltac:(lra)) as [Fv Vv].
    destruct (ACC v r Fv ltac:(intros i Hi; apply Vv; auto) Hs) as (y & -> & _). destruct (Hn y eq_refl).
Qed.

(** ** The claims *)
(** Parameters chosen in advance: data of magnitude M, code errors of at most E, a range that covers M + E (and rounding).  After any number of rounds
    the residual is at most one code error, and total received + residual = total sent up to the f32 rounding of two operations per round. *)
Theorem C75_planned_feedback n ts e0 ys r M E :
  Forall (round_ok n) ts -> 0 <= M -> 0 <= E -> M + 2 * E <= bpow radix2 127 ->
  Forall (fun t => let p := t_peer t in normal_scale (p_scale p) /\ 0 < val (p_scale p) /\ (0 <= p_zp p <= code_max (p_type p))%Z /\
    val (p_scale p) * code_part p <= E /\ (forall i, (i < n)%nat -> Rabs (elem (t_data t) i) <= M) /\
    (let V := (1 + u_f32) * (M + (1 + u_f32) * E) in
     (IZR (0 - p_zp p) - / 2) * val (p_scale p) <= - V /\ V <= (IZR (code_max (p_type p) - p_zp p) + / 2) * val (p_scale p))) ts ->
  finite_data DT_F32 e0 n -> (forall i, (i < n)%nat -> Rabs (elem e0 i) <= E) ->
  exchange n sends ts e0 ys r ->
  exists e, r = Ok e /\ length ys = length ts /\
    forall i, (i < n)%nat -> Rabs (elem e i) <= (1 + u_f32) * E /\
      Rabs (received ys i + elem e i - (elem e0 i + sent ts i)) <= INR (length ts) * (u_f32 * (M + 3 * E)) /\
      Rabs (received ys i - sent ts i) <= Rabs (elem e0 i) + (1 + u_f32) * E + INR (length ts) * (u_f32 * (M + 3 * E)).
Proof.
  intros HO HM HE HB HP F0 B0 HX. pose proof u_pos as U.
  assert (HT : Forall (fun t => finite_data DT_F32 (t_data t) n /\ (forall i, (i < n)%nat -> Rabs (elem (t_data t) i) <= M) /\
    forall v r, finite_data DT_F32 v n -> (forall i, (i < n)%nat -> Rabs (elem v i) <= (1 + u_f32) * (M + (1 + u_f32) * E)) -> sends t v r ->
      exists y, r = Ok y /\ forall i, (i < n)%nat -> finite (f32_at y i) /\ Rabs (elem y i - elem v i) <= E) ts).
  { rewrite Forall_forall in *. intros t Hin. specialize (HO t Hin). specialize (HP t Hin). cbv zeta in HP. destruct HP as (Hsn & Hp & Hz & HC & BM & C1 & C2).
    split; [apply HO|]. split; [exact BM|]. intros v q Fv Bv HS. set (V := (1 + u_f32) * (M + (1 + u_f32) * E)) in *.
    destruct (sends_accurate n t v q _ _ HO Fv Hsn Hp Hz) as (y & -> & _ & HY); [|exact HS|].
    - intros i Hi. specialize (Bv i Hi). apply Rabs_le_inv in Bv. set (s := val (p_scale (t_peer t))) in *. assert (I : 0 < / s) by (apply Rinv_0_lt_compat; lra).
      set (a := IZR (0 - p_zp (t_peer t))) in *. set (b := IZR (code_max (p_type (t_peer t)) - p_zp (t_peer t))) in *.
      assert (X1 : (a - / 2) * s / s <= elem v i / s) by (apply Rmult_le_compat_r; lra). assert (X2 : elem v i / s <= (b + / 2) * s / s) by (apply Rmult_le_compat_r; lra).
      replace ((a - / 2) * s / s) with (a - / 2) in X1 by (field; lra). replace ((b + / 2) * s / s) with (b + / 2) in X2 by (field; lra). lra.
    - exists y. split; auto. intros i Hi. destruct (HY i Hi) as [F D]. split; [exact F|lra]. }
  destruct (exchange_run n sends M E ts HM HE HB HT e0 ys r HX F0) as (e & -> & HL & _ & HR).
  { intros i Hi. specialize (B0 i Hi). nra. }
  exists e. split; auto. split; auto. intros i Hi. destruct (HR i Hi) as [R1 R2]. split; [exact R1|]. split; [exact R2|].
  replace (received ys i - sent ts i) with ((received ys i + elem e i - (elem e0 i + sent ts i)) + (elem e0 i + - elem e i)) by ring.
  eapply Rle_trans; [apply Rabs_triang|]. pose proof (Rabs_triang (elem e0 i) (- elem e i)) as T. rewrite Rabs_Ropp in T. lra.
Qed.

(** relative size of a round's code error: 1/(2^bits - 1) for nearest rounding, 2/(2^bits - 1) for stochastic rounding, and a four hundredth *)
Definition round_rate (t : round) : R := match p_mode (t_peer t) with RM_NEAREST => 1 | RM_STOCHASTIC => 2 end * (1 + / 400) / IZR (code_max (p_type (t_peer t))).

Lemma computed_accurate n t v r V : round_ok n t -> finite_data DT_F32 v n -> (forall i, (i < n)%nat -> Rabs (elem v i) <= (1 + u_f32) * V) -> 0 <= V -> computed_sends n t v r ->
  exists y, r = Ok y /\ forall i, (i < n)%nat -> finite (f32_at y i) /\ (1 + u_f32) * Rabs (elem y i - elem v i) <= round_rate t * V.
Proof.
  intros HO FV BV HV0 (a & blocks & lo & hi & scale & zp & Ha & HBl & HR & H0 & HB & EC & HS). pose proof HO as (_ & _ & Hq & _). set (p := t_peer t) in *.
  destruct (C55_computed_parameters_fit a blocks (carry p v scale zp) n lo hi Ha (or_introl eq_refl) Hq FV HBl HR H0 HB EC) as (FIT & P1 & P2 & P3).
  cbn [carry p_data_type p_data p_type p_scale p_zp] in *.
  destruct (sends_accurate n t v r scale zp HO FV P1 P2 P3) as (y & -> & _ & HY); [intros i Hi; apply (FIT i Hi)|exact HS|].
  exists y. split; auto. intros i Hi. destruct (HY i Hi) as [F D]. split; [exact F|].
  pose proof (bpow_gt_0 radix2 (-112)) as T0. assert (LH : lo < hi) by lra.
  assert (HB' : bpow radix2 (-118) <= hi - lo <= bpow radix2 100) by (assert (bpow radix2 (-118) <= bpow radix2 (-112)) by (apply bpow_le; lia); lra).
  destruct (C21_documented_parameters a _ _ _ n blocks lo hi Ha (or_introl eq_refl) Hq FV HBl HR LH) as (s & E & Fs & Vs).
  rewrite EC in E. injection E as Es _. rewrite <- Es in Vs. clear s Es Fs.
  pose proof HR as ((il & Hil & El) & (ih & Hih & Eh) & HRg).
  assert (I1 : in32 lo) by (rewrite <- El; apply in32_val, FV; auto). assert (I2 : in32 hi) by (rewrite <- Eh; apply in32_val, FV; auto).
  destruct (config_scale_rel (p_type p) lo hi Hq I1 I2 HB') as (e & Hee & Er & _).
  destruct (step_bounds (p_type p) lo hi Hq I1 I2 LH) as (d & Hd & Ed & _). pose proof (code_max_R _ Hq) as Q.
  rewrite Er, Ed in Vs. apply Rabs_le_inv in Hee. apply Rabs_le_inv in Hd. unfold u32r in Hee. unfold u64r in Hd.
  assert (RB : hi - lo <= 2 * ((1 + u_f32) * V)).
  { change (elem v il = lo) in El. change (elem v ih = hi) in Eh. pose proof (BV il Hil) as B1. pose proof (BV ih Hih) as B2. rewrite El in B1. rewrite Eh in B2.
    apply Rabs_le_inv in B1. apply Rabs_le_inv in B2. lra. }
  unfold round_rate. fold p. set (q := IZR (code_max (p_type p))) in *.
  assert (S1 : (hi - lo) / q <= 2 * ((1 + u_f32) * V) / q) by (apply Rmult_le_compat_r; [left; apply Rinv_0_lt_compat; lra|lra]).
  assert (S0 : 0 <= (hi - lo) / q) by (apply Rmult_le_pos; [lra|left; apply Rinv_0_lt_compat; lra]).
  assert (V0 : 0 <= V / q) by (apply Rmult_le_pos; [lra|left; apply Rinv_0_lt_compat; lra]).
  replace (2 * ((1 + u_f32) * V) / q) with (2 * (1 + u_f32) * (V / q)) in S1 by (field; lra).
  replace (match p_mode p with RM_NEAREST => 1 | RM_STOCHASTIC => 2 end * (1 + / 400) / q * V) with (match p_mode p with RM_NEAREST => 1 | RM_STOCHASTIC => 2 end * (1 + / 400) * (V / q)) by (field; lra).
  set (w := V / q) in *. set (z := (hi - lo) / q) in *. clearbody w z.
  assert (D1 : 0 <= (1 + d) * (1 + e) <= 1 + / 10000000) by nra. rewrite Rmult_assoc in Vs. set (dd := (1 + d) * (1 + e)) in *. clearbody dd.
  assert (SC : val scale <= 2 * (1 + u_f32) * w * (1 + / 10000000)) by (rewrite Vs; apply Rmult_le_compat; lra).
  fold p in D. set (W := 2 * (1 + u_f32) * w * (1 + / 10000000)) in *.
  assert (CP : 0 < code_part p) by (unfold code_part; destruct (p_mode p); lra).
  assert (X : val scale * code_part p <= W * code_part p) by (apply Rmult_le_compat_r; lra).
  assert (Y : Rabs (elem y i - elem v i) <= W * code_part p) by lra. clear D X SC.
  assert (T1 : (1 + u_f32) * Rabs (elem y i - elem v i) <= (1 + u_f32) * (W * code_part p)) by (apply Rmult_le_compat_l; [unfold u_f32; lra|exact Y]).
  eapply Rle_trans; [exact T1|]. unfold W, code_part, u_f32. destruct (p_mode p); lra.
Qed.

(** Parameters computed by the library in every round: with data of magnitude M and rates of at most c < 1 the residual never exceeds
    E = c M / (1 - c), whatever the number of rounds (about M/254 for uint8 with nearest rounding). *)
Theorem C75_computed_feedback n ts e0 ys r M c :
  let E := c / (1 - c) * M in
  Forall (round_ok n) ts -> 0 <= M -> 0 < c < 1 -> M + 2 * E <= bpow radix2 127 ->
  Forall (fun t => round_rate t <= c /\ forall i, (i < n)%nat -> Rabs (elem (t_data t) i) <= M) ts ->
  finite_data DT_F32 e0 n -> (forall i, (i < n)%nat -> Rabs (elem e0 i) <= E) ->
  exchange n (computed_sends n) ts e0 ys r ->
  exists e, r = Ok e /\ length ys = length ts /\
    forall i, (i < n)%nat -> Rabs (elem e i) <= (1 + u_f32) * E /\
      Rabs (received ys i + elem e i - (elem e0 i + sent ts i)) <= INR (length ts) * (u_f32 * (M + 3 * E)) /\
      Rabs (received ys i - sent ts i) <= Rabs (elem e0 i) + (1 + u_f32) * E + INR (length ts) * (u_f32 * (M + 3 * E)).
Proof.
  intros E HO HM Hc HB HP F0 B0 HX. pose proof u_pos as U.
  assert (HE : 0 <= E) by (unfold E; apply Rmult_le_pos; [apply Rmult_le_pos; [lra|left; apply Rinv_0_lt_compat; lra]|lra]).
  assert (FX : c * (M + E) = E) by (unfold E; field; lra).
  assert (HT : Forall (fun t => finite_data DT_F32 (t_data t) n /\ (forall i, (i < n)%nat -> Rabs (elem (t_data t) i) <= M) /\
    forall v r, finite_data DT_F32 v n -> (forall i, (i < n)%nat -> Rabs (elem v i) <= (1 + u_f32) * (M + (1 + u_f32) * E)) -> computed_sends n t v r ->
      exists y, r = Ok y /\ forall i, (i < n)%nat -> finite (f32_at y i) /\ Rabs (elem y i - elem v i) <= E) ts).
  { rewrite Forall_forall in *. intros t Hin. specialize (HO t Hin). destruct (HP t Hin) as [HR BM].
    split; [apply HO|]. split; [exact BM|]. intros v q Fv Bv HS.
    assert (U1 : 0 <= (1 + u_f32) * E) by (apply Rmult_le_pos; lra). assert (U2 : 0 <= M + (1 + u_f32) * E) by lra.
    destruct (computed_accurate n t v q (M + (1 + u_f32) * E) HO Fv Bv U2 HS) as (y & -> & HY).
    exists y. split; auto. intros i Hi. destruct (HY i Hi) as [F D]. split; [exact F|].
    assert (X : round_rate t * (M + (1 + u_f32) * E) <= c * (M + (1 + u_f32) * E)) by (apply Rmult_le_compat_r; [exact U2|exact HR]).
    assert (Y : c * (M + (1 + u_f32) * E) <= (1 + u_f32) * (c * (M + E))).
    { replace ((1 + u_f32) * (c * (M + E))) with (c * (M + (1 + u_f32) * E) + u_f32 * (c * M)) by ring. assert (0 <= u_f32 * (c * M)) by (apply Rmult_le_pos; [lra|apply Rmult_le_pos; lra]). lra. } rewrite FX in Y.
    apply Rmult_le_reg_l with (1 + u_f32); lra. }
  destruct (exchange_run n (computed_sends n) M E ts HM HE HB HT e0 ys r HX F0) as (e & -> & HL & _ & HR).
  { intros i Hi. specialize (B0 i Hi). assert (0 <= u_f32 * E) by (apply Rmult_le_pos; lra). lra. }
  exists e. split; auto. split; auto. intros i Hi. destruct (HR i Hi) as [R1 R2]. split; [exact R1|]. split; [exact R2|].
  replace (received ys i - sent ts i) with ((received ys i + elem e i - (elem e0 i + sent ts i)) + (elem e0 i + - elem e i)) by ring.
  eapply Rle_trans; [apply Rabs_triang|]. pose proof (Rabs_triang (elem e0 i) (- elem e i)) as T. rewrite Rabs_Ropp in T. lra.
Qed.

(** ** Without feedback *)
(** [ts] rounds that each send their data as they are *)
Inductive plain_exchange (n : nat) : list round -> list mem -> Prop :=
| px_nil : plain_exchange n [] []
| px_cons t ts y ys : sends t (t_data t) (Ok y) -> plain_exchange n ts ys -> plain_exchange n (t :: ts) (y :: ys).
(** the error of the total is half a step per round when every round carries the value 1/2 with scale 1 and zero point 0 *)
Theorem C75_without_feedback n ts ys : Forall (round_ok n) ts ->
  Forall (fun t => p_scale (t_peer t) = f_one /\ p_zp (t_peer t) = 0%Z /\ p_mode (t_peer t) = RM_NEAREST /\ forall i, (i < n)%nat -> elem (t_data t) i = / 2) ts ->
  plain_exchange n ts ys ->
  forall i, (i < n)%nat -> received ys i - sent ts i = INR (length ts) * / 2.
Proof.
  intros HO HP HX i Hi. induction HX as [|t ts y ys HS HX IH]; [unfold received, sent, rsum; cbn [fold_right length]; change (INR 0) with 0; lra|].
  inversion HO as [|? ? O1 O2]; inversion HP as [|? ? (P1 & P2 & P3 & P4) PP]; subst. specialize (IH O2 PP).
  unfold received, sent in *. rewrite !rsum_cons. cbn [length]. rewrite S_INR.
  assert (Y : elem y i = 1); [|rewrite Y, (P4 i Hi); lra].
  destruct HS as (q & HQ & HD). rewrite P1, P2, P3 in *.
  destruct O1 as ((Bv & Lv & Fv) & (Bo & Lo) & Hq & HL & HS & HS2 & He & Hne & Ht). change (stride DT_F32) with 4%nat in Lv. set (p := t_peer t) in *.
  destruct q as [b| |]; [|discriminate HD|discriminate HD].
  assert (NV : numel DT_F32 (length (t_data t)) = n) by (rewrite Lv; apply numel4). assert (NO : numel DT_F32 (length (t_out t)) = n) by (rewrite Lo; apply numel4).
  assert (HB : buffers_ok (p_threads p) DT_F32 (p_type p) (t_data t) (p_buffer p)).
  { unfold buffers_ok. rewrite Lv, !numel4. split; [left; reflexivity|]. split; [exact Hq|]. split; [exact Bv|]. split; [exact HL|exact HS]. }
  destruct (C68_sum_error_attained (p_arch p) (p_threads p) (p_qaddr p) (p_rarch p) (p_rthreads p) (p_oaddr p) DT_F32 (p_type p) (p_thr p) (t_data t) (p_buffer p) b (p_extra p) (t_out t) (Ok y)
    HB ltac:(congruence) ltac:(rewrite NO, Lo; exact HS2) He Hne) as (o & E & HY & _).
  - rewrite NO. intros j Hj. split; [apply Fv; exact Hj|exact (P4 j Hj)].
  - exact HQ.
  - exact HD.
  - injection E as <-. rewrite NO in HY. exact (HY i Hi).
Qed.
