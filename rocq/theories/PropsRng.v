(** PropsRng.v -- C30 for the generator: how often an element rounds away from zero over all 2^64 outputs of the 64-bit generator, the average
    rounded value, and which call takes which output. *)
From Coq Require Import ZArith List Lia Bool Arith ZifyBool ZifyNat Reals Lra.
From Flocq Require Import Core Relative Mult_error Binary Bits.
From Verif Require Import Base Floats Simd Dtypes Spec ApiSpec QuantKernels DequantKernels ExecFacts FloatFacts QuantFacts QuantKernelFacts
  QuantGenericFacts DequantFacts DequantGenericFacts QuantLanes Context ContextFacts Footprint QuantizeFacts DequantizeFacts Api PropsQuantize FloatFacts2
  PropsStochastic Rng.
Import ListNotations.
Local Open Scope R_scope.

(** the fractional part of |y| *)
Definition frac (y : R) : R := Rabs y - IZR (Zfloor (Rabs y)).
(** the two draws in use *)
Definition a_draw (draw : Z -> f32) : Prop := draw = draw_plain \/ draw = draw_capped.
Definition output64 (u : Z) : Prop := (0 <= u < 2 ^ 64)%Z.


Lemma two64 : IZR (2 ^ 64) = bpow radix2 64. Proof. reflexivity. Qed.

Lemma rn_out u : output64 u -> 0 <= RN32 (IZR u) <= bpow radix2 64.
Proof.
  intros [H0 H1]. split.
  - rewrite <- RN32_0. apply RN32_le. apply IZR_le. auto.
  - rewrite <- (RN32_fmt (bpow radix2 64)); [apply RN32_le; rewrite <- two64; apply IZR_le; lia|].
    apply generic_format_bpow'; [apply FLT_exp_valid; reflexivity|]. unfold FLT_exp. lia.
Qed.
Lemma rn_near u : output64 u -> Rabs (RN32 (IZR u) - IZR u) <= bpow radix2 (-24) * RN32 (IZR u).
Proof.
  intros H. destruct (Z.eq_dec u 0) as [->|N].
  - rewrite RN32_fmt by apply generic_format_0. rewrite Rminus_0_r, Rabs_R0. lra.
  - pose proof (rn_out u H) as [R0 _]. destruct H as [H0 _]. assert (1 <= IZR u) by (apply IZR_le; lia).
    assert (B : bpow radix2 (-149 + 24 - 1) <= Rabs (IZR u)).
    { rewrite Rabs_pos_eq by lra. apply Rle_trans with (bpow radix2 0); [apply bpow_le; lia|cbn; lra]. }
    pose proof (relative_error_N_FLT_round radix2 (-149) 24 eq_refl (fun x => negb (Z.even x)) (IZR u) B) as E.
    change (round radix2 (FLT_exp (-149) 24) (Znearest (fun x => negb (Z.even x))) (IZR u)) with (RN32 (IZR u)) in E.
    rewrite (Rabs_pos_eq (RN32 (IZR u))) in E by auto.
    replace (bpow radix2 (-24)) with (/ 2 * bpow radix2 (- (24) + 1)); [exact E|]. rewrite bpow_plus. change (bpow radix2 1) with 2. change (- (24))%Z with (-24)%Z. lra.
Qed.
Lemma draw_plain_ok u : output64 u -> finite (draw_plain u) /\ val (draw_plain u) = RN32 (IZR u) / bpow radix2 64.
Proof.
  intros H. pose proof (rn_out u H) as [R0 R1]. unfold draw_plain.
  destruct (f32_of_Z_finite u) as [Fu Vu]; [destruct H; lia|].
  destruct (f32_of_Z_finite (2 ^ 64)) as [F6 V6]; [lia|]. change (f32_of_Z (2 ^ 64)) with f_2_64 in *.
  rewrite two64, RN32_fmt in V6 by (apply generic_format_bpow'; [apply FLT_exp_valid; reflexivity|unfold FLT_exp; lia]).
  pose proof (bpow_gt_0 radix2 64) as P6.
  assert (E : RN32 (val (f32_of_Z u) / val f_2_64) = RN32 (IZR u) / bpow radix2 64).
  { rewrite Vu, V6. apply RN32_fmt. unfold Rdiv. rewrite <- bpow_opp.
    destruct (Z.eq_dec u 0) as [->|N]; [rewrite (RN32_fmt 0) by apply generic_format_0; rewrite Rmult_0_l; apply generic_format_0|].
    apply mult_bpow_exact_FLT; [apply RN32_in_fmt|].
    assert (1 <= mag radix2 (RN32 (IZR u)))%Z; [|lia].
    apply mag_ge_bpow. rewrite Rabs_pos_eq by auto. cbn [bpow Z.sub Z.add Z.opp Z.pos_sub]. rewrite <- (RN32_fmt 1).
    - apply RN32_le. apply IZR_le. destruct H. lia.
    - change 1 with (bpow radix2 0). apply generic_format_bpow'; [apply FLT_exp_valid; reflexivity|unfold FLT_exp; lia]. }
  assert (B : 0 <= RN32 (IZR u) / bpow radix2 64 <= 1).
  { split; [apply Rmult_le_pos; [auto|left; apply Rinv_0_lt_compat; auto]|]. apply Rmult_le_reg_r with (bpow radix2 64); auto.
    unfold Rdiv. rewrite Rmult_assoc, Rinv_l by lra. lra. }
  rewrite <- E. apply fdiv_ok; [exact Fu|rewrite V6; lra|]. rewrite E, Rabs_pos_eq by apply B.
  eapply Rle_lt_trans; [apply B|]. change 1 with (bpow radix2 0). apply bpow_lt. lia.
Qed.
Lemma f_one_val : finite f_one /\ val f_one = 1. Proof. split; [reflexivity|]. unfold val. cbn. unfold F2R. cbn. lra. Qed.
Lemma f_below_val : finite f_below_one /\ val f_below_one = 1 - bpow radix2 (-24).
Proof. split; [reflexivity|]. unfold val. cbn. unfold F2R. cbn. lra. Qed.

(** Every draw is a threshold; the capped draw stays below 1. *)
Lemma draw_val draw u : a_draw draw -> output64 u -> finite (draw u) /\ 0 <= val (draw u) <= 1 /\
  (val (draw u) = RN32 (IZR u) / bpow radix2 64 \/ (RN32 (IZR u) = bpow radix2 64 /\ val (draw u) = 1 - bpow radix2 (-24))).
Proof.
  intros HD H. pose proof (rn_out u H) as [R0 R1]. destruct (draw_plain_ok u H) as [F V]. pose proof (bpow_gt_0 radix2 64) as P6.
  assert (B : 0 <= RN32 (IZR u) / bpow radix2 64 <= 1).
  { split; [apply Rmult_le_pos; [auto|left; apply Rinv_0_lt_compat; auto]|]. apply Rmult_le_reg_r with (bpow radix2 64); auto.
    unfold Rdiv. rewrite Rmult_assoc, Rinv_l by lra. lra. }
  destruct HD as [->| ->]; [rewrite V; auto|].
  unfold draw_capped. cbv zeta. rewrite fge_ok by (auto; apply f_one_val). rewrite V. rewrite (proj2 f_one_val).
  destruct (Rle_bool_spec 1 (RN32 (IZR u) / bpow radix2 64)) as [L|L]; [|rewrite V; auto].
  destruct f_below_val as [Fb Vb]. rewrite Vb. split; auto. split; [split; [|assert (0 < bpow radix2 (-24)) by apply bpow_gt_0; lra]|].
  - assert (bpow radix2 (-24) < bpow radix2 0) by (apply bpow_lt; lia). cbn [bpow] in *. lra.
  - right. split; auto. apply Rle_antisym; auto. apply Rmult_le_reg_r with (/ bpow radix2 64); [apply Rinv_0_lt_compat; auto|]. rewrite Rinv_r by lra. exact L.
Qed.
Theorem C30_draw draw u : a_draw draw -> output64 u -> threshold (draw u) /\ Rabs (val (draw u) - IZR u / IZR (2 ^ 64)) <= bpow radix2 (-24).
Proof.
  intros HD H. destruct (draw_val draw u HD H) as (F & B & V). split; [split; auto|].
  pose proof (rn_near u H) as N. pose proof (rn_out u H) as [R0 R1]. pose proof (bpow_gt_0 radix2 64) as P6. pose proof (bpow_gt_0 radix2 (-24)) as P24. rewrite two64.
  destruct V as [->|[E ->]].
  - replace (RN32 (IZR u) / bpow radix2 64 - IZR u / bpow radix2 64) with ((RN32 (IZR u) - IZR u) * / bpow radix2 64) by (unfold Rdiv; ring).
    rewrite Rabs_mult, (Rabs_pos_eq (/ _)) by (left; apply Rinv_0_lt_compat; auto).
    apply Rmult_le_reg_r with (bpow radix2 64); auto. rewrite Rmult_assoc, Rinv_l, Rmult_1_r by lra.
    eapply Rle_trans; [exact N|]. apply Rmult_le_compat_l; lra.
  - rewrite E in N. assert (U : IZR u <= bpow radix2 64) by (rewrite <- two64; apply IZR_le; destruct H; lia).
    assert (Q : 1 - bpow radix2 (-24) <= IZR u / bpow radix2 64 <= 1).
    { split; apply Rmult_le_reg_r with (bpow radix2 64); auto; unfold Rdiv; rewrite Rmult_assoc, Rinv_l, Rmult_1_r by lra; apply Rabs_le_inv in N; lra. }
    apply Rabs_le. lra.
Qed.
(** libstdc++'s draw is below 1, the plain one can be 1. *)
Theorem C30_draw_one : (forall u, output64 u -> val (draw_capped u) < 1) /\ (exists u, output64 u /\ val (draw_plain u) = 1).
Proof.
  split.
  - intros u H. unfold draw_capped. cbv zeta. destruct (draw_plain_ok u H) as [F V]. rewrite fge_ok by (auto; apply f_one_val). rewrite (proj2 f_one_val).
    destruct (Rle_bool_spec 1 (val (draw_plain u))) as [L|L]; auto. rewrite (proj2 f_below_val). pose proof (bpow_gt_0 radix2 (-24)). lra.
  - exists (2 ^ 64 - 1)%Z. assert (H : output64 (2 ^ 64 - 1)) by (unfold output64; lia). split; auto. destruct (draw_plain_ok _ H) as [_ ->].
    destruct (rn_out _ H) as [_ R1]. assert (R2 : bpow radix2 64 <= RN32 (IZR (2 ^ 64 - 1))).
    { destruct (Rle_or_lt (bpow radix2 64) (RN32 (IZR (2 ^ 64 - 1)))) as [L|L]; auto. exfalso.
      assert (F6 : fmt32 (bpow radix2 64)) by (apply generic_format_bpow'; [apply FLT_exp_valid; reflexivity|unfold FLT_exp; lia]).
      pose proof (pred_ge_gt radix2 (FLT_exp (-149) 24) _ _ (RN32_in_fmt (IZR (2 ^ 64 - 1))) F6 L) as P. rewrite pred_bpow in P.
      change (FLT_exp (-149) 24 64) with 40%Z in P.
      destruct (round_N_pt radix2 (FLT_exp (-149) 24) (fun x => negb (Z.even x)) (IZR (2 ^ 64 - 1))) as [_ B]. specialize (B _ F6).
      change (round radix2 (FLT_exp (-149) 24) (Znearest (fun x => negb (Z.even x))) (IZR (2 ^ 64 - 1))) with (RN32 (IZR (2 ^ 64 - 1))) in B.
      clear R1 L. assert (E1 : bpow radix2 64 - IZR (2 ^ 64 - 1) = 1) by (rewrite minus_IZR, two64; ring). rewrite E1, Rabs_R1 in B. apply Rabs_le_inv in B.
      assert (4 <= bpow radix2 40) by (change 4 with (bpow radix2 2); apply bpow_le; lia). clear - P B E1 H0.
      revert P B E1 H0. generalize (RN32 (IZR (2 ^ 64 - 1))) (IZR (2 ^ 64 - 1)) (bpow radix2 64) (bpow radix2 40). intros. lra. }
    assert (E : RN32 (IZR (2 ^ 64 - 1)) = bpow radix2 64) by lra. rewrite E. apply Rinv_r. apply Rgt_not_eq, bpow_gt_0.
Qed.

(** ** The cut-off *)
Lemma cutoff (P : Z -> Prop) (D : forall u, {P u} + {~ P u}) (n : Z) : (0 <= n)%Z -> (forall u v, (0 <= u <= v)%Z -> P v -> P u) ->
  exists N, (0 <= N <= n)%Z /\ forall u, (0 <= u < n)%Z -> (P u <-> (u < N)%Z).
Proof.
  intros Hn HP. revert n Hn. apply natlike_ind.
  - exists 0%Z. split; [lia|]. intros; lia.
  - intros n Hn (N & HN & IH). destruct (D n) as [Y|Y].
    + exists (Z.succ n). split; [lia|]. intros u Hu. split; [lia|]. intros _. apply (HP u n); auto; lia.
    + exists N. split; [lia|]. intros u Hu. destruct (Z.eq_dec u n) as [->|Ne]; [|apply IH; lia]. split; [tauto|]. intros L.
      exfalso. assert (n < N)%Z by auto. lia.
Qed.
Lemma frac_bounds y : 0 <= frac y < 1.
Proof. unfold frac. pose proof (Zfloor_lb (Rabs y)). pose proof (Zfloor_ub (Rabs y)). lra. Qed.
(** the fractional part of a float is at most 1 - 2^-24 *)
Lemma frac_fmt y : fmt32 y -> frac y <= 1 - bpow radix2 (-24).
Proof.
  intros F. pose proof (bpow_gt_0 radix2 24) as P. assert (I : bpow radix2 (-24) * bpow radix2 24 = 1) by (rewrite <- bpow_plus; reflexivity).
  destruct (Rlt_or_le (Rabs y) (/ 2)) as [L|L].
  - unfold frac. pose proof (Rabs_pos y). rewrite (Zfloor_imp 0) by (cbn; lra).
    assert (bpow radix2 (-24) <= bpow radix2 (-1)) by (apply bpow_le; lia). change (bpow radix2 (-1)) with (/ 2) in *. cbn. lra.
  - assert (G : exists k, Rabs y = IZR k * bpow radix2 (-24)).
    { assert (Fa : fmt32 (Rabs y)) by (apply generic_format_abs; auto). rewrite Fa. set (e := cexp radix2 fexp32 (Rabs y)). set (mm := Ztrunc _).
      assert (He : (-24 <= e)%Z).
      { unfold e, cexp. change fexp32 with (FLT_exp (-149) 24). unfold FLT_exp. assert (0 <= mag radix2 (Rabs y))%Z; [|lia]. apply mag_ge_bpow. rewrite Rabs_Rabsolu. exact L. }
      exists (mm * 2 ^ (e + 24))%Z. unfold F2R. cbn [Fnum Fexp]. rewrite mult_IZR. change 2%Z with (radix_val radix2) at 1.
      rewrite IZR_Zpower by lia. rewrite Rmult_assoc, <- bpow_plus. f_equal. f_equal. lia. }
    destruct G as [k Ek]. pose proof (frac_bounds y) as [_ B]. unfold frac in *. set (n := Zfloor (Rabs y)) in *.
    assert (E : (Rabs y - IZR n) * bpow radix2 24 = IZR (k - n * 2 ^ 24)).
    { rewrite minus_IZR, mult_IZR, Ek. change (IZR (2 ^ 24)) with (bpow radix2 24). transitivity (IZR k * (bpow radix2 (-24) * bpow radix2 24) - IZR n * bpow radix2 24); [ring|rewrite I; ring]. }
    assert (Q : (k - n * 2 ^ 24 <= 2 ^ 24 - 1)%Z).
    { assert (k - n * 2 ^ 24 < 2 ^ 24)%Z; [|lia]. apply lt_IZR. rewrite <- E. change (IZR (2 ^ 24)) with (bpow radix2 24). 
      rewrite <- (Rmult_1_l (bpow radix2 24)) at 2. apply Rmult_lt_compat_r; auto. }
    apply IZR_le in Q. rewrite <- E, minus_IZR in Q. change (IZR (2 ^ 24)) with (bpow radix2 24) in Q.
    apply Rmult_le_reg_r with (bpow radix2 24); auto. replace ((1 - bpow radix2 (-24)) * bpow radix2 24) with (bpow radix2 24 - bpow radix2 (-24) * bpow radix2 24) by ring. rewrite I. exact Q.
Qed.
Lemma draw_cut draw u f : a_draw draw -> output64 u -> f <= 1 - bpow radix2 (-24) ->
  ((val (draw u) < f)%R <-> (RN32 (IZR u) < f * bpow radix2 64)%R).
Proof.
  intros HD H Hf. destruct (draw_val draw u HD H) as (_ & _ & V). pose proof (bpow_gt_0 radix2 64) as P6. pose proof (bpow_gt_0 radix2 (-24)) as P24.
  destruct V as [->|[E ->]].
  - split; intros L.
    + apply (Rmult_lt_compat_r _ _ _ P6) in L. unfold Rdiv in L. rewrite Rmult_assoc, Rinv_l, Rmult_1_r in L by lra. exact L.
    + apply Rmult_lt_reg_r with (bpow radix2 64); auto. unfold Rdiv. rewrite Rmult_assoc, Rinv_l, Rmult_1_r by lra. exact L.
  - rewrite E. split; [lra|]. intros L. exfalso. assert (f * bpow radix2 64 <= 1 * bpow radix2 64) by (apply Rmult_le_compat_r; lra). lra.
Qed.
Lemma draw_share draw f : a_draw draw -> 0 <= f <= 1 - bpow radix2 (-24) ->
  exists N, (0 <= N <= 2 ^ 64)%Z /\
    (forall u, output64 u -> ((val (draw u) < f)%R <-> (u < N)%Z)) /\
    Rabs (IZR N / IZR (2 ^ 64) - f) <= f * bpow radix2 (-24) + bpow radix2 (-64).
Proof.
  intros HD [Hf0 Hf1]. pose proof (bpow_gt_0 radix2 64) as P6. pose proof (bpow_gt_0 radix2 (-24)) as P24.
  set (F := f * bpow radix2 64). assert (F0 : 0 <= F) by (apply Rmult_le_pos; lra).
  destruct (cutoff (fun u => RN32 (IZR u) < F) (fun u => Rlt_dec _ _) (2 ^ 64)) as (N & HN & HC); [lia| |].
  { intros u v Huv L. eapply Rle_lt_trans; [|exact L]. apply RN32_le, IZR_le. lia. }
  exists N. split; auto. split; [intros u Hu; rewrite (draw_cut draw u f HD Hu Hf1); apply HC; exact Hu|].
  assert (UP : IZR N <= F * (1 + bpow radix2 (-24)) + 1).
  { destruct (Z.eq_dec N 0) as [->|Nz]; [assert (0 <= F * bpow radix2 (-24)) by (apply Rmult_le_pos; lra); lra|].
    assert (O : output64 (N - 1)) by (unfold output64; lia). pose proof (proj2 (HC (N - 1)%Z O) ltac:(lia)) as L. cbv beta in L.
    pose proof (rn_near _ O) as Q. apply Rabs_le_inv in Q. rewrite minus_IZR in Q at 2.
    assert (bpow radix2 (-24) * RN32 (IZR (N - 1)) <= bpow radix2 (-24) * F) by (apply Rmult_le_compat_l; lra). rewrite minus_IZR in *. lra. }
  assert (LO : F * (1 - bpow radix2 (-24)) <= IZR N).
  { assert (0 <= F * bpow radix2 (-24)) by (apply Rmult_le_pos; lra).
    destruct (Z.eq_dec N (2 ^ 64)) as [->|Nz].
    - rewrite two64. assert (F <= 1 * bpow radix2 64) by (apply Rmult_le_compat_r; lra). lra.
    - assert (O : output64 N) by (unfold output64; lia). pose proof (HC N O) as C. cbv beta in C.
      assert (L : F <= RN32 (IZR N)) by (apply Rnot_lt_le; intros L; apply C in L; lia).
      pose proof (rn_near _ O) as Q. apply Rabs_le_inv in Q.
      assert (RN32 (IZR N) * (1 - bpow radix2 (-24)) >= F * (1 - bpow radix2 (-24))); [|lra].
      apply Rle_ge, Rmult_le_compat_r; [|auto]. assert (bpow radix2 (-24) < bpow radix2 0) by (apply bpow_lt; lia). cbn [bpow] in *. lra. }
  rewrite two64. assert (I : bpow radix2 (-64) * bpow radix2 64 = 1) by (rewrite <- bpow_plus; reflexivity).
  assert (E : IZR N / bpow radix2 64 - f = (IZR N - F) * bpow radix2 (-64)).
  { unfold Rdiv. rewrite <- bpow_opp. unfold F.
    transitivity (IZR N * bpow radix2 (-64) - f * (bpow radix2 (-64) * bpow radix2 64)); [rewrite I; change (-(64))%Z with (-64)%Z; ring|ring]. }
  rewrite E. assert (P64 := bpow_gt_0 radix2 (-64)). rewrite Rabs_mult, (Rabs_pos_eq (bpow _ _)) by lra.
  apply Rmult_le_reg_r with (bpow radix2 64); auto. rewrite Rmult_assoc, I, Rmult_1_r, Rmult_plus_distr_r, I.
  replace (f * bpow radix2 (-24) * bpow radix2 64) with (F * bpow radix2 (-24)) by (unfold F; ring).
  apply Rabs_le. lra.
Qed.

(** toward zero, and away from zero *)
Definition toward (y : R) : Z := if Rlt_bool y 0 then (- Zfloor (Rabs y))%Z else Zfloor (Rabs y).
Definition away (y : R) : Z := if Rlt_bool y 0 then (- (Zfloor (Rabs y) + 1))%Z else (Zfloor (Rabs y) + 1)%Z.
Lemma stoch_round_cases t y : stoch_round t y = if Rlt_bool t (frac y) then away y else toward y.
Proof. unfold stoch_round, away, toward, frac. cbv zeta. destruct (Rlt_bool t _), (Rlt_bool y 0); reflexivity. Qed.
Lemma stoch_between t y : 0 <= t -> (Zfloor y <= stoch_round t y <= Zceil y)%Z.
Proof.
  intros T0. unfold stoch_round. cbv zeta.
  assert (P : forall z, 0 <= z -> (Zfloor z <= (if Rlt_bool t (z - IZR (Zfloor z)) then Zfloor z + 1 else Zfloor z) <= Zceil z)%Z).
  { intros z Hz. destruct (Rlt_bool_spec t (z - IZR (Zfloor z))).
    - rewrite (Zceil_floor_neq z) by lra. lia.
    - split; [lia|]. apply le_IZR. eapply Rle_trans; [apply Zfloor_lb|apply Zceil_ub]. }
  destruct (Rlt_bool_spec y 0) as [L|L].
  - rewrite Rabs_left by auto. specialize (P (- y)%R ltac:(lra)). unfold Zceil in P at 1. rewrite Ropp_involutive in P. unfold Zceil. lia.
  - rewrite Rabs_pos_eq by auto. apply P; auto.
Qed.

(** ** C30 for the generator.  One call per generator output u < 2^64, each possibly on another kernel set, thread count and output buffer.  For every
    element there is one cut-off N: the element rounds away from zero for the outputs below N and toward zero for the others; N / 2^64 is the
    fractional part of the scaled value up to f * 2^-24 + 2^-64. *)
Definition all_outputs draw (A : Z -> arch) (nt : Z -> nat) (oaddr : Z -> Z) din dout scale zp inm (outm o : Z -> mem) : Prop :=
  forall u, output64 u -> buffers_ok (nt u) din dout inm (outm u) /\
    returns inm (outm u) (quantize_call (A u) (nt u) (oaddr u) din dout scale zp RM_STOCHASTIC (draw u) inm (outm u)) (Ok (o u)).
Theorem C30_generator_share draw A nt oaddr din dout scale zp inm outm o :
  a_draw draw -> good_scale scale -> (Z.abs zp <= 2 ^ 62)%Z ->
  (forall i, (i < numel din (length inm))%nat -> quantizable scale (elem_at din inm i)) ->
  all_outputs draw A nt oaddr din dout scale zp inm outm o ->
  forall i, (i < numel din (length inm))%nat ->
    let y := scaled (val scale) (val (elem_at din inm i)) in
    exists N, (0 <= N <= 2 ^ 64)%Z /\ Rabs (IZR N / IZR (2 ^ 64) - frac y) <= frac y * bpow radix2 (-24) + bpow radix2 (-64) /\
      forall u, output64 u -> code_at dout (o u) i = clamp 0 (code_max dout) ((if (u <? N)%Z then away y else toward y) + zp).
Proof.
  intros HD Hs Hz HI HK i Hi y.
  assert (Fy : fmt32 y) by apply RN32_in_fmt. pose proof (frac_bounds y) as [B0 _].
  destruct (draw_share draw (frac y) HD (conj B0 (frac_fmt y Fy))) as (N & HN & HC & HB). exists N. split; auto. split; auto.
  intros u Hu. destruct (HK u Hu) as (HBu & HR). destruct (C30_draw draw u HD Hu) as [T _].
  destruct (C29_quantize_stochastic _ _ _ _ _ _ _ _ _ _ _ HBu Hs Hz T HI HR) as (o' & E & _ & HCo). injection E as <-.
  rewrite HCo by auto. unfold stoch_code. fold y. rewrite stoch_round_cases. specialize (HC u Hu).
  f_equal. f_equal. destruct (Z.ltb_spec u N) as [L|L].
  - rewrite Rlt_bool_true; auto. apply HC; auto.
  - rewrite Rlt_bool_false; auto. apply Rnot_lt_le. intros Q. apply HC in Q. lia.
Qed.

(** The average over all 2^64 outputs is the scaled value, up to the same error, for elements whose two neighbours are within the code range. *)
Theorem C30_generator_mean draw A nt oaddr din dout scale zp inm outm o :
  a_draw draw -> good_scale scale -> (Z.abs zp <= 2 ^ 62)%Z ->
  (forall i, (i < numel din (length inm))%nat -> quantizable scale (elem_at din inm i)) ->
  all_outputs draw A nt oaddr din dout scale zp inm outm o ->
  forall i, (i < numel din (length inm))%nat ->
    let y := scaled (val scale) (val (elem_at din inm i)) in
    (0 <= Zfloor y + zp /\ Zceil y + zp <= code_max dout)%Z ->
    Rabs (IZR (sum_upto (Z.to_nat (2 ^ 64)) (fun u => code_at dout (o (Z.of_nat u)) i - zp)%Z) / IZR (2 ^ 64) - y) <= frac y * bpow radix2 (-24) + bpow radix2 (-64).
Proof.
  intros HD Hs Hz HI HK i Hi y [Rlo Rhi].
  assert (Fy : fmt32 y) by apply RN32_in_fmt. pose proof (frac_bounds y) as [B0 _].
  destruct (draw_share draw (frac y) HD (conj B0 (frac_fmt y Fy))) as (N & HN & HC & HB).
  remember (Z.to_nat (2 ^ 64)) as M eqn:EM. assert (HM : Z.of_nat M = (2 ^ 64)%Z) by (rewrite EM, Z2Nat.id; lia). clear EM.
  assert (C : forall k, (k < M)%nat -> (code_at dout (o (Z.of_nat k)) i - zp)%Z = if (Z.of_nat k <? N)%Z then away y else toward y).
  { intros k Hk. assert (Hu : output64 (Z.of_nat k)) by (unfold output64; lia).
    destruct (HK _ Hu) as (HBu & HR). destruct (C30_draw draw _ HD Hu) as [T _].
    destruct (C29_quantize_stochastic _ _ _ _ _ _ _ _ _ _ _ HBu Hs Hz T HI HR) as (o' & E & _ & HCo). injection E as <-.
    rewrite HCo by auto. unfold stoch_code. fold y. pose proof (stoch_between (val (draw (Z.of_nat k))) y (proj1 (proj2 T))) as SB.
    replace (clamp 0 (code_max dout) (stoch_round (val (draw (Z.of_nat k))) y + zp) - zp)%Z with (stoch_round (val (draw (Z.of_nat k))) y) by (unfold clamp; lia).
    rewrite stoch_round_cases. specialize (HC _ Hu). destruct (Z.ltb_spec (Z.of_nat k) N) as [L|L].
    - rewrite Rlt_bool_true; auto. apply HC; auto.
    - rewrite Rlt_bool_false; auto. apply Rnot_lt_le. intros Q. apply HC in Q. lia. }
  rewrite (sum_upto_ext _ _ _ C).
  assert (S : sum_upto M (fun k => if (Z.of_nat k <? N)%Z then away y else toward y) =
              if Rlt_bool y 0 then (- (2 ^ 64 * Zfloor (Rabs y) + N))%Z else (2 ^ 64 * Zfloor (Rabs y) + N)%Z).
  { pose proof (sum_upto_count M N (Zfloor (Rabs y)) ltac:(lia)) as Q. rewrite HM, Z.min_l in Q by lia. rewrite <- Q. unfold away, toward.
    destruct (Rlt_bool y 0); [rewrite <- sum_upto_opp|]; apply sum_upto_ext; intros k _; destruct (Z.of_nat k <? N)%Z; reflexivity. }
  rewrite S. pose proof (bpow_gt_0 radix2 64) as P6.
  assert (E : IZR (2 ^ 64 * Zfloor (Rabs y) + N) / IZR (2 ^ 64) = Rabs y + (IZR N / IZR (2 ^ 64) - frac y)).
  { rewrite plus_IZR, mult_IZR, two64. unfold frac. field. lra. }
  destruct (Rlt_bool_spec y 0) as [L|L].
  - rewrite opp_IZR. replace (- IZR (2 ^ 64 * Zfloor (Rabs y) + N) / IZR (2 ^ 64) - y) with (- (IZR N / IZR (2 ^ 64) - frac y)).
    + rewrite Rabs_Ropp. exact HB.
    + unfold Rdiv in *. rewrite Ropp_mult_distr_l_reverse, E, (Rabs_left y) by auto. ring.
  - rewrite E, (Rabs_pos_eq y) by auto. replace (y + (IZR N / IZR (2 ^ 64) - frac y) - y) with (IZR N / IZR (2 ^ 64) - frac y) by ring. exact HB.
Qed.

(** Which call of a thread takes which generator output: a stochastic call takes one, a nearest call none. *)
Definition stochastic_calls (calls : list round_mode_t) : nat := length (filter (fun rm => match rm with RM_STOCHASTIC => true | RM_NEAREST => false end) calls).
Theorem C30_history draw calls rng k rm : nth_error calls k = Some rm ->
  nth_error (thresholds draw calls rng) k = Some (match rm with RM_NEAREST => f_zero | RM_STOCHASTIC => draw (rng (stochastic_calls (firstn k calls))) end).
Proof.
  revert rng k. induction calls as [|c calls IH]; intros rng k H; [destruct k; discriminate|].
  destruct k as [|k]; cbn [nth_error firstn] in *.
  - injection H as ->. destruct rm; reflexivity.
  - destruct c; cbn [thresholds nth_error]; rewrite (IH _ _ H); destruct rm; reflexivity.
Qed.
Lemma thresholds_length draw calls rng : length (thresholds draw calls rng) = length calls.
Proof. revert rng. induction calls as [|[] calls IH]; intros; cbn; auto. Qed.
