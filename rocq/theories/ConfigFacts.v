(** ConfigFacts.v -- from the range to scale and zero point: exact results and error bounds. *)
From Coq Require Import ZArith List Lia Bool Reals Lra Psatz.
From Flocq Require Import Core BinarySingleNaN Binary Bits Relative.
From Verif Require Import Base Floats Dtypes Spec ApiSpec FloatFacts FloatFacts2 QuantLanes MinMax MinMaxFacts ConfigSpec F64Facts.
Import ListNotations.
Local Open Scope R_scope.

Definition u64r : R := / 9007199254740992.
Lemma RN64_rel x : bpow radix2 (-1022) <= Rabs x -> exists d, Rabs d <= u64r /\ RN64 x = x * (1 + d).
Proof.
  intros H. destruct (relative_error_N_FLT_ex radix2 (-1074) 53 Hprec64 (fun z => negb (Z.even z)) x) as (d & Hd & E).
  { exact H. }
  exists d. split; auto. eapply Rle_trans; [exact Hd|]. unfold u64r. cbn. lra.
Qed.

(** two different floats differ by at least 2^-149, and by at least 1/(2^24+1) of either *)
Lemma fmt32_gap0 x y : fmt32 x -> fmt32 y -> x < y -> bpow radix2 (-149) <= y - x.
Proof.
  intros Fx Fy H. apply FLT_format_generic in Fx; [|reflexivity]. apply FLT_format_generic in Fy; [|reflexivity].
  destruct Fx as [[m e] Ex _ He]. destruct Fy as [[m' e'] Ey _ He']. cbn [Fnum Fexp] in *.
  assert (X : forall m e, (-149 <= e)%Z -> exists k, F2R (Float radix2 m e) = IZR k * bpow radix2 (-149)).
  { clear. intros m e He. exists (m * 2 ^ (e + 149))%Z. unfold F2R. cbn [Fnum Fexp]. rewrite mult_IZR, Rmult_assoc. f_equal.
    change 2%Z with (radix_val radix2). rewrite IZR_Zpower by lia. rewrite <- bpow_plus. f_equal. lia. }
  destruct (X m e He) as (k & Ek). destruct (X m' e' He') as (k' & Ek'). rewrite Ek in Ex. rewrite Ek' in Ey.
  pose proof (bpow_gt_0 radix2 (-149)) as P. set (b := bpow radix2 (-149)) in *.
  assert (L : (k < k')%Z) by (apply lt_IZR; apply Rmult_lt_reg_r with b; lra).
  assert (L' : IZR k + 1 <= IZR k') by (rewrite <- plus_IZR; apply IZR_le; lia). subst x y. nra.
Qed.
Lemma fmt32_gap_pos x y : fmt32 x -> fmt32 y -> 0 <= x < y -> x * bpow radix2 (-24) <= y - x.
Proof.
  intros Fx Fy [H0 H]. assert (S : x + ulp radix2 fexp32 x <= y).
  { rewrite <- succ_eq_pos by auto. apply succ_le_lt; auto with typeclass_instances. }
  destruct (Req_dec x 0) as [->|N]; [lra|]. pose proof (@ulp_FLT_gt radix2 (-149) 24 Hprec32 x) as U.
  rewrite Rabs_pos_eq in U by auto. change (bpow radix2 (-24)) with (bpow radix2 (- (24))). lra.
Qed.
Lemma fmt32_gap x y : fmt32 x -> fmt32 y -> x < y -> Rabs x <= 16777217 * (y - x).
Proof.
  intros Fx Fy H. destruct (Rle_or_lt 0 x) as [P|N].
  - rewrite Rabs_pos_eq by auto. pose proof (fmt32_gap_pos x y Fx Fy (conj P H)) as G. change (bpow radix2 (-24)) with (/ 16777216) in G. lra.
  - rewrite Rabs_left by auto. destruct (Rle_or_lt y 0) as [P'|N']; [|lra].
    pose proof (fmt32_gap_pos (- y) (- x) (generic_format_opp _ _ _ Fy) (generic_format_opp _ _ _ Fx) ltac:(lra)) as G.
    change (bpow radix2 (-24)) with (/ 16777216) in G. lra.
Qed.

Definition in32 (x : R) : Prop := fmt32 x /\ Rabs x < max32.

Lemma code_max_cases dq : quant_type dq -> code_max dq = 3%Z \/ code_max dq = 15%Z \/ code_max dq = 255%Z.
Proof. intros [->|[->| ->]]; auto. Qed.
Lemma code_max_R dq : quant_type dq -> 3 <= IZR (code_max dq) <= 255.
Proof. intros H. destruct (code_max_cases dq H) as [->|[->| ->]]; lra. Qed.

(** bounds on the step *)
Lemma diff_bounds lo hi : in32 lo -> in32 hi -> lo < hi ->
  exists d, Rabs d <= u64r /\ RN64 (hi - lo) = (hi - lo) * (1 + d) /\ bpow radix2 (-149) <= RN64 (hi - lo) <= bpow radix2 129.
Proof.
  intros [Fl Bl] [Fh Bh] H. pose proof (fmt32_gap0 lo hi Fl Fh H) as G. pose proof (bpow_gt_0 radix2 (-149)) as P.
  destruct (RN64_rel (hi - lo)) as (d & Hd & E).
  { rewrite Rabs_pos_eq by lra. apply Rle_trans with (2 := G). apply bpow_le. lia. }
  exists d. split; auto. split; auto. split.
  - rewrite <- (RN64_fmt (bpow radix2 (-149))) by (apply fmt64_bpow; lia). apply RN64_le; auto.
  - rewrite <- (RN64_fmt (bpow radix2 129)) by (apply fmt64_bpow; lia). apply RN64_le.
    unfold max32 in *. apply Rabs_def2 in Bl. apply Rabs_def2 in Bh. change 129%Z with (1 + 128)%Z. rewrite bpow_plus.
    change (bpow radix2 1) with 2. lra.
Qed.
Lemma step_bounds dq lo hi : quant_type dq -> in32 lo -> in32 hi -> lo < hi ->
  exists d, Rabs d <= 3 * u64r /\ config_step dq lo hi = (hi - lo) / IZR (code_max dq) * (1 + d) /\
    bpow radix2 (-157) <= config_step dq lo hi <= 3 * bpow radix2 126.
Proof.
  intros Hq Hl Hh H. destruct (diff_bounds lo hi Hl Hh H) as (d & Hd & E & B1 & B2). pose proof (code_max_R dq Hq) as Q.
  unfold config_step. set (D := RN64 (hi - lo)) in *. set (q := IZR (code_max dq)) in *.
  pose proof (bpow_gt_0 radix2 (-149)) as P. pose proof (bpow_gt_0 radix2 126) as P'.
  assert (L : bpow radix2 (-157) <= D / q).
  { apply Rle_trans with (bpow radix2 (-149) / 256).
    - change (-149)%Z with (-157 + 8)%Z. rewrite bpow_plus. change (bpow radix2 8) with 256. lra.
    - apply Rmult_le_compat; auto; [lra|lra|]. apply Rinv_le; lra. }
  assert (U : D / q <= 3 * bpow radix2 126).
  { apply Rle_trans with (bpow radix2 129 / 3).
    - apply Rmult_le_compat; [lra| |exact B2|apply Rinv_le; lra]. left. apply Rinv_0_lt_compat. lra.
    - change 129%Z with (3 + 126)%Z. rewrite bpow_plus. change (bpow radix2 3) with 8. lra. }
  pose proof (bpow_gt_0 radix2 (-157)) as P2.
  destruct (RN64_rel (D / q)) as (e & He & E').
  { rewrite Rabs_pos_eq by lra. apply Rle_trans with (2 := L). apply bpow_le. lia. }
  exists (d + e + d * e). split; [|split; [|split]].
  - assert (M : Rabs (d * e) <= u64r * u64r) by (rewrite Rabs_mult; apply Rmult_le_compat; auto; apply Rabs_pos).
    eapply Rle_trans; [apply Rabs_triang|]. pose proof (Rabs_triang d e). unfold u64r in *. lra.
  - rewrite E', E. unfold Rdiv. ring.
  - rewrite <- (RN64_fmt (bpow radix2 (-157))) by (apply fmt64_bpow; lia). apply RN64_le; auto.
  - assert (F : fmt64 (3 * bpow radix2 126)).
    { apply generic_format_FLT. exists (Float radix2 3 126); auto; cbn; lia. }
    rewrite <- (RN64_fmt _ F). apply RN64_le; auto.
Qed.

(** |lo / step| stays far inside int64 *)
Lemma zp_arg_bound dq lo hi : quant_type dq -> in32 lo -> in32 hi -> lo < hi ->
  Rabs (lo / config_step dq lo hi) <= bpow radix2 33.
Proof.
  intros Hq Hl Hh H. destruct (step_bounds dq lo hi Hq Hl Hh H) as (d & Hd & E & B1 & _). pose proof (code_max_R dq Hq) as Q.
  pose proof (fmt32_gap lo hi (proj1 Hl) (proj1 Hh) H) as G. pose proof (bpow_gt_0 radix2 (-157)) as P.
  set (S := config_step dq lo hi) in *. unfold Rdiv. rewrite Rabs_mult, Rabs_inv, (Rabs_pos_eq S) by lra.
  apply Rmult_le_reg_r with S; [lra|]. rewrite Rmult_assoc, Rinv_l, Rmult_1_r by lra. apply Rle_trans with (1 := G).
  rewrite E. change (bpow radix2 33) with 8589934592. apply Rabs_le_inv in Hd. set (q := IZR (code_max dq)) in *. unfold u64r in Hd.
  assert (I : / 255 <= / q) by (apply Rinv_le; lra). assert (W : (hi - lo) * / 255 <= (hi - lo) * / q) by (apply Rmult_le_compat_l; lra).
  unfold Rdiv. set (w := (hi - lo) * / q) in *. nra.
Qed.

Lemma params_ok dq rmin rmax lo hi : quant_type dq -> finite64 rmin -> finite64 rmax -> val64 rmin = lo -> val64 rmax = hi ->
  in32 lo -> in32 hi -> lo < hi ->
  exists s, params_of_range dq rmin rmax = Ok (s, config_zp dq lo hi) /\ finite s /\ val s = config_scale dq lo hi /\ Bsign 24 128 s = false /\ 0 <= val s.
Proof.
  intros Hq F1 F2 V1 V2 Hl Hh H. pose proof (code_max_R dq Hq) as Q. destruct (step_bounds dq lo hi Hq Hl Hh H) as (_ & _ & _ & B1 & B2).
  destruct (diff_bounds lo hi Hl Hh H) as (_ & _ & _ & D1 & D2). pose proof (zp_arg_bound dq lo hi Hq Hl Hh H) as Z1.
  pose proof (bpow_gt_0 radix2 (-157)) as P. pose proof (bpow_gt_0 radix2 (-149)) as P'.
  assert (ET : compute_type_max dq = Ok (code_max dq)) by (destruct Hq as [->|[->| ->]]; reflexivity).
  assert (ES : is_signed dq = false) by (destruct Hq as [->|[->| ->]]; reflexivity).
  unfold params_of_range. rewrite ET. cbn [bind]. rewrite ES. rewrite deq_ok by auto. rewrite V1, V2. rewrite Req_bool_false by lra.
  assert (ZB : (0 <= code_max dq <= 255)%Z) by (split; apply le_IZR; lra).
  destruct (f64_of_Z_ok 0 ltac:(lia)) as [G0 W0]. destruct (f64_of_Z_ok (code_max dq) ltac:(lia)) as [G1 W1].
  destruct (dsub_ok rmax rmin F2 F1) as [X1 Y1].
  { rewrite V1, V2. rewrite Rabs_pos_eq by lra. apply Rle_lt_trans with (1 := D2). unfold max64. apply bpow_lt. lia. }
  rewrite V1, V2 in Y1.
  assert (QF : RN64 (IZR (code_max dq) - 0) = IZR (code_max dq)) by (rewrite Rminus_0_r; apply RN64_fmt; rewrite <- W1; apply val64_fmt).
  destruct (dsub_ok (f64_of_Z (code_max dq)) (f64_of_Z 0) G1 G0) as [X2 Y2].
  { rewrite W0, W1, QF. rewrite Rabs_pos_eq by lra. apply Rle_lt_trans with 255; [lra|]. apply Rlt_trans with (bpow radix2 8); [cbn; lra|]. apply bpow_lt. lia. }
  rewrite W0, W1, QF in Y2.
  destruct (ddiv_ok (dsub rmax rmin) (dsub (f64_of_Z (code_max dq)) (f64_of_Z 0)) X1) as [X3 Y3].
  { rewrite Y2. lra. }
  { rewrite Y1, Y2. fold (config_step dq lo hi). rewrite Rabs_pos_eq by lra. apply Rle_lt_trans with (1 := B2).
    apply Rle_lt_trans with (bpow radix2 128); [|apply bpow_lt; lia]. change 128%Z with (2 + 126)%Z. rewrite bpow_plus.
    change (bpow radix2 2) with 4. pose proof (bpow_gt_0 radix2 126). lra. }
  rewrite Y1, Y2 in Y3. fold (config_step dq lo hi) in Y3.
  set (sc := ddiv (dsub rmax rmin) (dsub (f64_of_Z (code_max dq)) (f64_of_Z 0))) in *.
  assert (Z2 : Rabs (RN64 (lo / config_step dq lo hi)) <= bpow radix2 33) by (apply RN64_abs_le; [lia|auto]).
  destruct (ddiv_ok rmin sc F1) as [X4 Y4].
  { rewrite Y3. lra. }
  { rewrite V1, Y3. apply Rle_lt_trans with (1 := Z2). apply bpow_lt. lia. }
  rewrite V1, Y3 in Y4.
  assert (Z3 : Rabs (RN64 (0 - RN64 (lo / config_step dq lo hi))) <= bpow radix2 33).
  { apply RN64_abs_le; [lia|]. rewrite Rminus_0_l, Rabs_Ropp. exact Z2. }
  destruct (dsub_ok (f64_of_Z 0) (ddiv rmin sc) G0 X4) as [X5 Y5].
  { rewrite W0, Y4. apply Rle_lt_trans with (1 := Z3). apply bpow_lt. lia. }
  rewrite W0, Y4 in Y5. destruct (dround_ok _ X5) as [X6 Y6]. rewrite Y5 in Y6.
  set (w := RN64 (0 - RN64 (lo / config_step dq lo hi))) in *.
  assert (R1 : (- 2 ^ 33 <= round_half_away w <= 2 ^ 33)%Z).
  { apply Rabs_le_inv in Z3. change (bpow radix2 33) with (IZR (2 ^ 33)) in Z3. rewrite <- opp_IZR in Z3. split.
    - rewrite <- (rha_IZR (- 2 ^ 33)). apply rha_le. apply Z3.
    - rewrite <- (rha_IZR (2 ^ 33)). apply rha_le. apply Z3. }
  rewrite (f64_to_i64_ok _ (round_half_away w) X6 Y6) by (unfold in_i64; lia). cbn [bind].
  destruct (f64_of_Z_ok (round_half_away w) ltac:(lia)) as [G2 W2].
  destruct (dmin_ok _ _ G2 G1) as [G3 W3]. destruct (dmax_ok _ _ G3 G0) as [G4 W4]. rewrite W3, W2, W1, W0 in W4.
  assert (W5 : val64 (dmax (dmin (f64_of_Z (round_half_away w)) (f64_of_Z (code_max dq))) (f64_of_Z 0)) = IZR (config_zp dq lo hi)).
  { rewrite W4. unfold config_zp, clamp. fold w. unfold Rmin, Rmax.
    destruct (Rle_dec (IZR (round_half_away w)) (IZR (code_max dq))) as [L|L].
    - apply le_IZR in L. destruct (Rle_dec (IZR (round_half_away w)) (IZR 0)) as [L'|L'].
      + apply le_IZR in L'. f_equal. lia.
      + f_equal. assert (~ (round_half_away w <= 0)%Z) by (intros C; apply L', IZR_le, C). lia.
    - assert (~ (round_half_away w <= code_max dq)%Z) by (intros C; apply L, IZR_le, C).
      destruct (Rle_dec (IZR (code_max dq)) (IZR 0)) as [L'|L']; [apply le_IZR in L'|]; f_equal; lia. }
  assert (CZ : (0 <= config_zp dq lo hi <= code_max dq)%Z) by (unfold config_zp, clamp; lia).
  rewrite (f64_to_i64_ok _ _ G4 W5) by (unfold in_i64; lia). cbn [bind].
  assert (SB : 0 <= RN32 (config_step dq lo hi) <= 3 * bpow radix2 126).
  { split; [rewrite <- RN32_0; apply RN32_le; lra|]. assert (F : fmt32 (3 * bpow radix2 126)).
    { apply generic_format_FLT. exists (Float radix2 3 126); auto; cbn; lia. }
    rewrite <- (RN32_fmt _ F). apply RN32_le; auto. }
  destruct (f32_of_f64_ok sc X3) as (X7 & Y7 & S7).
  { rewrite Y3, Rabs_pos_eq by lra. apply Rle_lt_trans with (1 := proj2 SB). unfold max32. change 128%Z with (2 + 126)%Z. rewrite bpow_plus.
    change (bpow radix2 2) with 4. pose proof (bpow_gt_0 radix2 126). lra. }
  rewrite Y3 in Y7. exists (f32_of_f64 sc). split; auto. split; auto. split; auto. split; [apply S7; rewrite Y3; lra|].
  rewrite Y7. apply SB.
Qed.
