(** FloatFacts.v -- real-number facts about the float operations and the rounding lanes. *)
From Coq Require Import ZArith List Lia Bool Reals Lra Psatz.
From Flocq Require Import Core BinarySingleNaN Binary Bits.
From Verif Require Import Base Floats Dtypes Spec.
Local Open Scope R_scope.

Notation fexp32 := (FLT_exp (-149) 24).
Notation fmt32 := (generic_format radix2 fexp32).
Global Instance vexp32 : Valid_exp fexp32. Proof. apply FLT_exp_valid. reflexivity. Qed.

Lemma val_fmt x : fmt32 (val x).
Proof. apply (generic_format_B2R 24 128). Qed.

Lemma fmul_ok x y :
  finite x -> finite y -> Rabs (RN32 (val x * val y)) < max32 ->
  finite (fmul x y) /\ val (fmul x y) = RN32 (val x * val y).
Proof.
  intros Fx Fy H. unfold fmul, b32_mult.
  match goal with |- finite (Bmult _ _ ?a ?b ?c ?d _ _) /\ _ =>
    pose proof (Bmult_correct 24 128 a b c d x y) as C end.
  change (SpecFloat.emin 24 128) with (-149)%Z in C. cbn [round_mode] in C.
  unfold val, RN32, max32, finite in *. rewrite Rlt_bool_true in C by exact H.
  destruct C as (C1 & C2 & _). rewrite C2, Fx, Fy. split; [reflexivity|exact C1].
Qed.

Lemma fdiv_ok x y :
  finite x -> val y <> 0 -> Rabs (RN32 (val x / val y)) < max32 ->
  finite (fdiv x y) /\ val (fdiv x y) = RN32 (val x / val y).
Proof.
  intros Fx Fy H. unfold fdiv, b32_div.
  match goal with |- finite (Bdiv _ _ ?a ?b ?c ?d _ _) /\ _ =>
    pose proof (Bdiv_correct 24 128 a b c d x y) as C end.
  change (SpecFloat.emin 24 128) with (-149)%Z in C. cbn [round_mode] in C.
  unfold val, RN32, max32, finite in *. specialize (C Fy). rewrite Rlt_bool_true in C by exact H.
  destruct C as (C1 & C2 & _). rewrite C2, Fx. split; [reflexivity|exact C1].
Qed.

Lemma fadd_ok x y :
  finite x -> finite y -> Rabs (RN32 (val x + val y)) < max32 ->
  finite (fadd x y) /\ val (fadd x y) = RN32 (val x + val y).
Proof.
  intros Fx Fy H. unfold fadd, b32_plus.
  match goal with |- finite (Bplus _ _ ?a ?b ?c ?d _ _) /\ _ =>
    pose proof (Bplus_correct 24 128 a b c d x y Fx Fy) as C end.
  change (SpecFloat.emin 24 128) with (-149)%Z in C. cbn [round_mode] in C.
  unfold val, RN32, max32, finite in *. rewrite Rlt_bool_true in C by exact H.
  destruct C as (C1 & C2 & _). rewrite C2. split; [reflexivity|exact C1].
Qed.

Lemma fsub_ok x y :
  finite x -> finite y -> Rabs (RN32 (val x - val y)) < max32 ->
  finite (fsub x y) /\ val (fsub x y) = RN32 (val x - val y).
Proof.
  intros Fx Fy H. unfold fsub, b32_minus.
  match goal with |- finite (Bminus _ _ ?a ?b ?c ?d _ _) /\ _ =>
    pose proof (Bminus_correct 24 128 a b c d x y Fx Fy) as C end.
  change (SpecFloat.emin 24 128) with (-149)%Z in C. cbn [round_mode] in C.
  unfold val, RN32, max32, finite in *. rewrite Rlt_bool_true in C by exact H.
  destruct C as (C1 & C2 & _). rewrite C2. split; [reflexivity|exact C1].
Qed.

Lemma ffma_ok x y z :
  finite x -> finite y -> finite z -> Rabs (RN32 (val x * val y + val z)) < max32 ->
  finite (ffma x y z) /\ val (ffma x y z) = RN32 (val x * val y + val z).
Proof.
  intros Fx Fy Fz H. unfold ffma, b32_fma.
  match goal with |- finite (Bfma _ _ ?a ?b ?c ?d _ _ _) /\ _ =>
    pose proof (Bfma_correct 24 128 a b c d x y z Fx Fy Fz) as C end.
  change (SpecFloat.emin 24 128) with (-149)%Z in C. cbn [round_mode] in C. cbv zeta in C.
  unfold val, RN32, max32, finite in *. rewrite Rlt_bool_true in C by exact H.
  destruct C as (C1 & C2 & _). rewrite C2. split; [reflexivity|exact C1].
Qed.

Lemma f_one_ok : finite f_one /\ val f_one = 1.
Proof. split; [reflexivity|]. unfold val, f_one. cbv -[IZR Rmult Rinv]. lra. Qed.
Lemma f_zero_ok : finite f_zero /\ val f_zero = 0.
Proof. split; reflexivity. Qed.
Lemma f_half_ok : finite f_half /\ val f_half = / 2.
Proof. split; [reflexivity|]. unfold val, f_half. cbv -[IZR Rmult Rinv]. lra. Qed.
Lemma f_nhalf_ok : finite f_nhalf /\ val f_nhalf = - / 2.
Proof. split; [reflexivity|]. unfold val, f_nhalf. cbv -[IZR Rmult Rinv]. lra. Qed.
Lemma f_neg_one_ok : finite f_neg_one /\ val f_neg_one = -1.
Proof. split; [reflexivity|]. unfold val, f_neg_one. cbv -[IZR Rmult Rinv]. lra. Qed.

(** ** Integer rounding *)
Lemma round_FIX0 rnd (Hr : Valid_rnd rnd) r : round radix2 (FIX_exp 0) rnd r = IZR (rnd r).
Proof.
  unfold round, F2R, scaled_mantissa, cexp, FIX_exp. simpl. rewrite Rmult_1_r. rewrite Rmult_1_r. reflexivity.
Qed.

Lemma round_half_away_ZnearestA r : round_half_away r = ZnearestA r.
Proof.
  unfold round_half_away. destruct (Rlt_bool_spec r 0) as [H|H].
  - assert (E : ZnearestA r = (- ZnearestA (- r))%Z).
    { rewrite Znearest_opp. rewrite Z.opp_involutive. unfold Znearest. 
      destruct (Rcompare (r - IZR (Zfloor r)) (/2)) eqn:Ec; auto.
      replace (negb (0 <=? - (Zfloor r + 1))%Z) with (0 <=? Zfloor r)%Z; auto.
      destruct (Z.leb_spec 0 (Zfloor r)), (Z.leb_spec 0 (-(Zfloor r + 1))); simpl; auto; lia. }
    rewrite E. f_equal. generalize (-r) (Ropp_gt_lt_0_contravar _ H). clear. intros r H.
    unfold Znearest. pose proof (Zfloor_lb r). pose proof (Zfloor_ub r).
    destruct (Rcompare_spec (r - IZR (Zfloor r)) (/2)) as [Hc|Hc|Hc].
    + apply Zfloor_imp. rewrite plus_IZR. lra.
    + replace (0 <=? Zfloor r)%Z with true. 2:{ symmetry. apply Z.leb_le. apply Zfloor_lub. simpl. lra. }
      rewrite (Zceil_floor_neq r) by lra. apply Zfloor_imp. rewrite !plus_IZR. lra.
    + rewrite (Zceil_floor_neq r) by lra. apply Zfloor_imp. rewrite !plus_IZR. lra.
  - unfold Znearest. pose proof (Zfloor_lb r). pose proof (Zfloor_ub r).
    destruct (Rcompare_spec (r - IZR (Zfloor r)) (/2)) as [Hc|Hc|Hc].
    + apply Zfloor_imp. rewrite plus_IZR. lra.
    + replace (0 <=? Zfloor r)%Z with true. 2:{ symmetry. apply Z.leb_le. apply Zfloor_lub. simpl. lra. }
      rewrite (Zceil_floor_neq r) by lra. apply Zfloor_imp. rewrite !plus_IZR. lra.
    + rewrite (Zceil_floor_neq r) by lra. apply Zfloor_imp. rewrite !plus_IZR. lra.
Qed.

Lemma rha_opp r : round_half_away (- r) = (- round_half_away r)%Z.
Proof.
  unfold round_half_away. destruct (Rlt_bool_spec (-r) 0), (Rlt_bool_spec r 0); try lra.
  - rewrite Ropp_involutive. reflexivity.
  - rewrite Z.opp_involutive. reflexivity.
  - assert (r = 0) as -> by lra. rewrite Ropp_0, Rplus_0_l.
    replace (Zfloor (/2)) with 0%Z; auto. symmetry. apply Zfloor_imp. simpl. lra.
Qed.

Lemma rha_le r s : r <= s -> (round_half_away r <= round_half_away s)%Z.
Proof. intros H. rewrite !round_half_away_ZnearestA. apply Zrnd_le; auto with typeclass_instances. Qed.

Lemma rha_IZR z : round_half_away (IZR z) = z.
Proof. rewrite round_half_away_ZnearestA. apply Zrnd_IZR; auto with typeclass_instances. Qed.

Lemma rha_error r : Rabs (IZR (round_half_away r) - r) <= / 2.
Proof. rewrite round_half_away_ZnearestA. rewrite Rabs_minus_sym. apply Znearest_half. Qed.

Lemma f_to_Z_finite x : finite x -> f_to_Z x = Some (Ztrunc (val x)).
Proof.
  intros F. unfold f_to_Z, ffinite. rewrite F. f_equal. apply eq_IZR.
  rewrite Btrunc_correct by reflexivity. apply round_FIX0. auto with typeclass_instances.
Qed.

Lemma fround_ok x : finite x -> finite (fround x) /\ val (fround x) = IZR (round_half_away (val x)).
Proof.
  intros F. unfold fround. destruct (Bnearbyint_correct 24 128 Hmax32 nan32 mode_NA x) as (C1 & C2 & _).
  unfold finite, val. rewrite C2. split; [exact F|]. rewrite C1. cbn [round_mode].
  rewrite round_half_away_ZnearestA. apply round_FIX0. auto with typeclass_instances.
Qed.

Lemma ftrunc_ok x : finite x -> finite (ftrunc x) /\ val (ftrunc x) = IZR (Ztrunc (val x)).
Proof.
  intros F. unfold ftrunc. destruct (Bnearbyint_correct 24 128 Hmax32 nan32 mode_ZR x) as (C1 & C2 & _).
  unfold finite, val. rewrite C2. split; [exact F|]. rewrite C1. cbn [round_mode].
  apply round_FIX0. auto with typeclass_instances.
Qed.

Lemma fcompare_ok x y : finite x -> finite y -> b32_compare x y = Some (Rcompare (val x) (val y)).
Proof. intros. unfold b32_compare. apply Bcompare_correct; auto. Qed.

Lemma flt_ok x y : finite x -> finite y -> flt x y = Rlt_bool (val x) (val y).
Proof. intros. unfold flt. rewrite fcompare_ok by auto. unfold Rlt_bool. destruct Rcompare; auto. Qed.
Lemma fge_ok x y : finite x -> finite y -> fge x y = Rle_bool (val y) (val x).
Proof.
  intros. unfold fge. rewrite fcompare_ok by auto. 
  destruct (Rcompare_spec (val x) (val y)); symmetry; [apply Rle_bool_false|apply Rle_bool_true|apply Rle_bool_true]; lra.
Qed.

(** ** RN32 *)
Lemma RN32_le x y : x <= y -> RN32 x <= RN32 y.
Proof. intros. apply round_le; auto with typeclass_instances. Qed.
Lemma RN32_fmt x : fmt32 x -> RN32 x = x.
Proof. intros. apply round_generic; auto with typeclass_instances. Qed.
Lemma RN32_opp x : RN32 (- x) = - RN32 x.
Proof. apply round_NE_opp. Qed.
Lemma RN32_0 : RN32 0 = 0.
Proof. apply round_0. auto with typeclass_instances. Qed.
Lemma RN32_in_fmt x : fmt32 (RN32 x).
Proof. apply generic_format_round; auto with typeclass_instances. Qed.

Lemma fmt32_F2R m e : (Z.abs m < 2 ^ 24)%Z -> (-149 <= e)%Z -> fmt32 (F2R (Float radix2 m e)).
Proof.
  intros Hm He. apply generic_format_FLT. exists (Float radix2 m e); auto.
Qed.

Lemma fmt32_int m : (Z.abs m <= 2 ^ 24)%Z -> fmt32 (IZR m).
Proof.
  intros Hm. destruct (Z.eq_dec (Z.abs m) (2 ^ 24)) as [E|E].
  - assert (Hb : fmt32 (bpow radix2 24)) by (apply generic_format_bpow; unfold FLT_exp; lia).
    replace (IZR m) with (IZR (Z.sgn m) * IZR (2 ^ 24)) by (rewrite <- mult_IZR, <- E; f_equal; lia).
    destruct m; simpl Z.sgn; [lia| |].
    + rewrite Rmult_1_l. exact Hb.
    + replace (IZR (-1) * IZR (2 ^ 24)) with (- bpow radix2 24) by (simpl; lra). apply generic_format_opp, Hb.
  - replace (IZR m) with (F2R (Float radix2 m 0)) by (unfold F2R; simpl; lra). apply fmt32_F2R; lia.
Qed.

Lemma fmt32_half_int m : (Z.abs m < 2 ^ 24)%Z -> fmt32 (IZR m / 2).
Proof.
  intros Hm. replace (IZR m / 2) with (F2R (Float radix2 m (-1))) by (unfold F2R; simpl; lra). apply fmt32_F2R; lia.
Qed.

(** ** The vector rounding trick: Ztrunc (RN32 (y + 1/2)) for y >= 0. *)
Lemma fmt32_pred_half : fmt32 pred_half.
Proof.
  replace pred_half with (F2R (Float radix2 (2 ^ 24 - 1) (-25))).
  - apply fmt32_F2R; lia.
  - unfold pred_half, F2R. simpl. lra.
Qed.

(* below 1/2 the largest float is pred_half, the next one is 1/2 - 2^-24 *)
Lemma below_half y : fmt32 y -> 0 <= y < / 2 -> y <> pred_half -> y <= / 2 - bpow radix2 (-24).
Proof.
  intros F [H0 H1] Hne.
  destruct (Rle_or_lt y (/ 2 - bpow radix2 (-24))) as [|H]; auto. exfalso.
  assert (Hb : bpow radix2 (-24) = / 16777216) by (simpl; lra).
  assert (Hb25 : bpow radix2 (-25) = / 33554432) by (simpl; lra).
  assert (Hlow : / 4 <= y) by (rewrite Hb in H; lra).
  (* exponent of y is -25 *)
  assert (Hmag : mag radix2 y = (-1)%Z :> Z).
  { apply mag_unique. rewrite Rabs_pos_eq by lra. simpl. lra. }
  assert (Hc : cexp radix2 fexp32 y = (-25)%Z).
  { unfold cexp. rewrite Hmag. unfold FLT_exp. lia. }
  assert (Fm : exists m, y = F2R (Float radix2 m (-25))).
  { red in F. rewrite Hc in F. eexists. exact F. }
  destruct Fm as [m Fm]. unfold F2R in Fm. cbn [Fnum Fexp] in Fm. rewrite Hb25 in Fm.
  assert (Hm1 : (m < 16777216)%Z). { apply lt_IZR. lra. }
  assert (Hm2 : (16777214 < m)%Z). { apply lt_IZR. lra. }
  assert (Hm3 : m = 16777215%Z) by lia. apply Hne. unfold pred_half. rewrite Hb25, Fm, Hm3. lra.
Qed.

Lemma fmt_shift_half y n : fmt32 y -> (1 <= n < 2 ^ 23)%Z -> IZR n < y < IZR n + / 2 -> fmt32 (y + / 2).
Proof.
  intros F Hn Hy.
  assert (H1 : 1 <= IZR n) by (apply IZR_le; lia).
  assert (Hy0 : 0 < y) by lra.
  destruct (mag radix2 y) as [e He]. specialize (He (Rgt_not_eq _ _ Hy0)).
  rewrite Rabs_pos_eq in He by lra.
  assert (He1 : (1 <= e)%Z).
  { destruct (Z_lt_le_dec e 1) as [Hlt|]; auto. exfalso.
    assert (bpow radix2 e <= bpow radix2 0) by (apply bpow_le; lia). simpl in H. lra. }
  assert (He2 : (e <= 23)%Z).
  { destruct (Z_lt_le_dec 23 e) as [Hlt|]; auto. exfalso.
    assert (bpow radix2 23 <= bpow radix2 (e - 1)) by (apply bpow_le; lia).
    assert (IZR n + / 2 <= bpow radix2 23).
    { assert (IZR n <= 8388607) by (apply IZR_le; lia). change (bpow radix2 23) with 8388608. lra. }
    lra. }
  assert (Hn1 : IZR n + 1 <= bpow radix2 e).
  { rewrite <- (IZR_Zpower radix2) by lia. rewrite <- plus_IZR. apply IZR_le.
    assert (n < radix2 ^ e)%Z; [|lia]. apply lt_IZR. rewrite IZR_Zpower by lia. lra. }
  assert (Hc : cexp radix2 fexp32 y = (e - 24)%Z).
  { unfold cexp. rewrite (mag_unique radix2 y e) by (rewrite Rabs_pos_eq by lra; auto). unfold FLT_exp. lia. }
  assert (Fy : exists m, y = F2R (Float radix2 m (e - 24))).
  { red in F. rewrite Hc in F. eexists. exact F. }
  destruct Fy as [m Hm].
  replace (y + / 2) with (F2R (Float radix2 (m + 2 ^ (23 - e)) (e - 24))).
  - apply fmt32_F2R; [|lia].
    assert (Hpos : (0 < m)%Z). { apply (gt_0_F2R radix2 m (e - 24)). rewrite <- Hm. lra. }
    assert (0 <= 2 ^ (23 - e))%Z by (apply Z.pow_nonneg; lia).
    rewrite Z.abs_eq by lia.
    apply (lt_F2R radix2 (e - 24)). unfold F2R. cbn [Fnum Fexp].
    rewrite plus_IZR, Rmult_plus_distr_r. change (2 ^ (23 - e))%Z with (radix2 ^ (23 - e))%Z. rewrite (IZR_Zpower radix2 (23 - e)) by lia. rewrite <- bpow_plus.
    replace (23 - e + (e - 24))%Z with (-1)%Z by lia.
    assert (Hym : IZR m * bpow radix2 (e - 24) = y) by (rewrite Hm; reflexivity).
    rewrite Hym. change (2^24)%Z with (radix2 ^ 24)%Z. rewrite (IZR_Zpower radix2) by lia. rewrite <- bpow_plus.
    replace (24 + (e - 24))%Z with e by lia. simpl bpow. lra.
  - rewrite Hm. unfold F2R. cbn [Fnum Fexp]. rewrite plus_IZR, Rmult_plus_distr_r.
    change (2 ^ (23 - e))%Z with (radix2 ^ (23 - e))%Z. rewrite (IZR_Zpower radix2 (23 - e)) by lia. rewrite <- bpow_plus.
    replace (23 - e + (e - 24))%Z with (-1)%Z by lia. simpl. lra.
Qed.

Lemma trunc_half_small y : fmt32 y -> 0 <= y < bpow radix2 23 -> y <> pred_half ->
  Ztrunc (RN32 (y + / 2)) = Zfloor (y + / 2).
Proof.
  intros F [H0 H1] Hne.
  assert (Hpos : 0 <= RN32 (y + / 2)).
  { rewrite <- RN32_0. apply RN32_le. lra. }
  rewrite Ztrunc_floor by auto.
  destruct (Rlt_or_le y (/ 2)) as [Hh|Hh].
  - rewrite (Zfloor_imp 0 (y + /2)) by (simpl; lra).
    apply Zfloor_imp. simpl. split; auto.
    pose proof (below_half y F (conj H0 Hh) Hne) as Hb.
    apply Rle_lt_trans with (1 - bpow radix2 (-24)); [|simpl; lra].
    assert (F1 : fmt32 (1 - bpow radix2 (-24))).
    { replace (1 - bpow radix2 (-24)) with (F2R (Float radix2 (2 ^ 24 - 1) (-24))) by (unfold F2R; simpl; lra).
      apply fmt32_F2R; lia. }
    rewrite <- (RN32_fmt _ F1). apply RN32_le. lra.
  - set (n := Zfloor (y + / 2)).
    assert (Hl : IZR n <= y + / 2) by apply Zfloor_lb.
    assert (Hu : y + / 2 < IZR n + 1) by apply Zfloor_ub.
    assert (Hn1 : (1 <= n)%Z) by (apply Zfloor_lub; simpl; lra).
    assert (H23 : bpow radix2 23 = 8388608) by (simpl; lra).
    assert (Hn2 : (n <= 2 ^ 23)%Z).
    { apply Zlt_succ_le, lt_IZR. unfold Z.succ. rewrite plus_IZR. change (IZR (2 ^ 23)) with 8388608. lra. }
    apply Zfloor_imp. rewrite plus_IZR. split.
    + rewrite <- (RN32_fmt (IZR n)) by (apply fmt32_int; lia). apply RN32_le. exact Hl.
    + assert (Hp : y <= bpow radix2 23 - bpow radix2 (-1)).
      { assert (F23 : fmt32 (bpow radix2 23)) by (apply generic_format_bpow; unfold FLT_exp; lia).
        pose proof (pred_ge_gt radix2 fexp32 _ _ F F23 H1) as Hp. rewrite pred_bpow in Hp. exact Hp. }
      change (bpow radix2 (-1)) with (/ 2) in Hp.
      destruct (Z.eq_dec n (2 ^ 23)) as [En|En].
      { rewrite En. change (IZR (2 ^ 23)) with (bpow radix2 23).
        apply Rle_lt_trans with (bpow radix2 23); [|lra].
        assert (F23 : fmt32 (bpow radix2 23)) by (apply generic_format_bpow; unfold FLT_exp; lia).
        rewrite <- (RN32_fmt _ F23). apply RN32_le. lra. }
      destruct (Rle_or_lt (y + / 2) (IZR n + / 2)) as [Hc|Hc].
      * apply Rle_lt_trans with (IZR n + / 2); [|lra].
        assert (F1 : fmt32 (IZR n + / 2)).
        { replace (IZR n + / 2) with (IZR (2 * n + 1) / 2) by (rewrite plus_IZR, mult_IZR; lra).
          apply fmt32_half_int. lia. }
        rewrite <- (RN32_fmt _ F1). apply RN32_le. lra.
      * assert (n < 2 ^ 23)%Z. { apply lt_IZR. change (IZR (2 ^ 23)) with 8388608. lra. }
        rewrite RN32_fmt; auto. apply (fmt_shift_half y n); auto. lra.
Qed.

(** The x86 vector rounding, on reals *)
Definition vround_R (y : R) : Z := if Rle_bool 0 y then Ztrunc (RN32 (y + / 2)) else Ztrunc (RN32 (y + - / 2)).

Lemma vround_R_opp y : y <> 0 -> vround_R (- y) = (- vround_R y)%Z.
Proof.
  intros Hy. unfold vround_R. destruct (Rle_bool_spec 0 (-y)), (Rle_bool_spec 0 y); try lra.
  - replace (-y + /2) with (- (y + -/2)) by lra. rewrite RN32_opp, Ztrunc_opp. lia.
  - replace (-y + -/2) with (- (y + /2)) by lra. rewrite RN32_opp, Ztrunc_opp. lia.
Qed.

Lemma vround_R_small_pos y : fmt32 y -> 0 <= y < bpow radix2 23 -> y <> pred_half -> vround_R y = round_half_away y.
Proof.
  intros F H Hne. unfold vround_R, round_half_away.
  rewrite Rle_bool_true, Rlt_bool_false by lra. apply trunc_half_small; auto.
Qed.

Lemma vround_R_small y : fmt32 y -> Rabs y < bpow radix2 23 -> Rabs y <> pred_half -> vround_R y = round_half_away y.
Proof.
  intros F H Hne. destruct (Rle_or_lt 0 y) as [Hy|Hy].
  - rewrite Rabs_pos_eq in H, Hne by auto. apply vround_R_small_pos; auto.
  - rewrite Rabs_left in H, Hne by auto. rewrite <- (Ropp_involutive y) at 1. rewrite vround_R_opp by lra.
    rewrite vround_R_small_pos; auto; [|apply generic_format_opp; auto|lra].
    rewrite rha_opp. lia.
Qed.

(* floats of magnitude >= 2^23 are integers *)
Lemma big_int y : fmt32 y -> bpow radix2 23 <= Rabs y -> y = IZR (Ztrunc y).
Proof.
  intros F H.
  assert (Hne : y <> 0). { intros ->. rewrite Rabs_R0 in H. pose proof (bpow_gt_0 radix2 23). lra. }
  assert (Hc : (0 <= cexp radix2 fexp32 y)%Z).
  { unfold cexp, FLT_exp. assert (24 <= mag radix2 y)%Z by (apply mag_ge_bpow; exact H). lia. }
  assert (Fm : exists m, y = IZR m).
  { red in F. unfold F2R in F. cbn [Fnum Fexp] in F. rewrite <- (IZR_Zpower radix2) in F by auto.
    rewrite <- mult_IZR in F. eexists. exact F. }
  destruct Fm as [m ->]. now rewrite Ztrunc_IZR.
Qed.

Lemma vround_R_big_pos y : fmt32 y -> bpow radix2 23 <= y < bpow radix2 30 ->
  (2 ^ 23 <= vround_R y <= 2 ^ 30)%Z /\ (2 ^ 23 <= round_half_away y < 2 ^ 30)%Z.
Proof.
  intros F [H1 H2]. assert (H0 : 0 < y) by (pose proof (bpow_gt_0 radix2 23); lra).
  assert (E : y = IZR (Ztrunc y)) by (apply big_int; auto; rewrite Rabs_pos_eq; lra).
  set (n := Ztrunc y) in *. clearbody n. subst y.
  assert (Hn1 : (2 ^ 23 <= n)%Z) by (apply le_IZR; exact H1).
  assert (Hn2 : (n < 2 ^ 30)%Z) by (apply lt_IZR; exact H2).
  rewrite rha_IZR. split; [|lia].
  unfold vround_R. rewrite Rle_bool_true by lra.
  assert (Hpos : IZR n <= RN32 (IZR n + / 2)).
  { rewrite <- (RN32_fmt (IZR n)) at 1 by auto. apply RN32_le. lra. }
  assert (Hup : RN32 (IZR n + / 2) <= IZR (2 ^ 30)).
  { assert (F30 : fmt32 (bpow radix2 30)) by (apply generic_format_bpow; unfold FLT_exp; lia).
    change (IZR (2 ^ 30)) with (bpow radix2 30). rewrite <- (RN32_fmt _ F30). apply RN32_le.
    assert (IZR n + 1 <= IZR (2 ^ 30)) by (rewrite <- plus_IZR; apply IZR_le; lia).
    change (bpow radix2 30) with (IZR (2 ^ 30)). lra. }
  split.
  - rewrite <- (Ztrunc_IZR (2 ^ 23)). apply Ztrunc_le. apply Rle_trans with (IZR n); [apply IZR_le; auto|auto].
  - rewrite <- (Ztrunc_IZR (2 ^ 30)). apply Ztrunc_le. auto.
Qed.

(** Summary: the vector lane and the mathematical rounding give the same clamped code. *)
Lemma vround_clamp y zp mx :
  fmt32 y -> Rabs y < bpow radix2 30 -> Rabs y <> pred_half -> (Z.abs zp <= 2 ^ 22)%Z -> (0 <= mx <= 255)%Z ->
  (Z.abs (vround_R y) <= 2 ^ 30)%Z /\ 
  clamp 0 mx (vround_R y + zp) = clamp 0 mx (round_half_away y + zp).
Proof.
  intros F Hy Hne Hzp Hmx. destruct (Rlt_or_le (Rabs y) (bpow radix2 23)) as [Hs|Hb].
  - rewrite (vround_R_small y) by auto. split; auto.
    assert (Z.abs (round_half_away y) <= 2 ^ 23)%Z; [|lia].
    apply Z.abs_le. split.
    + rewrite <- (rha_IZR (- 2 ^ 23)). apply rha_le. apply Rabs_def2 in Hs. change (IZR (- 2^23)) with (- bpow radix2 23). lra.
    + rewrite <- (rha_IZR (2 ^ 23)). apply rha_le. apply Rabs_def2 in Hs. change (IZR (2^23)) with (bpow radix2 23). lra.
  - destruct (Rle_or_lt 0 y) as [H0|H0].
    + rewrite Rabs_pos_eq in * by auto. destruct (vround_R_big_pos y F (conj Hb Hy)). unfold clamp. lia.
    + rewrite Rabs_left in * by auto.
      destruct (vround_R_big_pos (- y) (generic_format_opp _ _ _ F) (conj Hb Hy)) as [V W].
      rewrite vround_R_opp in V by lra. rewrite rha_opp in W. unfold clamp. lia.
Qed.

Lemma vround_pred_half : vround_R pred_half = 1%Z /\ round_half_away pred_half = 0%Z.
Proof.
  assert (Hb25 : bpow radix2 (-25) = / 33554432) by (simpl; lra).
  split.
  - unfold vround_R. rewrite Rle_bool_true by (unfold pred_half; lra).
    replace (pred_half + / 2) with (1 - bpow radix2 (-25)) by (unfold pred_half; lra).
    assert (E : RN32 (1 - bpow radix2 (-25)) = 1).
    { (* tie between 1-2^-24 (odd mantissa) and 1 *)
      unfold RN32.
      assert (F1 : fmt32 1) by (apply (fmt32_int 1); lia).
      apply Rle_antisym.
      - rewrite <- (RN32_fmt 1 F1) at 2. apply RN32_le. lra.
      - (* RN >= 1: compute *)
        set (x := 1 - bpow radix2 (-25)).
        assert (Hm : mag radix2 x = 0%Z :> Z).
        { apply mag_unique. unfold x. rewrite Rabs_pos_eq by lra. rewrite Hb25. simpl. lra. }
        unfold round, F2R, scaled_mantissa, cexp. rewrite Hm. simpl FLT_exp. cbn [Fnum Fexp].
        change (FLT_exp (-149) 24 0) with (-24)%Z.
        replace (x * bpow radix2 (- (-24))) with (IZR 16777215 + / 2).
        2:{ unfold x. rewrite Hb25. simpl. lra. }
        unfold Znearest. rewrite (Zfloor_imp 16777215) by (simpl; lra).
        rewrite Rcompare_Eq by lra. change (negb (Z.even 16777215)) with true. cbn iota.
        rewrite Zceil_floor_neq; rewrite (Zfloor_imp 16777215) by (simpl; lra); [|lra].
        simpl. lra. }
    rewrite E. apply (Ztrunc_IZR 1).
  - unfold round_half_away. rewrite Rlt_bool_false by (unfold pred_half; lra).
    apply Zfloor_imp. unfold pred_half. rewrite Hb25. simpl. lra.
Qed.
