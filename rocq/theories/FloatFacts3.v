(** FloatFacts3.v -- non-finite floats, overflow, and the vector rounding of large values. *)
From Coq Require Import ZArith List Lia Bool Reals Lra.
From Flocq Require Import Core BinarySingleNaN Binary Bits.
From Verif Require Import Base Floats Dtypes Spec FloatFacts FloatFacts2.
Local Open Scope R_scope.

Lemma finite_dec x : {finite x} + {~ finite x}.
Proof. unfold finite. destruct (is_finite 24 128 x); auto. Qed.

(** value and finiteness of a product, sum: either no overflow, or an infinity of the right sign *)
Lemma fmul_cases x y : finite x -> finite y ->
  (finite (fmul x y) /\ val (fmul x y) = RN32 (val x * val y) /\ Rabs (RN32 (val x * val y)) < max32) \/
  (fmul x y = B754_infinity 24 128 (xorb (Bsign 24 128 x) (Bsign 24 128 y)) /\ max32 <= Rabs (RN32 (val x * val y))).
Proof.
  intros Fx Fy. destruct (Rlt_or_le (Rabs (RN32 (val x * val y))) max32) as [H|H].
  - left. destruct (fmul_ok x y Fx Fy H). auto.
  - right. split; auto. unfold fmul, b32_mult.
    match goal with |- Bmult _ _ ?a ?b ?c ?d _ _ = _ => pose proof (Bmult_correct 24 128 a b c d x y) as C end.
    change (SpecFloat.emin 24 128) with (-149)%Z in C. cbn [round_mode] in C.
    unfold val, RN32, max32, finite in *. rewrite Rlt_bool_false in C by exact H.
    match type of C with B2FF _ _ ?t = _ => destruct t; cbn in C; try discriminate C end. injection C as ->. reflexivity.
Qed.
Lemma fadd_cases x y : finite x -> finite y ->
  (finite (fadd x y) /\ val (fadd x y) = RN32 (val x + val y) /\ Rabs (RN32 (val x + val y)) < max32) \/
  (~ finite (fadd x y) /\ max32 <= Rabs (RN32 (val x + val y))).
Proof.
  intros Fx Fy. destruct (Rlt_or_le (Rabs (RN32 (val x + val y))) max32) as [H|H].
  - left. destruct (fadd_ok x y Fx Fy H). auto.
  - right. split; auto. unfold fadd, b32_plus.
    match goal with |- ~ finite (Bplus _ _ ?a ?b ?c ?d _ _) => pose proof (Bplus_correct 24 128 a b c d x y Fx Fy) as C end.
    change (SpecFloat.emin 24 128) with (-149)%Z in C. cbn [round_mode] in C.
    unfold val, RN32, max32, finite in *. rewrite Rlt_bool_false in C by exact H. destruct C as [C _].
    match type of C with B2FF _ _ ?t = _ => destruct t; cbn in C; try discriminate C end. intros N; discriminate N.
Qed.

Lemma fadd_nonfinite x y : ~ finite x -> finite y -> ~ finite (fadd x y).
Proof. unfold finite. destruct x, y; cbn; intros; try congruence. Qed.
Lemma fmul_nonfinite x y : ~ finite x -> finite y -> val y <> 0 -> ~ finite (fmul x y).
Proof. unfold finite, val. destruct x, y; cbn; intros; try congruence. Qed.

Lemma f_to_Z_nonfinite x : ~ finite x -> f_to_Z x = None.
Proof. unfold f_to_Z, ffinite, finite. destruct (is_finite 24 128 x); congruence. Qed.
Lemma fround_nonfinite x : ~ finite x -> ~ finite (fround x).
Proof. unfold finite. destruct x; cbn; intros; congruence. Qed.
Lemma cvttps_nonfinite x : ~ finite x -> cvttps x = (-2147483648)%Z.
Proof. intros H. unfold cvttps. rewrite f_to_Z_nonfinite; auto. Qed.

(** floats at or above 2^24: adding one half does nothing *)
Lemma RN32_add_half y : fmt32 y -> bpow radix2 24 <= y -> RN32 (y + / 2) = y.
Proof.
  intros F H. assert (H24 : 0 < bpow radix2 24) by apply bpow_gt_0.
  assert (Hy : y <> 0) by lra.
  set (e := cexp radix2 fexp32 y) in *.
  assert (Hm : (25 <= mag radix2 y)%Z) by (apply mag_ge_bpow; rewrite Rabs_pos_eq by lra; exact H).
  assert (He : (1 <= e)%Z) by (unfold e, cexp, FLT_exp; lia).
  assert (Em : mag radix2 (y + / 2) = mag radix2 y :> Z).
  { apply mag_unique. destruct (mag radix2 y) as [k Hk]. cbn [mag_val] in *. specialize (Hk Hy).
    rewrite Rabs_pos_eq in * by lra. split; [lra|].
    (* y is an integer below 2^k, so y + 1 <= 2^k *)
    assert (E : y = IZR (Ztrunc y)) by (apply big_int; auto; rewrite Rabs_pos_eq by lra; apply Rle_trans with (bpow radix2 24); auto; apply bpow_le; lia).
    destruct Hk as [_ Hk]. rewrite E in Hk |- *. rewrite <- (IZR_Zpower radix2) in * by lia.
    apply lt_IZR in Hk. assert (IZR (Ztrunc y) + 1 <= IZR (Z.pow radix2 k)) by (rewrite <- plus_IZR; apply IZR_le; lia). lra. }
  unfold RN32, round, scaled_mantissa. unfold cexp in *. rewrite Em. fold e.
  assert (Ey : y = F2R (Float radix2 (Ztrunc (scaled_mantissa radix2 fexp32 y)) e)) by exact F.
  set (m := Ztrunc (scaled_mantissa radix2 fexp32 y)) in *. clearbody m. 
  rewrite (Znearest_imp _ _ m); [symmetry; exact Ey|].
  rewrite Ey. unfold F2R. cbn [Fnum Fexp]. rewrite Rmult_plus_distr_r, Rmult_assoc, <- bpow_plus, Z.add_opp_diag_r. cbn [bpow]. rewrite Rmult_1_r.
  replace (IZR m + / 2 * bpow radix2 (- e) - IZR m) with (/ 2 * bpow radix2 (- e)) by ring.
  rewrite Rabs_pos_eq by (pose proof (bpow_gt_0 radix2 (-e)); lra).
  assert (bpow radix2 (- e) <= bpow radix2 (-1)) by (apply bpow_le; lia). change (bpow radix2 (-1)) with (/ 2) in *. lra.
Qed.

Lemma vround_R_huge y : fmt32 y -> bpow radix2 24 <= Rabs y -> vround_R y = Ztrunc y /\ round_half_away y = Ztrunc y /\ y = IZR (Ztrunc y).
Proof.
  intros F H. assert (H24 : 0 < bpow radix2 24) by apply bpow_gt_0.
  assert (E : y = IZR (Ztrunc y)).
  { apply big_int; auto. apply Rle_trans with (bpow radix2 24); auto. apply bpow_le; lia. }
  repeat split; auto.
  - unfold vround_R. destruct (Rle_bool_spec 0 y).
    + rewrite RN32_add_half; auto. rewrite Rabs_pos_eq in H; auto.
    + rewrite Rabs_left in H by auto. replace (y + - / 2) with (- (- y + / 2)) by lra.
      rewrite RN32_opp, RN32_add_half; auto; [f_equal; lra|]. apply generic_format_opp; auto.
  - rewrite E at 1. apply rha_IZR.
Qed.

(** x86 rounding of any scaled value: [p] is the float product *)
Definition vec_int (p : f32) : Z := cvttps (fadd p (if fge p f_zero then f_half else f_nhalf)).

Lemma vec_int_nonfinite p : ~ finite p -> vec_int p = (-2147483648)%Z.
Proof.
  intros H. apply cvttps_nonfinite. apply fadd_nonfinite; auto. destruct (fge p f_zero); [apply f_half_ok|apply f_nhalf_ok].
Qed.

Lemma fmt32_bpow e : (-149 <= e)%Z -> fmt32 (bpow radix2 e).
Proof. intros H. apply generic_format_bpow. unfold FLT_exp. lia. Qed.

Lemma vec_int_finite p : finite p -> Rabs (val p) < bpow radix2 31 -> (Z.abs (vround_R (val p)) < 2 ^ 31)%Z /\ vec_int p = vround_R (val p).
Proof.
  intros F H. pose proof (val_fmt p) as Fm. set (y := val p) in *.
  assert (HV : (Z.abs (vround_R y) < 2 ^ 31)%Z).
  { destruct (Rlt_or_le (Rabs y) (bpow radix2 24)) as [L|G].
    - assert (Z.abs (vround_R y) <= 2 ^ 25)%Z; [|lia].
      assert (Hc : forall c, Rabs c <= 1 -> Rabs (RN32 (y + c)) <= bpow radix2 25).
      { intros c Hc. apply Rabs_le. assert (F25 : fmt32 (bpow radix2 25)) by (apply fmt32_bpow; lia).
        apply Rabs_def2 in L. assert (-1 <= c <= 1) by (apply Rabs_le_inv; auto).
        assert (bpow radix2 25 = 2 * bpow radix2 24) by (change 25%Z with (1 + 24)%Z; rewrite bpow_plus; reflexivity).
        assert (1 <= bpow radix2 24) by (change 1 with (bpow radix2 0); apply bpow_le; lia).
        split; [rewrite <- (RN32_fmt _ F25), <- RN32_opp|rewrite <- (RN32_fmt _ F25)]; apply RN32_le; lra. }
      assert (Hz : forall c, Rabs c <= 1 -> (Z.abs (Ztrunc (RN32 (y + c))) <= 2 ^ 25)%Z).
      { intros c Hcc. rewrite <- Ztrunc_abs. rewrite <- (Ztrunc_IZR (2 ^ 25)). apply Ztrunc_le. apply Hc; auto. }
      unfold vround_R. destruct (Rle_bool 0 y); apply Hz; [rewrite Rabs_pos_eq; lra|rewrite Rabs_Ropp, Rabs_pos_eq; lra].
    - destruct (vround_R_huge y Fm G) as (-> & _ & E). apply lt_IZR. rewrite abs_IZR, <- E. exact H. }
  split; auto.
  destruct f_zero_ok as [F0 E0]. unfold vec_int. rewrite fge_ok, E0 by auto. fold y.
  assert (C : forall h c, finite h -> val h = c -> vround_R y = Ztrunc (RN32 (y + c)) -> cvttps (fadd p h) = vround_R y).
  { intros h c Fh Eh Ev. destruct (fadd_cases p h F Fh) as [(Fa & Ea & _)|[_ B]]; [rewrite Eh in Ea; fold y in Ea|rewrite Eh in B; fold y in B].
    - unfold cvttps. rewrite f_to_Z_finite by auto. rewrite Ea, <- Ev.
      unfold in_i32. destruct (Z.leb_spec (-2147483648) (vround_R y)), (Z.leb_spec (vround_R y) 2147483647); cbn [andb]; auto; lia.
    - exfalso. assert (Rabs (RN32 (y + c)) < bpow radix2 32); [|unfold max32 in B; assert (bpow radix2 32 < bpow radix2 128) by (apply bpow_lt; lia); lra].
      assert (IZR (Z.abs (Ztrunc (RN32 (y + c)))) <= IZR (2 ^ 31)) by (apply IZR_le; rewrite <- Ev; lia).
      rewrite <- Ztrunc_abs, Ztrunc_floor in H0 by apply Rabs_pos. pose proof (Zfloor_ub (Rabs (RN32 (y + c)))).
      change (bpow radix2 32) with (IZR (2 ^ 32)). change (IZR (2 ^ 31)) with 2147483648 in *. change (IZR (2 ^ 32)) with 4294967296. lra. }
  unfold vround_R in *. destruct (Rle_bool 0 y).
  - apply (C _ (/ 2)); auto; apply f_half_ok.
  - apply (C _ (- / 2)); auto; apply f_nhalf_ok.
Qed.

Lemma vec_int_big p : finite p -> bpow radix2 31 <= Rabs (val p) -> vec_int p = (-2147483648)%Z.
Proof.
  intros F H. pose proof (val_fmt p) as Fm. set (y := val p) in *.
  assert (F31 : fmt32 (bpow radix2 31)) by (apply fmt32_bpow; lia).
  assert (H31 : bpow radix2 31 = IZR 2147483648) by reflexivity.
  destruct f_zero_ok as [F0 E0]. unfold vec_int. rewrite fge_ok, E0 by auto. fold y.
  assert (C : forall h c, finite h -> val h = c -> bpow radix2 31 <= Rabs (RN32 (y + c)) -> cvttps (fadd p h) = (-2147483648)%Z).
  { intros h c Fh Eh Hb. destruct (fadd_cases p h F Fh) as [(Fa & Ea & _)|[N _]]; [|apply cvttps_nonfinite; auto].
    rewrite Eh in Ea. fold y in Ea. unfold cvttps. rewrite f_to_Z_finite by auto. rewrite Ea.
    assert (HZ : (2147483648 <= Z.abs (Ztrunc (RN32 (y + c))))%Z).
    { rewrite <- Ztrunc_abs. rewrite <- (Ztrunc_IZR 2147483648). apply Ztrunc_le. rewrite <- H31. auto. }
    unfold in_i32. set (z := Ztrunc _) in *. clearbody z. 
    destruct (Z.leb_spec (-2147483648) z), (Z.leb_spec z 2147483647); cbn [andb]; auto; lia. }
  assert (P : 0 < bpow radix2 31) by apply bpow_gt_0.
  destruct (Rle_bool_spec 0 y) as [Hy|Hy].
  - apply (C _ (/ 2)); try apply f_half_ok. rewrite Rabs_pos_eq in H by auto.
    assert (bpow radix2 31 <= RN32 (y + / 2)) by (rewrite <- (RN32_fmt _ F31) at 1; apply RN32_le; lra). rewrite Rabs_pos_eq; lra.
  - apply (C _ (- / 2)); try apply f_nhalf_ok. rewrite Rabs_left in H by auto.
    assert (RN32 (y + - / 2) <= - bpow radix2 31) by (rewrite <- (RN32_fmt _ F31) at 1; rewrite <- RN32_opp; apply RN32_le; lra).
    rewrite Rabs_left; lra.
Qed.
