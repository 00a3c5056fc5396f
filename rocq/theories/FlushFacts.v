(** FlushFacts.v -- with a scale in [2^-60, 2^126] the flushing kernels of Flush.v are the kernels of QuantKernels.v and DequantKernels.v. *)
From Coq Require Import ZArith List Lia Bool Reals Lra Psatz FunctionalExtensionality.
From Flocq Require Import Core BinarySingleNaN Binary Bits.
From Verif Require Import Base Floats Simd Dtypes QuantKernels DequantKernels Context MinMax Spec FloatFacts FloatFacts2 FloatFacts3 Flush.
Import ListNotations.
Local Open Scope R_scope.

(** ** Subnormal numbers *)
Definition minn : R := bpow radix2 (-126).
Lemma minn_pos : 0 < minn. Proof. apply bpow_gt_0. Qed.

Lemma minn_eq : minn = IZR 8388608 * bpow radix2 (-149).
Proof. unfold minn. replace (-126)%Z with (23 + -149)%Z by reflexivity. rewrite bpow_plus. reflexivity. Qed.
Lemma bounded_exp mm e : SpecFloat.bounded 24 128 mm e = true -> e = Z.max (Zdigits radix2 (Zpos mm) + e - 24) (-149).
Proof.
  unfold SpecFloat.bounded. intros H. apply andb_prop in H. destruct H as [H _]. unfold SpecFloat.canonical_mantissa in H. apply Zeq_bool_eq in H.
  rewrite Zpos_digits2_pos in H. unfold SpecFloat.fexp, SpecFloat.emin in H. lia.
Qed.
Lemma sub_true x : subnormal32 x = true -> finite x /\ val x <> 0 /\ Rabs (val x) < minn.
Proof.
  destruct x as [s|s|s pl H|s mm e H]; cbn [subnormal32]; try discriminate. intros L. apply Z.ltb_lt in L. split; [reflexivity|].
  pose proof (bounded_exp mm e H) as C. unfold val. cbn [B2R]. split.
  - destruct s; cbn; intros E; apply eq_0_F2R in E; lia.
  - rewrite <- F2R_Zabs, abs_cond_Zopp. cbn [Z.abs].
    assert (e = -149)%Z as ->.
    { assert (Zdigits radix2 (Zpos mm) <= 23)%Z by (apply Zdigits_le_Zpower; cbn [Z.abs]; exact L). lia. }
    rewrite minn_eq. unfold F2R. cbn [Fnum Fexp].
    apply Rmult_lt_compat_r; [apply bpow_gt_0|]. apply IZR_lt. exact L.
Qed.
Lemma sub_false x : finite x -> subnormal32 x = false -> val x = 0 \/ minn <= Rabs (val x).
Proof.
  destruct x as [s|s|s pl H|s mm e H]; cbn [subnormal32]; try discriminate; intros _ L; [left; reflexivity|right].
  apply Z.ltb_ge in L. unfold val. cbn [B2R]. rewrite <- F2R_Zabs, abs_cond_Zopp. cbn [Z.abs].
  assert (-149 <= e)%Z.
  { pose proof (bounded_exp mm e H). lia. }
  rewrite minn_eq. unfold F2R. cbn [Fnum Fexp].
  apply Rmult_le_compat; try apply bpow_ge_0.
  - apply IZR_le. lia.
  - apply IZR_le. exact L.
  - apply bpow_le. exact H0.
Qed.
Lemma sub_iff x : finite x -> (subnormal32 x = true <-> val x <> 0 /\ Rabs (val x) < minn).
Proof.
  intros F. split; [intros E; apply sub_true in E; tauto|]. intros [N L]. destruct (subnormal32 x) eqn:E; auto.
  destruct (sub_false x F E); [tauto|lra].
Qed.
Lemma fl_id x : (finite x -> val x = 0 \/ minn <= Rabs (val x)) -> fl32 x = x.
Proof.
  intros H. unfold fl32. destruct (subnormal32 x) eqn:E; auto. apply sub_true in E. destruct E as (F & N & L). destruct (H F); [tauto|lra].
Qed.
Lemma fl_finite x : finite x -> finite (fl32 x).
Proof. intros F. unfold fl32. destruct subnormal32; auto. reflexivity. Qed.
Lemma fl_nonfinite x : ~ finite x -> fl32 x = x.
Proof. intros F. apply fl_id. tauto. Qed.
Lemma fin_id m x : fl32 x = x -> fin32 m x = x.
Proof. unfold fin32. intros ->. destruct daz; reflexivity. Qed.
Lemma fin_cases m x : fin32 m x = x \/ (subnormal32 x = true /\ fin32 m x = B754_zero 24 128 (Bsign 24 128 x)).
Proof. unfold fin32, fl32. destruct (daz m), (subnormal32 x) eqn:E; auto. Qed.

(** ** Results that are kept *)
Definition fits (md : mode) (e : R) (r : f32) : Prop :=
  if Rlt_bool (Rabs (round radix2 fexp32 (round_mode md) e)) (bpow radix2 128)
  then val r = round radix2 fexp32 (round_mode md) e /\ finite r
  else subnormal32 r = false /\ is_zero32 r = false.
Lemma zero_is x : is_zero32 x = true -> finite x /\ val x = 0.
Proof. destruct x; cbn [is_zero32]; try discriminate. intros _. split; reflexivity. Qed.
Lemma is_zero_val x : finite x -> val x = 0 -> is_zero32 x = true.
Proof.
  destruct x as [s|s|s pl H|s mm e H]; cbn; try discriminate; auto. intros _ E. unfold val in E. cbn in E.
  apply eq_0_F2R in E. destruct s; cbn in E; lia.
Qed.
Global Instance vrnd_mode md : Valid_rnd (round_mode md).
Proof. destruct md; cbn; auto with typeclass_instances. Qed.
Lemma round_minn md : round radix2 fexp32 (round_mode md) minn = minn.
Proof. apply round_generic; auto with typeclass_instances. apply fmt32_bpow. lia. Qed.
Lemma round_nminn md : round radix2 fexp32 (round_mode md) (- minn) = - minn.
Proof. apply round_generic; auto with typeclass_instances. apply generic_format_opp, fmt32_bpow. lia. Qed.
Lemma round_big md e : minn <= Rabs e -> minn <= Rabs (round radix2 fexp32 (round_mode md) e).
Proof.
  intros H. pose proof minn_pos. destruct (Rle_or_lt 0 e) as [P|P].
  - rewrite Rabs_pos_eq in H by auto. assert (minn <= round radix2 fexp32 (round_mode md) e).
    { rewrite <- (round_minn md). apply round_le; auto with typeclass_instances. }
    rewrite Rabs_pos_eq; lra.
  - rewrite Rabs_left in H by auto. assert (round radix2 fexp32 (round_mode md) e <= - minn).
    { rewrite <- (round_nminn md). apply round_le; auto with typeclass_instances. lra. }
    rewrite Rabs_left; lra.
Qed.
Definition normalish (e : R) : Prop := e = 0 \/ minn <= Rabs e.
Lemma fout_keep m e rz r : fits mode_ZR e rz -> fits mode_NE e r -> normalish e -> fout32 m rz r = r.
Proof.
  intros Hz Hr N. unfold fout32.
  assert (S1 : subnormal32 r = false).
  { unfold fits in Hr. destruct Rlt_bool; [|tauto]. destruct Hr as [V F]. destruct (subnormal32 r) eqn:E; auto. apply sub_true in E. destruct E as (_ & E1 & E2).
    destruct N as [->|N]; [rewrite round_0 in V by auto with typeclass_instances; tauto|]. apply (round_big mode_NE) in N. rewrite V in E2. lra. }
  destruct (ftz m); [reflexivity|unfold fl32; rewrite S1; reflexivity|].
  destruct N as [->|N].
  - unfold fits in Hr. rewrite round_0, Rabs_R0, Rlt_bool_true in Hr by (auto with typeclass_instances; apply bpow_gt_0). destruct Hr as [V F].
    destruct (subnormal32 rz || is_zero32 rz); auto. apply is_zero_val in V; auto. destruct r; try discriminate. reflexivity.
  - assert (subnormal32 rz = false /\ is_zero32 rz = false) as [-> ->]; [|reflexivity].
    unfold fits in Hz. destruct Rlt_bool; [|tauto]. destruct Hz as [V F]. apply (round_big mode_ZR) in N. pose proof minn_pos. split.
    + destruct (subnormal32 rz) eqn:E; auto. apply sub_true in E. rewrite V in E. lra.
    + destruct (is_zero32 rz) eqn:E; auto. apply zero_is in E. destruct E as [_ E]. rewrite <- V, E, Rabs_R0 in N. lra.
Qed.

Lemma overflow_fits md s r : B2FF 24 128 r = binary_overflow 24 128 md s -> subnormal32 r = false /\ is_zero32 r = false.
Proof.
  unfold binary_overflow, BinarySingleNaN.binary_overflow. change (Z.to_pos (2 ^ 24 - 1)) with 16777215%positive.
  destruct (overflow_to_inf md s); destruct r; cbn [B2FF SF2FF]; try discriminate; auto.
  intros E. injection E as _ E _. cbn [subnormal32 is_zero32]. rewrite E. auto.
Qed.
Ltac op_fits C := cbv zeta in C; unfold fits, val, finite; change (FLT_exp (-149) 24) with (SpecFloat.fexp 24 128);
  destruct Rlt_bool; [destruct C as (C1 & C2 & _); split; [exact C1|]|].
Lemma fmul_fits md a b : finite a -> finite b -> fits md (val a * val b) (b32_mult md a b).
Proof.
  intros Fa Fb. unfold b32_mult. match goal with |- fits _ _ (Bmult _ _ ?p ?q ?n _ _ _) => pose proof (Bmult_correct 24 128 p q n md a b) as C end.
  op_fits C.
  - rewrite C2. unfold finite in *. rewrite Fa, Fb. reflexivity.
  - eapply overflow_fits. exact C.
Qed.
Lemma fadd_fits md a b : finite a -> finite b -> fits md (val a + val b) (b32_plus md a b).
Proof.
  intros Fa Fb. unfold b32_plus. match goal with |- fits _ _ (Bplus _ _ ?p ?q ?n _ _ _) => pose proof (Bplus_correct 24 128 p q n md a b Fa Fb) as C end.
  op_fits C; [exact C2|]. destruct C as [C _]. eapply overflow_fits. exact C.
Qed.
Lemma fsub_fits md a b : finite a -> finite b -> fits md (val a - val b) (b32_minus md a b).
Proof.
  intros Fa Fb. unfold b32_minus. match goal with |- fits _ _ (Bminus _ _ ?p ?q ?n _ _ _) => pose proof (Bminus_correct 24 128 p q n md a b Fa Fb) as C end.
  op_fits C; [exact C2|]. destruct C as [C _]. eapply overflow_fits. exact C.
Qed.
Lemma fdiv_fits md a b : finite a -> val b <> 0 -> fits md (val a / val b) (b32_div md a b).
Proof.
  intros Fa Fb. unfold b32_div. match goal with |- fits _ _ (Bdiv _ _ ?p ?q ?n _ _ _) => pose proof (Bdiv_correct 24 128 p q n md a b Fb) as C end.
  op_fits C.
  - rewrite C2. exact Fa.
  - eapply overflow_fits. exact C.
Qed.
Lemma ffma_fits md a b c : finite a -> finite b -> finite c -> fits md (val a * val b + val c) (b32_fma md a b c).
Proof.
  intros Fa Fb Fc. unfold b32_fma. match goal with |- fits _ _ (Bfma _ _ ?p ?q ?n _ _ _ _) => pose proof (Bfma_correct 24 128 p q n md a b c Fa Fb Fc) as C end.
  op_fits C; [exact C2|]. eapply overflow_fits. exact C.
Qed.

Lemma fout_nonfinite m rz r : ~ finite r -> subnormal32 rz = false -> is_zero32 rz = false -> fout32 m rz r = r.
Proof.
  intros N S Zr. unfold fout32. destruct (ftz m); auto; [apply fl_nonfinite; auto|]. rewrite S, Zr. reflexivity.
Qed.
Lemma nonfinite_mul md a b : ~ (finite a /\ finite b) ->
  ~ finite (b32_mult md a b) /\ subnormal32 (b32_mult md a b) = false /\ is_zero32 (b32_mult md a b) = false.
Proof.
  unfold finite. destruct a, b; cbn; intros H; try (exfalso; apply H; split; reflexivity); try (repeat split; auto; discriminate).
Qed.
Lemma nonfinite_add md a b : ~ (finite a /\ finite b) ->
  ~ finite (b32_plus md a b) /\ subnormal32 (b32_plus md a b) = false /\ is_zero32 (b32_plus md a b) = false.
Proof.
  unfold finite. destruct a as [|sa| |], b as [|sb| |]; cbn; intros H; try (exfalso; apply H; split; reflexivity); try (repeat split; auto; discriminate).
  destruct sa, sb; cbn; repeat split; auto; discriminate.
Qed.
Lemma both_dec a b : {finite a /\ finite b} + {~ (finite a /\ finite b)}.
Proof. destruct (finite_dec a), (finite_dec b); [left; auto|right; tauto..]. Qed.

Lemma fmul_keep m a b : fl32 a = a -> fl32 b = b -> (finite a -> finite b -> normalish (val a * val b)) -> fmul_z m a b = fmul a b.
Proof.
  intros Ea Eb H. unfold fmul_z, op32, fmul. rewrite !fin_id by auto. destruct (both_dec a b) as [[Fa Fb]|N].
  - apply fout_keep with (val a * val b); auto using fmul_fits.
  - destruct (nonfinite_mul mode_ZR a b N) as (_ & S & Zr). destruct (nonfinite_mul mode_NE a b N) as (N' & _). apply fout_nonfinite; auto.
Qed.
Lemma fadd_keep m a b : fl32 a = a -> fl32 b = b -> (finite a -> finite b -> normalish (val a + val b)) -> fadd_z m a b = fadd a b.
Proof.
  intros Ea Eb H. unfold fadd_z, op32, fadd. rewrite !fin_id by auto. destruct (both_dec a b) as [[Fa Fb]|N].
  - apply fout_keep with (val a + val b); auto using fadd_fits.
  - destruct (nonfinite_add mode_ZR a b N) as (_ & S & Zr). destruct (nonfinite_add mode_NE a b N) as (N' & _). apply fout_nonfinite; auto.
Qed.
Lemma fsub_keep m a b : fl32 a = a -> fl32 b = b -> finite a -> finite b -> normalish (val a - val b) -> fsub_z m a b = fsub a b.
Proof.
  intros Ea Eb Fa Fb H. unfold fsub_z, op32, fsub. rewrite !fin_id by auto. apply fout_keep with (val a - val b); auto using fsub_fits.
Qed.
Lemma fdiv_keep m a b : fl32 a = a -> fl32 b = b -> finite a -> val b <> 0 -> normalish (val a / val b) -> fdiv_z m a b = fdiv a b.
Proof.
  intros Ea Eb Fa Fb H. unfold fdiv_z, op32, fdiv. rewrite !fin_id by auto. apply fout_keep with (val a / val b); auto using fdiv_fits.
Qed.
Lemma ffma_keep m a b c : fl32 a = a -> fl32 b = b -> fl32 c = c -> finite a -> finite b -> finite c -> normalish (val a * val b + val c) ->
  ffma_z m a b c = ffma a b c.
Proof.
  intros Ea Eb Ec Fa Fb Fc H. unfold ffma_z, ffma. rewrite !fin_id by auto. apply fout_keep with (val a * val b + val c); auto using ffma_fits.
Qed.

(** ** Small products *)
Definition small (x : f32) : Prop := finite x /\ Rabs (val x) <= bpow radix2 (-65).
Definition good_inv (inv : f32) : Prop := finite inv /\ minn <= val inv <= bpow radix2 60.
Lemma good_inv_fl inv : good_inv inv -> fl32 inv = inv.
Proof. intros [F [H _]]. apply fl_id. intros _. right. pose proof minn_pos. rewrite Rabs_pos_eq; lra. Qed.
Lemma zero_val s : val (B754_zero 24 128 s) = 0. Proof. reflexivity. Qed.
Lemma fl_abs x : finite x -> finite (fl32 x) /\ Rabs (val (fl32 x)) <= Rabs (val x).
Proof.
  intros F. split; [apply fl_finite; auto|]. unfold fl32. destruct subnormal32; [|lra]. rewrite zero_val, Rabs_R0. apply Rabs_pos.
Qed.
Lemma fin_abs m x : finite x -> finite (fin32 m x) /\ Rabs (val (fin32 m x)) <= Rabs (val x).
Proof. intros F. unfold fin32. destruct daz; [apply fl_abs; auto|split; [auto|lra]]. Qed.
Lemma fout_abs m rz r : finite r -> finite (fout32 m rz r) /\ Rabs (val (fout32 m rz r)) <= Rabs (val r).
Proof.
  intros F. unfold fout32. destruct (ftz m); [split; [auto|lra]|apply fl_abs; auto|].
  destruct (subnormal32 rz || is_zero32 rz); [|split; [auto|lra]]. rewrite zero_val, Rabs_R0. split; [reflexivity|apply Rabs_pos].
Qed.
Lemma fout_small m rz r : small r -> small (fout32 m rz r).
Proof. intros [F H]. destruct (fout_abs m rz r F). split; [auto|lra]. Qed.
Lemma bpow_max e : (e < 128)%Z -> bpow radix2 e < max32.
Proof. intros H. apply bpow_lt. exact H. Qed.
Lemma RN32_abs_le e k : (-149 <= k)%Z -> Rabs e <= bpow radix2 k -> Rabs (RN32 e) <= bpow radix2 k.
Proof. intros Hk H. apply abs_round_le_generic; auto with typeclass_instances. apply fmt32_bpow. exact Hk. Qed.
Lemma fmul_small a b : finite a -> finite b -> Rabs (val a * val b) <= bpow radix2 (-65) -> small (fmul a b).
Proof.
  intros Fa Fb H. apply RN32_abs_le in H; [|lia]. destruct (fmul_ok a b Fa Fb) as [F V].
  - eapply Rle_lt_trans; [exact H|]. apply bpow_max. lia.
  - split; [exact F|]. rewrite V. exact H.
Qed.
Lemma fmul_z_cases m x inv : good_inv inv -> fmul_z m x inv = fmul x inv \/ (small (fmul_z m x inv) /\ small (fmul x inv)).
Proof.
  intros G. pose proof (good_inv_fl inv G) as Ei. destruct G as [Fi [L U]]. pose proof minn_pos as M.
  assert (B : forall e, Rabs e < minn -> Rabs (e * val inv) <= bpow radix2 (-65)).
  { intros e He. rewrite Rabs_mult, (Rabs_pos_eq (val inv)) by lra.
    apply Rle_trans with (minn * bpow radix2 60); [apply Rmult_le_compat; try apply Rabs_pos; lra|].
    unfold minn. rewrite <- bpow_plus. apply bpow_le. lia. }
  destruct (subnormal32 x) eqn:S.
  - right. apply sub_true in S. destruct S as (F & _ & Lx). split; [|apply fmul_small; auto].
    unfold fmul_z, op32. apply fout_small. rewrite (fin_id m inv Ei). destruct (fin_abs m x F) as [F' A]. apply fmul_small; auto. apply B. lra.
  - assert (Ex : fl32 x = x) by (unfold fl32; rewrite S; reflexivity).
    destruct (finite_dec x) as [F|N].
    + destruct (Rle_or_lt minn (Rabs (val x * val inv))) as [H|H].
      * left. apply fmul_keep; auto. intros _ _. right. exact H.
      * assert (small (fmul x inv)).
        { apply fmul_small; auto. apply Rle_trans with minn; [lra|]. apply bpow_le. lia. }
        right. split; [|exact H0]. unfold fmul_z, op32. rewrite !fin_id by auto. apply fout_small. exact H0.
    + left. apply fmul_keep; tauto.
Qed.

(** ** The rounding lanes *)
Definition vec_int_z (m : fmode) (p : f32) : Z := cvttps (fadd_z m p (if fge_z m p f_zero then f_half else f_nhalf)).
Lemma vec_int_ieee p : vec_int_z ieee_mode p = vec_int p. Proof. reflexivity. Qed.
Lemma f_zero_fl : fl32 f_zero = f_zero. Proof. reflexivity. Qed.
Lemma f_half_fl : fl32 f_half = f_half. Proof. reflexivity. Qed.
Lemma f_nhalf_fl : fl32 f_nhalf = f_nhalf. Proof. reflexivity. Qed.
Lemma cvttps_frac x : finite x -> Rabs (val x) < 1 -> cvttps x = 0%Z.
Proof.
  intros F H. unfold cvttps. rewrite f_to_Z_finite by auto.
  assert (Ztrunc (val x) = 0%Z) as ->; [|reflexivity].
  apply Rabs_def2 in H. destruct (Rle_or_lt 0 (val x)).
  - rewrite Ztrunc_floor by auto. apply Zfloor_imp. cbn. lra.
  - rewrite Ztrunc_ceil by lra. apply Zceil_imp. cbn. lra.
Qed.
Lemma b65 : 0 < bpow radix2 (-65) < / 4.
Proof.
  split; [apply bpow_gt_0|]. change (/ 4)%R with (bpow radix2 (-2)). apply bpow_lt. lia.
Qed.
Lemma fadd_z_lt1 m p h : finite p -> finite h -> fl32 h = h -> Rabs (val p) <= / 4 -> Rabs (val h) = / 2 ->
  finite (fadd_z m p h) /\ Rabs (val (fadd_z m p h)) < 1.
Proof.
  intros Fp Fh Eh Hp Hh. unfold fadd_z, op32. rewrite (fin_id m h Eh). destruct (fin_abs m p Fp) as [F A].
  assert (K : fmt32 (3 / 4)).
  { replace (3 / 4) with (F2R (Float radix2 3 (-2))) by (unfold F2R; cbn; lra). apply fmt32_F2R; cbn; lia. }
  assert (B : Rabs (RN32 (val (fin32 m p) + val h)) <= 3 / 4).
  { apply abs_round_le_generic; auto with typeclass_instances. eapply Rle_trans; [apply Rabs_triang|]. lra. }
  destruct (fadd_ok (fin32 m p) h F Fh) as [F' V].
  { eapply Rle_lt_trans; [exact B|]. apply Rlt_trans with (bpow radix2 0); [cbn; lra|apply bpow_max; lia]. }
  change (b32_plus mode_NE (fin32 m p) h) with (fadd (fin32 m p) h).
  match goal with |- context [fout32 m ?rz ?r] => destruct (fout_abs m rz r F') as [F2 A2] end.
  split; auto. rewrite V in A2. lra.
Qed.
Lemma half_cases (b : bool) : let h := if b then f_half else f_nhalf in finite h /\ fl32 h = h /\ Rabs (val h) = / 2.
Proof.
  destruct b; cbv zeta; [destruct f_half_ok as [F V]|destruct f_nhalf_ok as [F V]]; rewrite V; repeat split; auto.
  - rewrite Rabs_pos_eq; lra.
  - rewrite Rabs_Ropp, Rabs_pos_eq; lra.
Qed.
Lemma vec_small m p : small p -> vec_int_z m p = 0%Z.
Proof.
  intros [F H]. pose proof b65. unfold vec_int_z. destruct (half_cases (fge_z m p f_zero)) as (Fh & Eh & Hh). cbv zeta in *.
  destruct (fadd_z_lt1 m p _ F Fh Eh ltac:(lra) Hh). apply cvttps_frac; auto.
Qed.
Lemma not_small_fl p : ~ small p -> fl32 p = p.
Proof.
  intros N. apply fl_id. intros F. right. destruct (Rle_or_lt minn (Rabs (val p))); auto. exfalso. apply N. split; auto.
  apply Rlt_le, Rlt_le_trans with minn; auto. apply bpow_le. lia.
Qed.
Lemma small_dec p : {small p} + {~ small p}.
Proof.
  destruct (finite_dec p) as [F|N]; [|right; intros [H _]; tauto].
  destruct (Rle_dec (Rabs (val p)) (bpow radix2 (-65))); [left; split; auto|right; intros [_ H]; tauto].
Qed.
Lemma fge_z_keep m p q : fl32 p = p -> fl32 q = q -> fge_z m p q = fge p q.
Proof. intros. unfold fge_z. rewrite !fin_id by auto. reflexivity. Qed.
Lemma flt_z_keep m p q : fl32 p = p -> fl32 q = q -> flt_z m p q = flt p q.
Proof. intros. unfold flt_z. rewrite !fin_id by auto. reflexivity. Qed.
Lemma vec_keep m p : vec_int_z m p = vec_int p.
Proof.
  destruct (small_dec p) as [Sp|N].
  - rewrite <- vec_int_ieee, !vec_small by auto. reflexivity.
  - pose proof (not_small_fl p N) as E. unfold vec_int_z, vec_int. rewrite fge_z_keep by auto using f_zero_fl.
    destruct (half_cases (fge p f_zero)) as (Fh & Eh & _). cbv zeta in *. rewrite fadd_keep; auto. intros Fp _. right.
    destruct f_zero_ok as [F0 V0]. rewrite fge_ok, V0 by auto. pose proof minn_pos.
    assert (minn <= / 2) by (change (/ 2)%R with (bpow radix2 (-1)); apply bpow_le; lia).
    destruct (Rle_bool_spec 0 (val p)).
    + destruct f_half_ok as [_ ->]. rewrite Rabs_pos_eq; lra.
    + destruct f_nhalf_ok as [_ ->]. rewrite Rabs_left; lra.
Qed.
Lemma vec_lane m x inv : good_inv inv -> vec_int_z m (fmul_z m x inv) = vec_int (fmul x inv).
Proof.
  intros G. destruct (fmul_z_cases m x inv G) as [E|[S1 S2]].
  - rewrite E. apply vec_keep.
  - rewrite vec_small by auto. rewrite <- vec_int_ieee, vec_small by auto. reflexivity.
Qed.
Lemma vround_keep m n inv zp : good_inv inv -> vround_z m n inv zp = vround n inv zp.
Proof.
  intros G. extensionality xf. unfold vround_z, vround. cbv zeta. f_equal. revert xf. induction n as [|n IH]; intros [|x xf]; try reflexivity.
  cbn [set1 repeat mul_ps_z mul_ps map2 add_ps_z add_ps cmpge_ps_z cmpge_ps blendv cvttps_epi32 map].
  specialize (IH xf). f_equal; [apply (vec_lane m x inv G)|exact IH].
Qed.

(** ** Scalar steps *)
Lemma fround_small p : small p -> f_to_Z (fround p) = Some 0%Z.
Proof.
  intros [F H]. pose proof b65. destruct (fround_ok p F) as [F' V]. rewrite f_to_Z_finite, V by auto. rewrite Ztrunc_IZR.
  f_equal. apply Rabs_le_inv in H. pose proof (rha_error (val p)) as E. apply Rabs_le_inv in E.
  assert (-1 < round_half_away (val p) < 1)%Z; [|lia]. split; apply lt_IZR; lra.
Qed.
Lemma fround_lane m x inv : good_inv inv -> f_to_Z (fround (fmul_z m x inv)) = f_to_Z (fround (fmul x inv)).
Proof.
  intros G. destruct (fmul_z_cases m x inv G) as [->|[S1 S2]]; [reflexivity|]. rewrite !fround_small by auto. reflexivity.
Qed.
Lemma q_i32_keep m mx inv zp : good_inv inv -> q_nearest_i32_z m mx inv zp = q_nearest_i32 mx inv zp.
Proof. intros G. extensionality x. unfold q_nearest_i32_z, q_nearest_i32, f32_to_i32. rewrite fround_lane by auto. reflexivity. Qed.
Lemma q_i64_keep m mx inv zp : good_inv inv -> q_nearest_i64_z m mx inv zp = q_nearest_i64 mx inv zp.
Proof. intros G. extensionality x. unfold q_nearest_i64_z, q_nearest_i64, f32_to_i64. rewrite fround_lane by auto. reflexivity. Qed.
