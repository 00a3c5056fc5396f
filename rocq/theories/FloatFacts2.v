(** FloatFacts2.v -- more facts about the float operations: bit patterns, commutativity, NaN-freeness, exact integers. *)
From Coq Require Import ZArith List Lia Bool Reals Lra.
From Flocq Require Import Core BinarySingleNaN Binary Bits.
From Verif Require Import Base Floats Dtypes QuantKernels Spec ExecFacts FloatFacts QuantFacts DequantFacts.
Import ListNotations.
Local Open Scope Z_scope.

Lemma f32_bits_bits x : f32_of_bits (bits_of_f32 x) = x.
Proof. apply (binary_float_of_bits_of_binary_float 23 8). Qed.
Lemma bits_f32_bits u : 0 <= u < 4294967296 -> bits_of_f32 (f32_of_bits u) = u.
Proof. intros H. apply (bits_of_binary_float_of_bits 23 8). exact H. Qed.
Lemma bits_range x : 0 <= bits_of_f32 x < 4294967296.
Proof. apply (bits_of_binary_float_range 23 8); reflexivity. Qed.

Lemma le_val_le_bytes n : forall z, 0 <= z < 256 ^ Z.of_nat n -> le_val (le_bytes n z) = z.
Proof.
  induction n as [|n IH]; intros z H; [cbn; change (256 ^ Z.of_nat 0) with 1 in H; lia|].
  cbn [le_bytes le_val]. rewrite IH; [rewrite Z.add_comm; symmetry; apply Z.div_mod; lia|].
  rewrite Nat2Z.inj_succ, Z.pow_succ_r in H by lia. split; [apply Z.div_pos; lia|].
  apply Z.div_lt_upper_bound; lia.
Qed.
Lemma le_bytes_is_byte n : forall z, Forall is_byte (le_bytes n z).
Proof. induction n as [|n IH]; intros z; cbn [le_bytes]; constructor; auto. unfold is_byte. apply Z.mod_pos_bound. lia. Qed.
Lemma ld_f32_bytes x : ld_f32 (le_bytes 4 (bits_of_f32 x)) = x.
Proof. unfold ld_f32. rewrite le_val_le_bytes by apply bits_range. apply f32_bits_bits. Qed.
Lemma le_val_bytes2 b : 0 <= b < 65536 -> le_val (le_bytes 2 b) = b.
Proof. intros H. apply le_val_le_bytes. exact H. Qed.

(** NaN *)
Definition nan (x : f32) : Prop := is_nan 24 128 x = true.
Lemma finite_not_nan x : finite x -> ~ nan x.
Proof. unfold finite, nan. destruct x; cbn; congruence. Qed.

Lemma fadd_comm x y : ~ (nan x /\ nan y) -> fadd x y = fadd y x.
Proof.
  unfold nan. intros H.
  destruct x as [sx|sx|sx px Hx|sx mx ex Hx], y as [sy|sy|sy py Hy|sy my ey Hy]; cbn in H; try (exfalso; tauto); try reflexivity.
  - destruct sx, sy; reflexivity.
  - destruct sx, sy; reflexivity.
  - unfold fadd, b32_plus, Bplus. cbn [B2BSN binop_nan_pl32]. f_equal. unfold BinarySingleNaN.Bplus. cbv zeta.
    rewrite (Z.min_comm ey ex). f_equal. unfold Fplus_naive. apply Z.add_comm.
Qed.

Lemma fmul_not_nan x y : finite x -> finite y -> ~ nan (fmul x y).
Proof.
  unfold finite, nan, fmul, b32_mult. intros Hx Hy.
  pose proof (Bmult_correct 24 128 eq_refl eq_refl binop_nan_pl32 mode_NE x y) as C. cbv zeta.
  destruct (Rlt_bool _ _) in C.
  - destruct C as (_ & C & _). rewrite Hx, Hy in C. intros N. revert C. destruct (Bmult _ _ _ _ _ _ _ _); cbn in N |- *; congruence.
  - intros N. revert C. destruct (Bmult _ _ _ _ _ _ _ _); cbn in N |- *; try discriminate; unfold binary_overflow; cbn; discriminate.
Qed.

Lemma f32_of_Z_finite z : Z.abs z < 2 ^ 127 -> finite (f32_of_Z z) /\ val (f32_of_Z z) = RN32 (IZR z).
Proof.
  intros H. pose proof (binary_normalize_correct 24 128 Hprec32 Hmax32 mode_NE z 0 false) as C.
  assert (E : F2R (Float radix2 z 0) = IZR z) by (unfold F2R; cbn; ring). rewrite E in C.
  change (round radix2 (SpecFloat.fexp 24 128) (round_mode mode_NE) (IZR z)) with (RN32 (IZR z)) in C.
  rewrite Rlt_bool_true in C.
  - destruct C as (C1 & C2 & _). split; [exact C2|exact C1].
  - apply Rle_lt_trans with (bpow radix2 127); [|apply bpow_lt; lia].
    apply abs_round_le_generic; try typeclasses eauto.
    + apply generic_format_bpow. unfold FLT_exp. lia.
    + rewrite <- abs_IZR. replace (bpow radix2 127) with (IZR (2 ^ 127)) by (rewrite <- (IZR_Zpower radix2) by lia; reflexivity).
      apply IZR_le. lia.
Qed.
Lemma f32_of_Z_exact z : Z.abs z <= 2 ^ 24 -> finite (f32_of_Z z) /\ val (f32_of_Z z) = IZR z.
Proof.
  intros H. destruct (f32_of_Z_finite z) as [F V].
  { apply Z.le_lt_trans with (1 := H). reflexivity. }
  split; auto. rewrite V. apply RN32_fmt. apply fmt32_int. exact H.
Qed.

(** a finite float is determined by its value and sign *)
Lemma val_sign_inj x y : finite x -> finite y -> val x = val y -> Bsign 24 128 x = Bsign 24 128 y -> x = y.
Proof. intros. apply B2R_Bsign_inj; auto. Qed.
Lemma val_inj x y : finite x -> finite y -> val x = val y -> val x <> 0%R -> x = y.
Proof. intros Hx Hy E N. apply B2R_inj; auto; unfold finite, val in *;
  [destruct x as [s|s|s p H|s m e H]|destruct y as [s|s|s p H|s m e H]]; cbn in *; try congruence; auto. Qed.

Lemma fsub_int a b : Z.abs a <= 2 ^ 22 -> Z.abs b <= 2 ^ 22 -> fsub (f32_of_Z a) (f32_of_Z b) = f32_of_Z (a - b).
Proof.
  intros Ha Hb.
  destruct (f32_of_Z_exact a) as [Fa Va]; [lia|]. destruct (f32_of_Z_exact b) as [Fb Vb]; [lia|]. destruct (f32_of_Z_exact (a - b)) as [Fc Vc]; [lia|].
  pose proof (Bminus_correct 24 128 eq_refl eq_refl binop_nan_pl32 mode_NE _ _ Fa Fb) as C.
  fold (val (f32_of_Z a)) in C. fold (val (f32_of_Z b)) in C. rewrite Va, Vb, <- minus_IZR in C.
  assert (E : round radix2 (SpecFloat.fexp 24 128) (round_mode mode_NE) (IZR (a - b)) = IZR (a - b)).
  { apply RN32_fmt. apply fmt32_int. lia. }
  rewrite E in C. rewrite Rlt_bool_true in C.
  2:{ rewrite <- abs_IZR. replace (bpow radix2 128) with (IZR (2 ^ 128)) by (rewrite <- (IZR_Zpower radix2) by lia; reflexivity).
      apply IZR_lt. apply Z.le_lt_trans with (2 ^ 23); [|reflexivity]. lia. }
  destruct C as (C1 & C2 & C3). apply val_sign_inj; auto.
  - unfold val at 1. unfold fsub, b32_minus. rewrite C1. symmetry. exact Vc.
  - unfold fsub, b32_minus. rewrite C3.
    pose proof (binary_normalize_correct 24 128 Hprec32 Hmax32 mode_NE (a - b) 0 false) as D.
    assert (E2 : F2R (Float radix2 (a - b) 0) = IZR (a - b)) by (unfold F2R; cbn; ring). rewrite E2 in D. rewrite E in D.
    rewrite Rlt_bool_true in D.
    2:{ rewrite <- abs_IZR. replace (bpow radix2 128) with (IZR (2 ^ 128)) by (rewrite <- (IZR_Zpower radix2) by lia; reflexivity).
        apply IZR_lt. apply Z.le_lt_trans with (2 ^ 23); [|reflexivity]. lia. }
    destruct D as (_ & _ & D). unfold f32_of_Z at 3. rewrite D. destruct (Rcompare_spec (IZR (a - b)) 0) as [L|L|L]; auto.
    assert (a = b) by (apply eq_IZR in L; lia). subst b.
    pose proof (binary_normalize_correct 24 128 Hprec32 Hmax32 mode_NE a 0 false) as D1. fold (f32_of_Z a) in D1.
    set (x := f32_of_Z a) in *. clear. destruct (Bsign 24 128 x); reflexivity.
Qed.
