(** F64Facts.v -- real-number facts about the binary64 operations of compute_quant_config. *)
From Coq Require Import ZArith List Lia Bool Reals Lra Psatz.
From Flocq Require Import Core BinarySingleNaN Binary Bits Relative.
From Verif Require Import Base Floats Dtypes Spec FloatFacts FloatFacts2 MinMax ConfigSpec.
Local Open Scope R_scope.

Definition val64 (x : f64) : R := B2R 53 1024 x.
Definition finite64 (x : f64) : Prop := is_finite 53 1024 x = true.
Notation fexp64 := (FLT_exp (-1074) 53).
Notation fmt64 := (generic_format radix2 fexp64).
Global Instance vexp64 : Valid_exp fexp64. Proof. apply FLT_exp_valid. reflexivity. Qed.
Definition max64 : R := bpow radix2 1024.

Lemma RN64_le x y : x <= y -> RN64 x <= RN64 y.
Proof. intros. apply round_le; auto with typeclass_instances. Qed.
Lemma RN64_fmt x : fmt64 x -> RN64 x = x.
Proof. intros. apply round_generic; auto with typeclass_instances. Qed.
Lemma RN64_0 : RN64 0 = 0.
Proof. apply round_0. auto with typeclass_instances. Qed.
Lemma RN64_opp x : RN64 (- x) = - RN64 x.
Proof. apply round_NE_opp. Qed.
Lemma val64_fmt x : fmt64 (val64 x).
Proof. apply (generic_format_B2R 53 1024). Qed.
Lemma fmt64_bpow e : (-1074 <= e)%Z -> fmt64 (bpow radix2 e).
Proof. intros. apply generic_format_bpow. unfold FLT_exp. lia. Qed.
Lemma RN64_abs_le x e : (-1074 <= e)%Z -> Rabs x <= bpow radix2 e -> Rabs (RN64 x) <= bpow radix2 e.
Proof. intros He H. apply abs_round_le_generic; auto with typeclass_instances. apply fmt64_bpow; auto. Qed.

(** a float is a double *)
Lemma fmt32_64 x : fmt32 x -> fmt64 x.
Proof.
  intros H. apply FLT_format_generic in H; [|reflexivity]. destruct H as [[m e] E Hm He]. cbn [Fnum Fexp] in *.
  apply generic_format_FLT. exists (Float radix2 m e); auto; cbn [Fnum Fexp]; [|lia].
  eapply Z.lt_trans; [exact Hm|]. reflexivity.
Qed.

Lemma normalize64 m e s : Rabs (RN64 (F2R (Float radix2 m e))) < max64 ->
  let z := binary_normalize 53 1024 Hprec64 Hmax64 mode_NE m e s in finite64 z /\ val64 z = RN64 (F2R (Float radix2 m e)).
Proof.
  intros H z. pose proof (binary_normalize_correct 53 1024 Hprec64 Hmax64 mode_NE m e s) as C.
  change (round radix2 (SpecFloat.fexp 53 1024) (round_mode mode_NE) (F2R (Float radix2 m e))) with (RN64 (F2R (Float radix2 m e))) in C.
  rewrite Rlt_bool_true in C by exact H. destruct C as (C1 & C2 & _). split; auto.
Qed.

Lemma f64_of_f32_ok x : finite x -> finite64 (f64_of_f32 x) /\ val64 (f64_of_f32 x) = val x.
Proof.
  intros F. destruct x as [s|s|s p H|s m e H]; try discriminate F; [split; reflexivity|].
  cbn [f64_of_f32]. set (x := B754_finite 24 128 s m e H) in *.
  assert (E : F2R (Float radix2 (cond_Zopp s (Zpos m)) e) = val x) by reflexivity.
  destruct (normalize64 (cond_Zopp s (Zpos m)) e s) as [F' V].
  - rewrite E, RN64_fmt by apply fmt32_64, val_fmt. apply Rlt_trans with (bpow radix2 128); [apply abs_B2R_lt_emax|unfold max64; apply bpow_lt; lia].
  - split; auto. rewrite V, E. apply RN64_fmt, fmt32_64, val_fmt.
Qed.

Lemma f64_of_Z_ok z : (Z.abs z <= 2 ^ 53)%Z -> finite64 (f64_of_Z z) /\ val64 (f64_of_Z z) = IZR z.
Proof.
  intros Hz. assert (E : F2R (Float radix2 z 0) = IZR z) by (unfold F2R; cbn; ring).
  assert (G : fmt64 (IZR z)).
  { destruct (Z.eq_dec (Z.abs z) (2 ^ 53)) as [E1|E1].
    - assert (Hb : fmt64 (bpow radix2 53)) by (apply fmt64_bpow; lia). change (bpow radix2 53) with (IZR (2 ^ 53)) in Hb.
      destruct (Z.abs_eq_or_opp z) as [E2|E2]; rewrite E2 in E1.
      + rewrite E1. exact Hb.
      + replace z with (- 2 ^ 53)%Z by lia. rewrite opp_IZR. apply generic_format_opp. exact Hb.
    - apply generic_format_FLT. exists (Float radix2 z 0); auto; cbn [Fnum Fexp]; [|lia]. 
      change (Z.pow radix2 53) with (2 ^ 53)%Z. lia. }
  destruct (normalize64 z 0 false) as [F V].
  - rewrite E, RN64_fmt by exact G. rewrite <- abs_IZR. apply Rle_lt_trans with (IZR (2 ^ 53)); [apply IZR_le; exact Hz|].
    change (IZR (2 ^ 53)) with (bpow radix2 53). apply bpow_lt. lia.
  - split; [exact F|]. unfold f64_of_Z. rewrite V, E. apply RN64_fmt, G.
Qed.

Lemma dsub_ok x y : finite64 x -> finite64 y -> Rabs (RN64 (val64 x - val64 y)) < max64 ->
  finite64 (dsub x y) /\ val64 (dsub x y) = RN64 (val64 x - val64 y).
Proof.
  intros Fx Fy H. unfold dsub, b64_minus.
  match goal with |- finite64 (Bminus _ _ ?a ?b ?c ?d _ _) /\ _ =>
    pose proof (Bminus_correct 53 1024 a b c d x y Fx Fy) as C end.
  change (SpecFloat.emin 53 1024) with (-1074)%Z in C. cbn [round_mode] in C.
  unfold val64, RN64, max64, finite64 in *. rewrite Rlt_bool_true in C by exact H.
  destruct C as (C1 & C2 & _). rewrite C2. split; [reflexivity|exact C1].
Qed.
Lemma ddiv_ok x y : finite64 x -> val64 y <> 0 -> Rabs (RN64 (val64 x / val64 y)) < max64 ->
  finite64 (ddiv x y) /\ val64 (ddiv x y) = RN64 (val64 x / val64 y).
Proof.
  intros Fx Fy H. unfold ddiv, b64_div.
  match goal with |- finite64 (Bdiv _ _ ?a ?b ?c ?d _ _) /\ _ =>
    pose proof (Bdiv_correct 53 1024 a b c d x y) as C end.
  change (SpecFloat.emin 53 1024) with (-1074)%Z in C. cbn [round_mode] in C.
  unfold val64, RN64, max64, finite64 in *. specialize (C Fy). rewrite Rlt_bool_true in C by exact H.
  destruct C as (C1 & C2 & _). rewrite C2, Fx. split; [reflexivity|exact C1].
Qed.
Lemma dcompare_ok x y : finite64 x -> finite64 y -> b64_compare x y = Some (Rcompare (val64 x) (val64 y)).
Proof. intros. unfold b64_compare. apply Bcompare_correct; auto. Qed.
Lemma dlt_ok x y : finite64 x -> finite64 y -> dlt x y = Rlt_bool (val64 x) (val64 y).
Proof. intros. unfold dlt. rewrite dcompare_ok by auto. unfold Rlt_bool. destruct Rcompare; auto. Qed.
Lemma deq_ok x y : finite64 x -> finite64 y -> deq x y = Req_bool (val64 x) (val64 y).
Proof. intros. unfold deq. rewrite dcompare_ok by auto. unfold Req_bool. destruct Rcompare; auto. Qed.
Lemma dmin_ok x y : finite64 x -> finite64 y -> finite64 (dmin x y) /\ val64 (dmin x y) = Rmin (val64 x) (val64 y).
Proof.
  intros Fx Fy. unfold dmin. rewrite dlt_ok by auto. destruct (Rlt_bool_spec (val64 y) (val64 x)); split; auto.
  - rewrite Rmin_right; auto. lra.
  - rewrite Rmin_left; auto.
Qed.
Lemma dmax_ok x y : finite64 x -> finite64 y -> finite64 (dmax x y) /\ val64 (dmax x y) = Rmax (val64 x) (val64 y).
Proof.
  intros Fx Fy. unfold dmax. rewrite dlt_ok by auto. destruct (Rlt_bool_spec (val64 x) (val64 y)); split; auto.
  - rewrite Rmax_right; auto. lra.
  - rewrite Rmax_left; auto.
Qed.
Lemma dround_ok x : finite64 x -> finite64 (dround x) /\ val64 (dround x) = IZR (round_half_away (val64 x)).
Proof.
  intros F. unfold dround. destruct (Bnearbyint_correct 53 1024 Hmax64 nan64 mode_NA x) as (C1 & C2 & _).
  unfold finite64, val64. rewrite C2. split; [exact F|]. rewrite C1. cbn [round_mode].
  rewrite round_half_away_ZnearestA. apply round_FIX0. auto with typeclass_instances.
Qed.
Lemma f64_to_i64_ok x z : finite64 x -> val64 x = IZR z -> in_i64 z = true -> f64_to_i64 x = Ok z.
Proof.
  intros F V H. unfold f64_to_i64. unfold finite64 in F. rewrite F.
  assert (E : Btrunc 53 1024 x = z).
  { apply eq_IZR. rewrite Btrunc_correct by reflexivity. rewrite round_FIX0 by auto with typeclass_instances. fold (val64 x). rewrite V.
    f_equal. apply Ztrunc_IZR. }
  rewrite E. unfold i64. rewrite H. reflexivity.
Qed.

Lemma f32_of_f64_ok x : finite64 x -> Rabs (RN32 (val64 x)) < max32 ->
  finite (f32_of_f64 x) /\ val (f32_of_f64 x) = RN32 (val64 x) /\ (0 < val64 x -> Bsign 24 128 (f32_of_f64 x) = false).
Proof.
  intros F H. destruct x as [s|s|s p Hp|s m e Hb]; try discriminate F.
  - cbn [f32_of_f64 val64 B2R]. split; [reflexivity|]. split; [symmetry; apply RN32_0|cbn; lra].
  - set (x := B754_finite 53 1024 s m e Hb) in *. cbn [f32_of_f64 x].
    assert (E : F2R (Float radix2 (cond_Zopp s (Zpos m)) e) = val64 x) by reflexivity.
    pose proof (binary_normalize_correct 24 128 Hprec32 Hmax32 mode_NE (cond_Zopp s (Zpos m)) e s) as C.
    rewrite E in C. change (round radix2 (SpecFloat.fexp 24 128) (round_mode mode_NE) (val64 x)) with (RN32 (val64 x)) in C.
    rewrite Rlt_bool_true in C by exact H. destruct C as (C1 & C2 & C3). split; [exact C2|]. split; [exact C1|].
    intros P. rewrite C3, Rcompare_Gt by auto. reflexivity.
Qed.
