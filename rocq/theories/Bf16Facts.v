(** Bf16Facts.v -- bit patterns of binary32 as numbers; bf16 rounding: C17, C18, C37. *)
From Coq Require Import ZArith List Lia Bool Reals Lra ZifyBool.
From Flocq Require Import Core Binary Bits.
Require Import Flocq.Prop.Double_rounding.
From Verif Require Import Base Floats Dtypes QuantKernels Spec Bf16Spec FloatFacts FloatFacts2.
Import ListNotations.
Local Open Scope Z_scope.

(** ** The magnitude encoded by the low 31 bits *)
Definition mag32 (a : Z) : R :=
  if a / 8388608 =? 0 then IZR (a mod 8388608) * bpow radix2 (-149)
  else IZR (a mod 8388608 + 8388608) * bpow radix2 (a / 8388608 - 150).
Definition sgn (s : bool) (r : R) : R := if s then (- r)%R else r.
Definition sbit (s : bool) : Z := if s then 2147483648 else 0.

Inductive decoded (x : f32) (s : bool) (a : Z) : Prop :=
| dec_fin : 0 <= a < 0x7f800000 -> finite x -> val x = sgn s (mag32 a) -> Bsign 24 128 x = s -> decoded x s a
| dec_inf : a = 0x7f800000 -> x = B754_infinity 24 128 s -> decoded x s a
| dec_nan : 0x7f800000 < a < 0x80000000 -> nan x -> Bsign 24 128 x = s -> decoded x s a.

Lemma bounded_cases m e : SpecFloat.bounded 24 128 m e = true ->
  Z.pos m < 16777216 /\ -149 <= e <= 104 /\ (Z.pos m < 8388608 -> e = -149).
Proof.
  intros H. apply andb_prop in H. destruct H as [H1 H2]. apply Zeq_bool_eq in H1. apply Zle_bool_imp_le in H2.
  unfold SpecFloat.fexp, SpecFloat.emin in H1. change (3 - 128 - 24) with (-149) in H1.
  pose proof (Digits.Zdigits_correct radix2 (Z.pos m)) as D. rewrite <- Digits.Zpos_digits2_pos in D.
  set (d := Z.pos (Digits.digits2_pos m)) in *. fold d in H1.
  change (Z.abs (Z.pos m)) with (Z.pos m) in D. change (radix_val radix2) with 2 in D.
  assert (Hd : d <= 24) by lia. split.
  { apply Z.lt_le_trans with (2 ^ d); [tauto|]. change 16777216 with (2 ^ 24). apply Z.pow_le_mono_r; lia. }
  split; [lia|]. intros Hm. destruct (Z.eq_dec d 24) as [E|E]; [|lia]. rewrite E in D. change (2 ^ (24 - 1)) with 8388608 in D. lia.
Qed.

Lemma join_eq s m e : join_bits 23 8 s m e = sbit s + (e * 8388608 + m).
Proof. unfold join_bits, sbit. rewrite Z.shiftl_mul_pow2 by lia. change (2 ^ 23) with 8388608. change (2 ^ 8) with 256. destruct s; lia. Qed.

Lemma decode x : exists s a, bits_of_f32 x = sbit s + a /\ decoded x s a.
Proof.
  unfold bits_of_f32, bits_of_b32. destruct x as [s|s|s pl Hpl|s m e Hb]; cbn [bits_of_binary_float]; rewrite ?join_eq.
  - exists s, 0. split; [lia|]. apply dec_fin; [lia|reflexivity| |reflexivity]. unfold val, mag32. cbn. destruct s; cbn; ring.
  - exists s, 0x7f800000. split; [change (2 ^ 8) with 256; lia|]. apply dec_inf; auto.
  - exists s, (0x7f800000 + Z.pos pl). split; [change (2 ^ 8) with 256; lia|]. apply dec_nan; [|reflexivity|reflexivity].
    unfold nan_pl in Hpl. apply Z.ltb_lt in Hpl. 
    pose proof (Digits.Zdigits_correct radix2 (Z.pos pl)) as D. rewrite <- Digits.Zpos_digits2_pos in D.
    change (Z.abs (Z.pos pl)) with (Z.pos pl) in D. change (radix_val radix2) with 2 in D.
    assert (Z.pos pl < 2 ^ 23); [|change (2 ^ 23) with 8388608 in *; lia].
    apply Z.lt_le_trans with (1 := proj2 D). apply Z.pow_le_mono_r; lia.
  - destruct (bounded_cases m e Hb) as (B1 & B2 & B3). change (2 ^ 23) with 8388608. change (SpecFloat.emin (23 + 1) (2 ^ (8 - 1))) with (-149).
    cbv zeta. destruct (Z.leb_spec 0 (Z.pos m - 8388608)) as [L|L].
    + exists s, ((e - -149 + 1) * 8388608 + (Z.pos m - 8388608)). split; [lia|].
      set (a := (e - -149 + 1) * 8388608 + (Z.pos m - 8388608)).
      assert (A1 : a / 8388608 = e + 150) by (unfold a; rewrite Z.div_add_l by lia; rewrite Z.div_small by lia; lia).
      assert (A2 : a mod 8388608 = Z.pos m - 8388608) by (unfold a; rewrite Z.add_comm, Z.mod_add by lia; apply Z.mod_small; lia).
      apply dec_fin; [lia|reflexivity| |reflexivity]. unfold mag32. rewrite A1, A2.
      destruct (Z.eqb_spec (e + 150) 0); [lia|]. replace (e + 150 - 150) with e by lia. replace (Z.pos m - 8388608 + 8388608) with (Z.pos m) by lia.
      unfold val. cbn [B2R]. unfold F2R. cbn [Fnum Fexp]. destruct s; cbn [sgn SpecFloat.cond_Zopp]; [rewrite opp_IZR; ring|reflexivity].
    + exists s, (Z.pos m). split; [lia|]. apply dec_fin; [lia|reflexivity| |reflexivity]. unfold mag32.
      rewrite Z.div_small, Z.mod_small by lia. rewrite Z.eqb_refl.
      unfold val. cbn [B2R]. unfold F2R. cbn [Fnum Fexp]. rewrite (B3 ltac:(lia)). destruct s; cbn [sgn SpecFloat.cond_Zopp]; [rewrite opp_IZR; ring|reflexivity].
Qed.
Lemma decode_bits s a : 0 <= a < 0x80000000 -> decoded (f32_of_bits (sbit s + a)) s a.
Proof.
  intros H. destruct (decode (f32_of_bits (sbit s + a))) as (s' & a' & E & D).
  rewrite bits_f32_bits in E by (destruct s; unfold sbit; lia).
  assert (0 <= a' < 0x80000000) by (inversion D; lia).
  assert (s' = s /\ a' = a) as [-> ->]; [|exact D]. destruct s, s'; unfold sbit in E; lia.
Qed.
Lemma mag32_pos a : 0 <= a -> (0 <= mag32 a)%R.
Proof.
  intros H. unfold mag32. pose proof (Z.mod_pos_bound a 8388608 ltac:(lia)). 
  destruct (a / 8388608 =? 0); apply Rmult_le_pos; try apply bpow_ge_0; apply IZR_le; lia.
Qed.

(* the value of magnitude bits after dropping the low 16 bits with round to nearest even *)
Definition rne16 (a : Z) : Z := (a + (32767 + (a / 65536) mod 2)) / 65536.

Lemma ZnearestE_frac H l : 0 <= l < 65536 ->
  ZnearestE (IZR H + IZR l / 65536) = if (32768 <? l) || ((l =? 32768) && (H mod 2 =? 1)) then H + 1 else H.
Proof.
  intros Hl.
  assert (Hf : Zfloor (IZR H + IZR l / 65536) = H).
  { apply Zfloor_imp. rewrite plus_IZR.
    assert (0 <= IZR l)%R by (apply IZR_le; lia). assert (IZR l < 65536)%R by (apply IZR_lt; lia). lra. }
  assert (Hl2 : (IZR l < 32768)%R /\ l < 32768 \/ l = 32768 \/ (32768 < IZR l)%R /\ l > 32768).
  { destruct (Z.lt_trichotomy l 32768) as [L|[L|L]]; [left; split; [apply IZR_lt|]; lia|tauto|right; right; split; [apply IZR_lt|]; lia]. }
  unfold ZnearestE, Znearest. rewrite Hf. destruct Hl2 as [[L1 L2]|[->|[L1 L2]]].
  - rewrite Rcompare_Lt by lra. replace ((32768 <? l) || ((l =? 32768) && (H mod 2 =? 1))) with false by lia. reflexivity.
  - rewrite Rcompare_Eq by lra. cbn [Z.ltb Z.compare Z.eqb orb andb]. change (32768 <? 32768) with false. change (32768 =? 32768) with true. cbn [orb andb].
    destruct (Z.even H) eqn:Ev; cbn [negb].
    + rewrite Z.even_spec in Ev. destruct Ev as [k Ek]. replace (H mod 2 =? 1) with false; auto. symmetry. apply Z.eqb_neq. rewrite Ek, Z.mul_comm, Z.mod_mul; lia.
    + assert (Od : Z.odd H = true) by (rewrite <- Z.negb_even, Ev; reflexivity). rewrite Z.odd_spec in Od. destruct Od as [k Ek].
      replace (H mod 2 =? 1) with true by (symmetry; apply Z.eqb_eq; rewrite Ek, Z.add_comm, Z.mul_comm, Z.mod_add by lia; reflexivity).
      rewrite Zceil_floor_neq; [rewrite Hf; reflexivity|]. rewrite Hf. lra.
  - rewrite Rcompare_Gt by lra. replace ((32768 <? l) || ((l =? 32768) && (H mod 2 =? 1))) with true by lia.
    rewrite Zceil_floor_neq; [rewrite Hf; reflexivity|]. rewrite Hf. lra.
Qed.

Lemma RN16_0 : RN16 0 = 0%R.
Proof. apply round_0. typeclasses eauto. Qed.
Lemma RN16_opp r : RN16 (- r) = (- RN16 r)%R.
Proof. apply round_NE_opp. Qed.

Lemma RN16_mag a : 0 <= a < 0x7f800000 -> RN16 (mag32 a) = mag32 (65536 * rne16 a).
Proof.
  intros Ha.
  set (e := a / 8388608). set (m := a mod 8388608). set (h := a / 65536). set (l := a mod 65536).
  assert (He : a = 8388608 * e + m /\ 0 <= m < 8388608 /\ 0 <= e < 255) by (unfold e, m; Z.div_mod_to_equations; lia).
  assert (Hh : a = 65536 * h + l /\ 0 <= l < 65536) by (unfold h, l; Z.div_mod_to_equations; lia).
  set (E := Z.max e 1). set (M := if e =? 0 then m else m + 8388608).
  assert (HV : mag32 a = (IZR M * bpow radix2 (E - 150))%R).
  { unfold mag32, M, E. fold e m. destruct (Z.eqb_spec e 0) as [->|N]; [reflexivity|]. rewrite Z.max_l by lia. reflexivity. }
  set (H := M / 65536).
  assert (HH : M = 65536 * H + l /\ H mod 2 = h mod 2 /\ H = (if e =? 0 then h else h - 128 * (e - 1))).
  { unfold H, M. destruct (Z.eqb_spec e 0); Z.div_mod_to_equations; lia. }
  assert (Hc : rne16 a = if (32768 <? l) || ((l =? 32768) && (H mod 2 =? 1)) then h + 1 else h).
  { unfold rne16. fold h. destruct ((32768 <? l) || ((l =? 32768) && (H mod 2 =? 1))) eqn:C; Z.div_mod_to_equations; lia. }
  (* the scaled mantissa *)
  assert (HR : RN16 (mag32 a) = (IZR (ZnearestE (IZR H + IZR l / 65536)) * bpow radix2 (E - 134))%R).
  { rewrite HV. destruct (Z.eq_dec M 0) as [Z0|NZ].
    - rewrite Z0, Rmult_0_l, RN16_0. replace H with 0 by lia. replace l with 0 by lia. 
      rewrite ZnearestE_frac by lia. cbn. ring.
    - assert (CE : cexp radix2 (FLT_exp (-133) 8) (IZR M * bpow radix2 (E - 150)) = E - 134).
      { unfold cexp. rewrite mag_mult_bpow by (apply not_0_IZR; auto).
        assert (HM : 0 < M < 16777216) by (unfold M in *; destruct (e =? 0); lia).
        unfold FLT_exp. destruct (Z.lt_ge_cases M 8388608) as [LM|GM].
        - assert (E = 1) as -> by (unfold M, E in *; destruct (Z.eqb_spec e 0); lia).
          assert (Hmag : (mag radix2 (IZR M) <= 23)%Z).
          { apply mag_le_bpow; [apply not_0_IZR; auto|]. rewrite <- abs_IZR. change (bpow radix2 23) with (IZR 8388608). apply IZR_lt. lia. }
          lia.
        - assert (Hmag : mag radix2 (IZR M) = 24%Z :> Z).
          { apply mag_unique. rewrite <- abs_IZR. change (bpow radix2 (24 - 1)) with (IZR 8388608). change (bpow radix2 24) with (IZR 16777216).
            split; [apply IZR_le; lia|apply IZR_lt; lia]. }
          rewrite Hmag. unfold E. lia. }
      unfold RN16, round, scaled_mantissa. rewrite CE. unfold F2R. cbn [Fnum Fexp]. f_equal. f_equal. f_equal.
      rewrite Rmult_assoc, <- bpow_plus. replace (E - 150 + - (E - 134)) with (-16) by lia.
      change (bpow radix2 (-16)) with (/ 65536)%R. rewrite (proj1 HH), plus_IZR, mult_IZR. field. }
  rewrite HR, ZnearestE_frac, Hc by lia. set (c := (32768 <? l) || ((l =? 32768) && (H mod 2 =? 1))).
  (* value of the rounded pattern *)
  assert (P16 : bpow radix2 (E - 134) = (65536 * bpow radix2 (E - 150))%R).
  { replace (E - 134) with (16 + (E - 150)) by lia. rewrite bpow_plus. reflexivity. }
  rewrite P16. unfold mag32. set (h' := if c then h + 1 else h). assert (HE' : (if c then H + 1 else H) = H + (h' - h)) by (unfold h'; destruct c; lia). rewrite HE'.
  assert (Hh' : h' = h \/ h' = h + 1) by (unfold h'; destruct c; lia).
  destruct (Z.eq_dec (65536 * h' / 8388608) e) as [Ee|Ne].
  - rewrite Ee. assert (Em : 65536 * h' mod 8388608 = 65536 * h' - 8388608 * e) by (Z.div_mod_to_equations; lia). rewrite Em.
    rewrite <- (Rmult_assoc (IZR (H + (h' - h))) 65536), <- mult_IZR. destruct (Z.eqb_spec e 0) as [Z0|N].
    + replace E with 1 by (unfold E; lia). change (1 - 150) with (-149). f_equal. f_equal. lia.
    + replace E with e by (unfold E; lia). f_equal. f_equal. lia.
  - assert (E1 : 65536 * h' / 8388608 = e + 1 /\ 65536 * h' mod 8388608 = 0) by (Z.div_mod_to_equations; lia). destruct E1 as [-> ->].
    destruct (Z.eqb_spec (e + 1) 0); [lia|]. 
    rewrite <- (Rmult_assoc (IZR (H + (h' - h))) 65536), <- mult_IZR. destruct (Z.eqb_spec e 0) as [Z0|N].
    + replace E with 1 by (unfold E; lia). rewrite Z0. change (0 + 1 - 150) with (-149). change (1 - 150) with (-149). f_equal. f_equal. Z.div_mod_to_equations; lia.
    + replace E with e by (unfold E; lia). replace (e + 1 - 150) with (1 + (e - 150)) by lia. rewrite bpow_plus. change (bpow radix2 1) with 2%R.
      rewrite <- Rmult_assoc, <- mult_IZR. f_equal. f_equal. Z.div_mod_to_equations; lia.
Qed.

(** ** The conversions on bit patterns *)
Lemma land_low u : Z.land u 0x7fffffff = u mod 2147483648.
Proof. change 0x7fffffff with (Z.ones 31). apply Z.land_ones. lia. Qed.
Lemma land_1 u : Z.land u 1 = u mod 2.
Proof. change 1 with (Z.ones 1). apply Z.land_ones. lia. Qed.
Lemma shr16 u : Z.shiftr u 16 = u / 65536.
Proof. rewrite Z.shiftr_div_pow2 by lia. reflexivity. Qed.

Definition hsbit (s : bool) : Z := if s then 32768 else 0.

Lemma rne16_range a : 0 <= a <= 0x7f800000 -> 0 <= rne16 a <= 0x7f80.
Proof. intros H. unfold rne16. Z.div_mod_to_equations; lia. Qed.

Lemma bf16_of_bits_num s a : 0 <= a <= 0x7f800000 -> bf16_of_f32_bits (sbit s + a) = hsbit s + rne16 a.
Proof.
  intros H. unfold bf16_of_f32_bits. rewrite land_low, !shr16, land_1.
  assert (E : (sbit s + a) mod 2147483648 = a) by (destruct s; unfold sbit; Z.div_mod_to_equations; lia). rewrite E.
  destruct (Z.ltb_spec 2139095040 a); [lia|].
  pose proof (rne16_range a H). unfold rne16, hsbit, sbit in *. destruct s; Z.div_mod_to_equations; lia.
Qed.

(* x with bit 6 set, for the upper halves of NaN patterns *)
Lemma lor64 y : 0 <= y < 65536 -> Z.lor y 64 = if Z.testbit y 6 then y else y + 64.
Proof.
  intros H. destruct (Z.testbit y 6) eqn:T.
  - apply Z.bits_inj'. intros n Hn. rewrite Z.lor_spec. change 64 with (2 ^ 6). rewrite Z.pow2_bits_eqb by lia.
    destruct (Z.eqb_spec 6 n) as [<-|N]; [rewrite T; reflexivity|apply orb_false_r].
  - rewrite Z.add_nocarry_lxor; [symmetry|].
    + apply Z.bits_inj'. intros n Hn. rewrite Z.lor_spec, Z.lxor_spec. change 64 with (2 ^ 6). rewrite Z.pow2_bits_eqb by lia.
      destruct (Z.eqb_spec 6 n) as [<-|N]; [rewrite T; reflexivity|]. rewrite orb_false_r, xorb_false_r. reflexivity.
    + apply Z.bits_inj'. intros n Hn. rewrite Z.land_spec, Z.bits_0. change 64 with (2 ^ 6). rewrite Z.pow2_bits_eqb by lia.
      destruct (Z.eqb_spec 6 n) as [<-|N]; [rewrite T; reflexivity|apply andb_false_r].
Qed.
Lemma testbit6 y : 0 <= y -> Z.testbit y 6 = ((y / 64) mod 2 =? 1).
Proof. intros H. rewrite Z.testbit_eqb by lia. reflexivity. Qed.

Lemma bf16_of_bits_nan s a : 0x7f800000 < a < 0x80000000 ->
  exists b, bf16_of_f32_bits (sbit s + a) = hsbit s + b /\ 0x7fc0 <= b < 0x8000 /\ (b = a / 65536 \/ b = a / 65536 + 64).
Proof.
  intros H. unfold bf16_of_f32_bits. rewrite land_low, !shr16.
  assert (E : (sbit s + a) mod 2147483648 = a) by (destruct s; unfold sbit; Z.div_mod_to_equations; lia). rewrite E.
  destruct (Z.ltb_spec 2139095040 a); [|lia].
  assert (E2 : (sbit s + a) / 65536 = hsbit s + a / 65536) by (destruct s; unfold sbit, hsbit; Z.div_mod_to_equations; lia).
  rewrite E2. set (y := a / 65536). assert (Hy : 0x7f80 <= y < 0x8000) by (unfold y; Z.div_mod_to_equations; lia).
  assert (R1 : 0 <= hsbit s + y < 65536) by (unfold hsbit; destruct s; lia).
  rewrite lor64 by auto. rewrite testbit6 by lia.
  assert (E3 : ((hsbit s + y) / 64) mod 2 = (y / 64) mod 2) by (unfold hsbit; destruct s; Z.div_mod_to_equations; lia). rewrite E3.
  destruct (Z.eqb_spec ((y / 64) mod 2) 1) as [T|T].
  - exists y. rewrite Z.mod_small by lia. split; [lia|]. split; [|lia]. Z.div_mod_to_equations; lia.
  - exists (y + 64). assert (y + 64 < 0x8000) by (Z.div_mod_to_equations; lia). rewrite Z.mod_small by (unfold hsbit; destruct s; lia).
    split; [lia|]. split; lia.
Qed.

Lemma widen_dec s b : 0 <= b < 32768 -> decoded (bf16_to_f32 (hsbit s + b)) s (b * 65536).
Proof.
  intros H. unfold bf16_to_f32. replace ((hsbit s + b) * 65536) with (sbit s + b * 65536) by (destruct s; unfold hsbit, sbit; lia).
  apply decode_bits. lia.
Qed.
Lemma f32_of_bf16_eq b : f32_of_bf16 b = bf16_to_f32 b.
Proof. unfold f32_of_bf16, bf16_to_f32. rewrite Z.shiftl_mul_pow2 by lia. reflexivity. Qed.
Lemma bf16_split b : 0 <= b < 65536 -> exists s h, b = hsbit s + h /\ 0 <= h < 32768.
Proof. intros H. destruct (Z.lt_ge_cases b 32768); [exists false, b|exists true, (b - 32768)]; unfold hsbit; lia. Qed.

Lemma mag32_top : mag32 0x7f800000 = bpow radix2 128.
Proof. unfold mag32. change (2139095040 / 8388608) with 255. change (2139095040 mod 8388608) with 0. cbn [Z.eqb Z.add Z.sub].
  change 8388608 with (2 ^ 23). rewrite (IZR_Zpower radix2) by lia. rewrite <- bpow_plus. reflexivity. Qed.

Lemma sgn_abs s r : (0 <= r)%R -> Rabs (sgn s r) = r.
Proof. intros H. destruct s; cbn [sgn]; [rewrite Rabs_Ropp|]; apply Rabs_pos_eq; auto. Qed.
Lemma RN16_sgn s r : RN16 (sgn s r) = sgn s (RN16 r).
Proof. destruct s; cbn [sgn]; auto. apply RN16_opp. Qed.

Lemma mag32_lt_top a : 0 <= a < 0x7f800000 -> (mag32 a < bpow radix2 128)%R.
Proof.
  intros H. pose proof (decode_bits false a ltac:(lia)) as D. inversion D as [A F V _|A|A]; try lia.
  cbn [sgn] in V. rewrite <- V. apply Rle_lt_trans with (1 := Rle_abs _). apply abs_B2R_lt_emax.
Qed.

(** ** C17: bfp16_t(float) *)
Theorem C17_round_to_nearest_even x : finite x ->
  let b := bf16_of_f32 x in
  0 <= b < 65536 /\ Bsign 24 128 (bf16_to_f32 b) = Bsign 24 128 x /\
  (if Rlt_bool (Rabs (RN16 (val x))) (bpow radix2 128)
   then finite (bf16_to_f32 b) /\ val (bf16_to_f32 b) = RN16 (val x)
   else bf16_to_f32 b = B754_infinity 24 128 (Bsign 24 128 x)).
Proof.
  intros Fx b. destruct (decode x) as (s & a & E & D). inversion D as [Ha _ V Sg|Ha Hx|Ha N _].
  2:{ subst x. discriminate. } 2:{ exfalso. revert N. apply finite_not_nan. auto. }
  assert (Hb : b = hsbit s + rne16 a) by (unfold b, bf16_of_f32; rewrite E; apply bf16_of_bits_num; lia).
  pose proof (rne16_range a ltac:(lia)) as Hr. rewrite V, RN16_sgn, RN16_mag by auto. rewrite Z.mul_comm.
  pose proof (widen_dec s (rne16 a) ltac:(lia)) as W. rewrite <- Hb in W.
  split; [unfold hsbit in Hb; destruct s; lia|].
  rewrite sgn_abs by (apply mag32_pos; lia).
  inversion W as [Wa WF WV WS|Wa Wx|Wa Wn].
  - rewrite WS, Sg. split; auto. rewrite Rlt_bool_true by (apply mag32_lt_top; auto). split; auto.
  - rewrite Wx, Sg. split; auto. rewrite Rlt_bool_false; auto. rewrite Wa, mag32_top. apply Rle_refl.
  - lia.
Qed.
Theorem C17_infinity s : bf16_to_f32 (bf16_of_f32 (B754_infinity 24 128 s)) = B754_infinity 24 128 s.
Proof. destruct s; vm_compute; reflexivity. Qed.
Theorem C17_nan x : nan x -> let b := bf16_of_f32 x in
  0 <= b < 65536 /\ nan (bf16_to_f32 b) /\ Z.testbit b 6 = true /\ Bsign 24 128 (bf16_to_f32 b) = Bsign 24 128 x.
Proof.
  intros N b. destruct (decode x) as (s & a & E & D). inversion D as [Ha F V Sg|Ha Hx|Ha _ Sg].
  1:{ exfalso. revert N. apply finite_not_nan. auto. } 1:{ subst x. discriminate. }
  destruct (bf16_of_bits_nan s a Ha) as (h & Hh & Hr & _). assert (Hb : b = hsbit s + h) by (unfold b, bf16_of_f32; rewrite E; auto).
  pose proof (widen_dec s h ltac:(lia)) as W. rewrite <- Hb in W. inversion W as [Wa|Wa|Wa Wn Ws]; try lia.
  split; [unfold hsbit in Hb; destruct s; lia|]. split; auto. split; [|rewrite Ws, Sg; auto].
  rewrite testbit6 by (unfold hsbit in Hb; destruct s; lia). rewrite Hb. unfold hsbit. destruct s; Z.div_mod_to_equations; lia.
Qed.
(** values that came from bf16 are kept *)
Theorem C17_identity b : 0 <= b < 65536 -> ~ nan (bf16_to_f32 b) -> bf16_of_f32 (bf16_to_f32 b) = b.
Proof.
  intros Hb N. destruct (bf16_split b Hb) as (s & h & E & Hh). pose proof (widen_dec s h Hh) as W. rewrite <- E in W.
  assert (Hh2 : h <= 0x7f80) by (inversion W; try lia; tauto).
  unfold bf16_of_f32, bf16_to_f32. rewrite bits_f32_bits by lia.
  replace (b * 65536) with (sbit s + h * 65536) by (rewrite E; destruct s; unfold hsbit, sbit; lia).
  rewrite bf16_of_bits_num by lia. rewrite E. f_equal. unfold rne16. rewrite Z.div_mul by lia. Z.div_mod_to_equations; lia.
Qed.

(** ** C18: the AVX-512 conversions *)
Lemma land_exp s a : 0 <= a < 0x80000000 -> Z.land (sbit s + a) 0x7f800000 = 8388608 * (a / 8388608).
Proof.
  intros H. assert (E : forall u, Z.land u 0x7f800000 = Z.shiftl (Z.land (Z.shiftr u 23) 255) 23).
  { intros u. rewrite Z.shiftl_land. rewrite <- Z.ldiff_ones_r by lia. 
    change (Z.shiftl 255 23) with 0x7f800000. 
    apply Z.bits_inj'. intros n Hn. rewrite !Z.land_spec, Z.ldiff_spec.
    destruct (Z.testbit 2139095040 n) eqn:T; rewrite ?andb_false_r; auto. rewrite !andb_true_r.
    destruct (Z.lt_ge_cases n 23) as [L|L].
    - exfalso. revert T. change 2139095040 with (255 * 2 ^ 23). rewrite Z.mul_pow2_bits_low by lia. discriminate.
    - rewrite Z.ones_spec_high by lia. rewrite andb_true_r. reflexivity. }
  rewrite E. rewrite Z.shiftl_mul_pow2, Z.shiftr_div_pow2 by lia. change 255 with (Z.ones 8). rewrite Z.land_ones by lia.
  change (2 ^ 23) with 8388608. change (2 ^ 8) with 256. unfold sbit. destruct s; Z.div_mod_to_equations; lia.
Qed.
Lemma land_mant s a : 0 <= a < 0x80000000 -> Z.land (sbit s + a) 0x007fffff = a mod 8388608.
Proof.
  intros H. change 0x007fffff with (Z.ones 23). rewrite Z.land_ones by lia. change (2 ^ 23) with 8388608.
  unfold sbit. destruct s; Z.div_mod_to_equations; lia.
Qed.

Lemma cvt_sw_num s a : 0 <= a <= 0x7f800000 -> cvt_ps_to_bf16_sw_bits (sbit s + a) = hsbit s + rne16 a.
Proof.
  intros H. unfold cvt_ps_to_bf16_sw_bits. cbv zeta. rewrite land_exp, land_mant, !shr16, land_1 by lia.
  assert (E : (8388608 * (a / 8388608) =? 2139095040) && negb (a mod 8388608 =? 0) = false).
  { destruct (Z.eqb_spec (8388608 * (a / 8388608)) 2139095040); auto. destruct (Z.eqb_spec (a mod 8388608) 0); auto. exfalso. Z.div_mod_to_equations; lia. }
  rewrite E. pose proof (rne16_range a H). unfold rne16, hsbit, sbit in *. destruct s; Z.div_mod_to_equations; lia.
Qed.
(** The software conversion of the AVX-512 kernels agrees with bfp16_t(float) on every non-NaN float. *)
Theorem C18_software_conversion_agrees x : ~ nan x -> cvt_ps_to_bf16_sw_bits (bits_of_f32 x) = bf16_of_f32 x.
Proof.
  intros N. destruct (decode x) as (s & a & E & D). unfold bf16_of_f32. rewrite E.
  inversion D as [Ha|Ha|Ha Hn]; [| |tauto]; rewrite cvt_sw_num, bf16_of_bits_num by lia; reflexivity.
Qed.
(** It does not on NaNs: the 32768 NaNs of each sign with the largest payloads become a nonzero number ... *)
Theorem C18_nan_becomes_number_refuted s a : 0x7fff8000 <= a < 0x80000000 ->
  let x := f32_of_bits (sbit s + a) in
  nan x /\ finite (bf16_to_f32 (cvt_ps_to_bf16_sw_bits (bits_of_f32 x))) /\ nan (bf16_to_f32 (bf16_of_f32 x)).
Proof.
  intros H x. pose proof (decode_bits s a ltac:(lia)) as D. fold x in D. inversion D as [A|A|A N _]; try lia.
  split; auto. split; [|apply C17_nan; auto]. unfold x. rewrite bits_f32_bits by (unfold sbit; destruct s; lia).
  assert (E : cvt_ps_to_bf16_sw_bits (sbit s + a) = hsbit (negb s) + 1).
  { unfold cvt_ps_to_bf16_sw_bits. cbv zeta. rewrite land_exp, land_mant, !shr16, land_1 by lia.
    assert (T : (8388608 * (a / 8388608) =? 2139095040) && negb (a mod 8388608 =? 0) = true).
    { apply andb_true_intro. split; [apply Z.eqb_eq|apply negb_true_iff, Z.eqb_neq]; Z.div_mod_to_equations; lia. }
    rewrite T. unfold hsbit, sbit. destruct s; cbn [negb]; Z.div_mod_to_equations; lia. }
  rewrite E. pose proof (widen_dec (negb s) 1 ltac:(lia)) as W. inversion W; auto; lia.
Qed.
(** The hardware instruction agrees on all normal numbers, zeros, infinities and NaNs; subnormals become zeros. *)
Theorem C18_hardware_conversion x : let b := cvtneps_pbh_bits (bits_of_f32 x) in
  (~ (finite x /\ val x <> 0%R /\ (Rabs (val x) < bpow radix2 (-126))%R) -> b = bf16_of_f32 x) /\
  (finite x -> (Rabs (val x) < bpow radix2 (-126))%R -> bf16_to_f32 b = B754_zero 24 128 (Bsign 24 128 x)).
Proof.
  destruct (decode x) as (s & a & E & D). unfold bf16_of_f32. rewrite E.
  assert (Ha : 0 <= a < 0x80000000) by (inversion D; lia).
  cbv zeta.
  assert (Hsh : Z.land (Z.shiftr (sbit s + a) 16) 0x8000 = hsbit s).
  { rewrite shr16. replace ((sbit s + a) / 65536) with (hsbit s + a / 65536) by (unfold sbit, hsbit; destruct s; Z.div_mod_to_equations; lia).
    assert (Hy : 0 <= a / 65536 < 32768) by (Z.div_mod_to_equations; lia). generalize dependent (a / 65536). intros y Hy.
    apply Z.bits_inj'. intros n Hn. rewrite Z.land_spec. change 32768 with (2 ^ 15). rewrite Z.pow2_bits_eqb by lia.
    destruct (Z.eqb_spec 15 n) as [<-|Nn].
    - rewrite andb_true_r. rewrite Z.testbit_eqb by lia. change (2 ^ 15) with 32768. unfold hsbit. destruct s.
      + change (Z.testbit 32768 15) with true. apply Z.eqb_eq. Z.div_mod_to_equations; lia.
      + change (Z.testbit 0 15) with false. apply Z.eqb_neq. Z.div_mod_to_equations; lia.
    - rewrite andb_false_r. unfold hsbit. destruct s; [|symmetry; apply Z.bits_0]. change 32768 with (2 ^ 15). rewrite Z.pow2_bits_eqb by lia.
      symmetry. apply Z.eqb_neq. auto. }
  assert (M0 : a < 8388608 -> mag32 a = (IZR a * bpow radix2 (-149))%R).
  { intros L. unfold mag32. rewrite Z.div_small, Z.mod_small by lia. rewrite Z.eqb_refl. reflexivity. }
  assert (M1 : 8388608 <= a < 0x7f800000 -> (bpow radix2 (-126) <= mag32 a)%R).
  { intros L. unfold mag32. assert (1 <= a / 8388608) by (apply Z.div_le_lower_bound; lia). destruct (Z.eqb_spec (a / 8388608) 0); [lia|].
    apply Rle_trans with (IZR 8388608 * bpow radix2 (-149))%R; [change (IZR 8388608) with (bpow radix2 23); rewrite <- bpow_plus; apply Rle_refl|].
    apply Rmult_le_compat; [apply IZR_le; lia|apply bpow_ge_0|apply IZR_le; pose proof (Z.mod_pos_bound a 8388608 ltac:(lia)); lia|apply bpow_le; lia]. }
  unfold cvtneps_pbh_bits. cbv zeta. rewrite land_exp, land_mant by lia. rewrite Hsh.
  assert (Hexp0 : (8388608 * (a / 8388608) =? 0) = (a <? 8388608)) by (destruct (Z.ltb_spec a 8388608); [apply Z.eqb_eq|apply Z.eqb_neq]; Z.div_mod_to_equations; lia).
  rewrite Hexp0. split.
  - intros Hns. destruct (Z.ltb_spec a 8388608) as [L|L].
    + assert (a = 0).
      { inversion D as [A F V _|A|A]; try lia. destruct (Z.eq_dec a 0) as [|N0]; auto. exfalso. apply Hns. split; auto.
        rewrite V. split.
        - intros Z0. apply N0. apply eq_IZR. assert (mag32 a = 0)%R as Z1 by (destruct s; cbn [sgn] in Z0; lra). rewrite M0 in Z1 by auto.
          apply Rmult_integral in Z1. destruct Z1; auto. pose proof (bpow_gt_0 radix2 (-149)). lra.
        - rewrite sgn_abs by (apply mag32_pos; lia). rewrite M0 by auto. replace (bpow radix2 (-126)) with (IZR 8388608 * bpow radix2 (-149))%R.
          + apply Rmult_lt_compat_r; [apply bpow_gt_0|apply IZR_lt; lia].
          + change (IZR 8388608) with (bpow radix2 23). rewrite <- bpow_plus. reflexivity. }
      subst a. rewrite bf16_of_bits_num by lia. change (rne16 0) with 0. lia.
    + assert (Hexpm : (8388608 * (a / 8388608) =? 2139095040) && negb (a mod 8388608 =? 0) = (0x7f800000 <? a)).
      { destruct (Z.ltb_spec 0x7f800000 a).
        - apply andb_true_intro. split; [apply Z.eqb_eq|apply negb_true_iff, Z.eqb_neq]; Z.div_mod_to_equations; lia.
        - apply andb_false_iff. destruct (Z.eq_dec a 0x7f800000) as [->|]; [right; reflexivity|left]. apply Z.eqb_neq. Z.div_mod_to_equations; lia. }
      rewrite Hexpm. unfold bf16_of_f32_bits. rewrite land_low.
      assert (E' : (sbit s + a) mod 2147483648 = a) by (destruct s; unfold sbit; Z.div_mod_to_equations; lia). rewrite E'.
      destruct (Z.ltb_spec 0x7f800000 a).
      * rewrite Z.mod_small; auto. rewrite shr16. assert (0 <= (sbit s + a) / 65536 < 65536) by (unfold sbit; destruct s; Z.div_mod_to_equations; lia).
        rewrite lor64 by auto. destruct (Z.testbit _ 6) eqn:T; [lia|]. rewrite testbit6 in T by lia. apply Z.eqb_neq in T. clear - T H0. Z.div_mod_to_equations; lia.
      * rewrite !shr16, land_1. assert (0 <= a <= 0x7f800000) by lia. unfold sbit. destruct s; Z.div_mod_to_equations; lia.
  - intros F L. inversion D as [A _ V Sg|A Hx|A N]; [|subst x; discriminate|exfalso; revert N; apply finite_not_nan; auto].
    rewrite V, sgn_abs in L by (apply mag32_pos; lia).
    destruct (Z.ltb_spec a 8388608) as [La|La]; [|specialize (M1 ltac:(lia)); lra].
    rewrite Sg. destruct s; vm_compute; reflexivity.
Qed.
