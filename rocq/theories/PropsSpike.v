(** PropsSpike.v -- C23 is false with the SSE4.2 scan: the parameters it computes need not represent the data. *)
From Coq Require Import ZArith List Lia Bool Arith Reals Lra.
From Flocq Require Import Core Binary Bits.
From Verif Require Import Base Floats Simd Dtypes Spec ApiSpec ConfigSpec FloatFacts FloatFacts2 MinMax Context ExecFacts Api PropsQuantize PropsDequantize PropsRoundTrip PropsConfigRefuted PropsAnyInput.
Import ListNotations.

(** Sixteen floats: 0.0 everywhere but in element 3, which is 1000.0. *)
Definition spike : mem := f32_buf (repeat 0 3 ++ [0x447a0000] ++ repeat 0 12)%Z.
Definition spike_val (i : nat) : Z := if i =? 3 then 1000 else 0.
Lemma spike_elem i : i < 16 -> finite (f32_at spike i) /\ val (f32_at spike i) = IZR (spike_val i).
Proof.
  intros Hi. do 16 (destruct i as [|i]; [split; [vm_compute; reflexivity|]; match goal with |- val (f32_at spike ?k) = _ =>
    let b := eval vm_compute in (bits_of_f32 (f32_at spike k)) in replace (f32_at spike k) with (f32_of_bits b) by (rewrite <- (f32_bits_bits (f32_at spike k)); apply (f_equal f32_of_bits); vm_compute; reflexivity) end;
    unfold val; cbn; unfold F2R; cbn; lra|]). lia.
Qed.
Lemma RN32_int k : (Z.abs k <= 2 ^ 24)%Z -> RN32 (IZR k) = IZR k.
Proof. intros H. apply RN32_fmt, fmt32_int. lia. Qed.
Lemma scaled_one x : fmt32 x -> scaled 1 x = x.
Proof. intros F. unfold scaled. replace (1 / 1)%R with (IZR 1) by (cbn; field). rewrite RN32_int by lia. rewrite Rmult_1_r. apply RN32_fmt, F. Qed.

Lemma spike_config scale zp : compute_quant_config_from_data SSE42 DT_F32 DT_UINT8 spike [(0, 16)] = Ok (scale, zp) -> scale = f_one /\ zp = 127%Z.
Proof.
  intros HC. assert (B : bitsp (Ok (scale, zp)) = Ok (b1, 127%Z)) by (rewrite <- HC; vm_compute; reflexivity). unfold bitsp in B. cbn [bind fst snd] in B.
  injection B as B1 B2. split; [|exact B2]. rewrite <- (f32_bits_bits scale), <- (f32_bits_bits f_one). f_equal. unfold bits_of_f32. rewrite B1. reflexivity.
Qed.
Lemma spike_buffers nt pk : length pk = 16 -> sizes_ok 64 16 nt -> buffers_ok nt DT_F32 DT_UINT8 spike pk.
Proof.
  intros Lp S1. refine (conj (or_introl eq_refl) (conj (or_intror (or_intror eq_refl)) (conj _ (conj _ S1)))); [|rewrite Lp; reflexivity].
  apply Forall_forall. intros b Hb. assert (T : forallb (fun b => (0 <=? b)%Z && (b <? 256)%Z) spike = true) by (vm_compute; reflexivity).
  rewrite forallb_forall in T. specialize (T b Hb). unfold is_byte. lia.
Qed.
Lemma spike_nearest A i : i < 16 -> nearest_ok A f_one (elem_at DT_F32 spike i).
Proof.
  intros Hi. destruct f_one_ok as [F1 V1]. destruct (spike_elem i Hi) as [F V]. cbn [elem_at].
  assert (K : (0 <= spike_val i <= 1000)%Z) by (unfold spike_val; destruct (i =? 3); lia).
  assert (Es : scaled (val f_one) (val (f32_at spike i)) = IZR (spike_val i)).
  { rewrite V1, V. apply scaled_one, fmt32_int. lia. }
  assert (KR : (0 <= IZR (spike_val i) <= 1000)%R) by (split; apply IZR_le; lia).
  split; [split; [exact F|]|intros _].
  - rewrite Es, Rabs_pos_eq by apply KR. apply Rle_lt_trans with (1 := proj2 KR). change (bpow radix2 30) with 1073741824%R. lra.
  - rewrite Es, Rabs_pos_eq by apply KR. unfold pred_half. change (bpow radix2 (-25)) with (/ 33554432)%R.
    intros C. assert (C0 : (0 < IZR (spike_val i) < 1)%R) by (rewrite C; lra). destruct C0 as [C1 C2]. apply lt_IZR in C1, C2. lia.
Qed.
Lemma spike_quantizes A nt oaddr thr pk scale zp : compute_quant_config_from_data SSE42 DT_F32 DT_UINT8 spike [(0, 16)] = Ok (scale, zp) -> length pk = 16 -> sizes_ok 64 16 nt ->
  exists p, returns spike pk (quantize_call A nt oaddr DT_F32 DT_UINT8 scale zp RM_NEAREST thr spike pk) (Ok p) /\ length p = 16.
Proof.
  intros HC Lp S1. destruct (spike_config _ _ HC) as [-> ->].
  destruct (returns_total spike pk (quantize_call A nt oaddr DT_F32 DT_UINT8 f_one 127 RM_NEAREST thr spike pk)) as [r HR].
  assert (Z22 : (Z.abs 127 <= 2 ^ 22)%Z) by lia.
  destruct (C01_quantize_nearest _ _ _ _ _ _ _ _ _ _ _ (spike_buffers nt pk Lp S1) one_good Z22 (spike_nearest A) HR) as (p & -> & Lo & _).
  exists p. split; [exact HR|congruence].
Qed.

(** C23 on SSE4.2: the scan of the sixteen values overlooks the 1000, "the data are constant" gives scale 1 and zero point 127, and the round trip turns
    1000 into 128 -- an error of 872 scales -- on every CPU that quantizes and dequantizes with these parameters. *)
Theorem C23_sse42_refuted A nt oaddr A2 nt2 oaddr2 thr pk p extra outm r scale zp :
  compute_quant_config_from_data SSE42 DT_F32 DT_UINT8 spike [(0, 16)] = Ok (scale, zp) ->
  length pk = 16 -> length outm = 64 -> sizes_ok 64 16 nt -> sizes_ok 64 16 nt2 -> Forall is_byte extra ->
  returns spike pk (quantize_call A nt oaddr DT_F32 DT_UINT8 scale zp RM_NEAREST thr spike pk) (Ok p) ->
  returns (p ++ extra) outm (dequantize_call A2 nt2 oaddr2 DT_UINT8 DT_F32 scale zp RO_SET (length p) outm) r ->
  val scale = 1%R /\ zp = 127%Z /\ val (f32_at spike 3) = 1000%R /\ exists o, r = Ok o /\ val (f32_at o 3) = 128%R.
Proof.
  intros HC Lp Lo S1 S2 He HQ HD.
  pose proof (spike_config _ _ HC) as E.
  destruct E as [-> ->]. clear HC. destruct f_one_ok as [F1 V1]. split; auto. split; auto. split; [apply spike_elem; lia|].
  assert (Ls : length spike = 64) by reflexivity. assert (Nn : numel DT_F32 64 = 16) by reflexivity.
  assert (Hq : quant_type DT_UINT8) by (right; right; reflexivity). assert (Hf : float_type DT_F32) by (left; reflexivity).
  pose proof (spike_buffers nt pk Lp S1) as HB.
  assert (HN : forall i, i < numel DT_F32 (length spike) -> nearest_ok A f_one (elem_at DT_F32 spike i)) by (rewrite Ls, Nn; apply spike_nearest).
  assert (Z22 : (Z.abs 127 <= 2 ^ 22)%Z) by lia. assert (Z30 : (Z.abs 127 <= 2 ^ 30)%Z) by lia.
  destruct (C01_quantize_nearest _ _ _ _ _ _ _ _ _ _ _ HB one_good Z22 HN HQ) as (p' & E & Lp' & C). injection E as <-.
  assert (H3 : 3 < 16) by lia.
  specialize (C 3). rewrite Ls, Nn in C. specialize (C H3). cbn [elem_at] in C. destruct (spike_elem 3 H3) as [F3 V3].
  fold (scaled (val f_one) (val (f32_at spike 3))) in C. rewrite V1, V3, scaled_one in C by (apply fmt32_int; cbn; lia). rewrite rha_IZR in C.
  change (clamp 0 (2 ^ Z.of_nat (bit_size DT_UINT8) - 1) (spike_val 3 + 127)) with 255%Z in C.
  assert (HT : RM_NEAREST = RM_STOCHASTIC -> threshold thr) by discriminate.
  assert (Z63 : (- 2 ^ 63 <= 127 < 2 ^ 63)%Z) by lia.
  assert (Hbp : Forall is_byte p).
  { destruct (C12_any_data _ _ _ _ _ _ _ _ _ _ _ _ HB HT Z63 HQ) as [X|(o & X & _ & Hp & _)]; [discriminate|]. injection X as ->. exact Hp. }
  assert (HB' : dq_buffers nt2 DT_UINT8 DT_F32 (p ++ extra) (length p) outm).
  { split; [exact Hq|]. split; [exact Hf|]. split; [apply Forall_app; auto|]. split; [rewrite Lp', Lp, Lo; reflexivity|]. split; [rewrite app_length; lia|].
    split; [rewrite Lo, Nn; exact S2|discriminate]. }
  destruct (C07_dequantize_set_f32 _ _ _ _ _ _ _ _ _ _ HB' Z30 HD) as (o & -> & _ & EV & _). exists o. split; auto.
  rewrite Lo, Nn in EV. rewrite (EV 3 H3). rewrite code_at_app; auto.
  - rewrite C. change (255 - 127)%Z with 128%Z. 
    replace (fmul (f32_of_Z 128) f_one) with (f32_of_bits 0x43000000) by (rewrite <- (f32_bits_bits (fmul (f32_of_Z 128) f_one)); apply (f_equal f32_of_bits); vm_compute; reflexivity).
    unfold val; cbn; unfold F2R; cbn; lra.
  - rewrite Lp', Lp. change (codes_per_byte DT_UINT8) with 1. lia.
Qed.
