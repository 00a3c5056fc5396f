(** Witnesses21.v -- concrete cases of C54_constant_all_types (seventy times 2.5 quantized stochastically to uint8 and dequantized to bf16) and of C58_params_view. *)
From Coq Require Import ZArith List Lia Bool Arith ZifyBool ZifyNat Reals Lra.
From Flocq Require Import Core Binary Bits.
From Verif Require Import Base Floats Dtypes Spec ApiSpec ConfigSpec Context Api FloatFacts FloatFacts2 PropsQuantize PropsDequantize PropsRoundTrip RoundTripFacts MinMax ConfigFacts PropsConfig
  PropsStochastic PropsNaive PropsConstant Python PropsPython PropsPython2 PyViews PropsViews PropsViews2 Witnesses Witnesses5 Witnesses9 Witnesses15 Witnesses16 Witnesses16.
Import ListNotations.

Example C54_all_types_witness a A A2 nt nt2 oaddr oaddr2 thr p r scale zp :
  threshold thr -> few nt -> few nt2 -> compute_quant_config_from_data a DT_F32 DT_UINT8 (const_data 0x40200000) [(0, 70)] = Ok (scale, zp) ->
  returns (const_data 0x40200000) (sample_out DT_UINT8) (quantize_call A nt oaddr DT_F32 DT_UINT8 scale zp RM_STOCHASTIC thr (const_data 0x40200000) (sample_out DT_UINT8)) (Ok p) ->
  returns (p ++ [0%Z]) (sample DT_BF16) (dequantize_call A2 nt2 oaddr2 DT_UINT8 DT_BF16 scale zp RO_SET (length p) (sample DT_BF16)) r ->
  exists o, r = Ok o /\ ((forall i, i < 70 -> val (elem_at DT_BF16 o i) = 2%R) \/ (forall i, i < 70 -> val (elem_at DT_BF16 o i) = 3%R)).
Proof.
  intros Ht Hn Hn2 EC HQ HD. set (b := 0x40200000%Z) in *.
  assert (Hd : float_type DT_F32) by (left; reflexivity). assert (Hd2 : float_type DT_BF16) by (right; reflexivity).
  assert (Hq : quant_type DT_UINT8) by (right; right; reflexivity). destruct (sample_len _ Hd2) as [SL SN].
  destruct (const_facts b (5 / 2)) as [HF HV].
  { apply Forall_is_byte_b; vm_compute; reflexivity. }
  { vm_compute; reflexivity. }
  { unfold val. cbn; unfold F2R; cbn; lra. }
  assert (L : length (const_data b) = 280) by reflexivity.
  assert (Hs : (Rabs (5 / 2) < bpow radix2 30)%R) by (change (bpow radix2 30) with 1073741824%R; rewrite Rabs_pos_eq; lra).
  destruct (C54_constant_all_types a [(0, 70)] A nt oaddr A2 nt2 oaddr2 DT_F32 DT_BF16 DT_UINT8 scale zp RM_STOCHASTIC thr (const_data b) (sample_out DT_UINT8) p [0%Z] (sample DT_BF16) r (5 / 2)%R)
    as (Z & _ & o & t & -> & _ & [[T|T] _] & HO & _);
    rewrite ?SN; auto using whole70; try lia; try discriminate.
  - unfold buffers_ok. rewrite L. change (numel DT_F32 280) with 70. split; auto. split; auto. split; [apply HF|]. split; [apply repeat_length|]. unfold sizes_ok, few in *. lia.
  - apply sample_sizes; auto.
  - apply sample_bytes.
  - repeat constructor; lia.
  - rewrite (Zfloor_imp 2) in T by (cbn; lra). exists o. split; auto. left. intros i Hi. rewrite SN in HO. destruct (HO i Hi) as [_ ->]. rewrite T, Z. reflexivity.
  - rewrite (Zceil_imp 3) in T by (cbn; lra). exists o. split; auto. right. intros i Hi. rewrite SN in HO. destruct (HO i Hi) as [_ ->]. rewrite T, Z. reflexivity.
Qed.

(** C58: the transpose inside a storage with infinities and NaNs around it, and the same matrix on its own: the same parameters. *)
Definition own_matrix : view := mk_view T_float32 [3; 2] [2; 1] 0 8192 (as_buf DT_F32 [0xBF80; 0xBE80; 0x3F80; 0x3F40; 0x3F00; 0]%Z).
Example C58_params_witness opt a f1 f2 blocks : f1 <> 0%Z -> f2 <> 0%Z ->
  view_compute_quant_params opt a transposed f1 T_quint4x2 blocks = view_compute_quant_params opt a own_matrix f2 T_quint4x2 blocks.
Proof.
  intros H1 H2. apply C58_params_view; try reflexivity.
  - apply transposed_good.
  - split; [reflexivity|]. split; [apply byteb_ok; reflexivity|]. split; [cbn; lia|]. intros idx V. apply index32 in V. destruct V as (i & j & -> & Hi & Hj).
    change (length (v_store own_matrix)) with 24. unfold place, own_matrix; cbn [v_offset v_strides storage_index v_dtype element_size]. lia.
  - split; [intros; contradiction|cbn; lia].
  - split; [intros; contradiction|cbn; lia].
  - split; discriminate.
  - intros idx V. apply index32 in V. destruct V as (i & j & -> & Hi & Hj). do 3 (destruct i as [|i]; [do 2 (destruct j as [|j]; [reflexivity|]); lia|]). lia.
Qed.
