(** Witnesses16.v -- concrete instances of the theorems of PropsPython3.v (C57) and PropsViews.v (C58). *)
From Coq Require Import String ZArith List Lia Bool Arith ZifyBool ZifyNat Reals Lra.
From Flocq Require Import Core Binary Bits.
From Verif Require Import Base Floats Dtypes Spec ApiSpec ConfigSpec Context Api FloatFacts FloatFacts2 PropsQuantize PropsDequantize PropsRoundTrip RoundTripFacts MinMax ConfigFacts PropsConfig
  PropsConfigRefuted PropsRoundTripTypes RoundTripFacts PropsTests Capi PropsCapi Python PropsPython PropsPython2 PropsPython3 PyViews PropsViews Witnesses Witnesses5 Witnesses15.
Import ListNotations.

(** C57: a one-dimensional tensor {-1, 1, 1/2, -1/4, 3/4} of float32 or bfloat16, quantized to quint4x2 and dequantized to float32. *)
Definition five_tensor (td : torch_dtype) (d : dtype) : tensor := mk_tensor td [5] 4096 (unit_data d).
Definition five_codes : tensor := mk_tensor T_quint4x2 [5] 8192 [255; 7; 9]%Z.
Definition five_out : tensor := mk_tensor T_float32 [5] 16384 (prev_buf DT_F32 RO_ADD).
Lemma byteb_ok l : forallb (fun z => (0 <=? z) && (z <? 256))%Z l = true -> Forall is_byte l.
Proof. intros H. rewrite forallb_forall in H. apply Forall_forall. intros x Hx. specialize (H x Hx). unfold is_byte. lia. Qed.
Lemma wide2 : (bpow radix2 (-112) <= 1 - -1 <= bpow radix2 100)%R.
Proof. split; [apply wide_enough|]. apply Rle_trans with (bpow radix2 1); [change (bpow radix2 1) with 2%R; lra|apply bpow_le; lia]. Qed.
Example C57_witness a A nt A2 nt2 td din rm : float_dtype td din -> a <> SSE42 -> few nt -> few nt2 ->
  exists scale zp, torch_compute_quant_params false a (five_tensor td din) T_quint4x2 [(0, 2); (2, 5)] = Ret (Ok (scale, zp)) /\
    exists call, torch_quantize false A nt (five_tensor td din) (f64_of_f32 scale) zp T_quint4x2 (mode_name rm) five_codes thr4 = Ret call /\
      forall r, returns (unit_data din) (t_data five_codes) call r -> exists codes, r = Ok codes /\
        exists call2, torch_dequantize false A2 nt2 (mk_tensor T_quint4x2 [5] 8192 codes) (f64_of_f32 scale) zp T_float32 "set" five_out = Ret call2 /\
          forall r2, returns codes (t_data five_out) call2 r2 -> exists y, r2 = Ok y /\
            forall i, i < 5 -> (Rabs (val (f32_at y i) - val (elem_at din (unit_data din) i)) <= val scale * (match rm with RM_NEAREST => / 2 | RM_STOCHASTIC => 1 end + / 2048))%R.
Proof.
  intros F Ha Hn Hn2. pose proof F as F'. apply float_dtype_iff in F'. destruct F' as [Fd Ff].
  assert (T1 : torch_tensor (five_tensor td din)).
  { split; [|split]; [destruct F as [[-> ->]|[-> ->]]; reflexivity|apply unit_bytes; auto|cbn; split; discriminate]. }
  assert (T2 : torch_tensor five_codes) by (split; [reflexivity|split; [apply byteb_ok; reflexivity|cbn; split; discriminate]]).
  assert (T3 : torch_tensor five_out) by (split; [reflexivity|split; [apply prev_bytes; left; auto|cbn; split; discriminate]]).
  destruct (C57_torch_round_trip a [(0, 2); (2, 5)] A nt A2 nt2 (five_tensor td din) five_codes five_out T_quint4x2 T_float32 din DT_UINT4 DT_F32 rm thr4 (-1) 1) as (scale & zp & E1 & _ & _ & call & E2 & H);
    auto using cover5, wide2, quarter_threshold; try lra.
  - right; left; auto.
  - left; auto.
  - change (elements (t_shape (five_tensor td din))) with 5. cbn [five_tensor t_data]. destruct (unit_len din RO_ADD Ff) as (L1 & L2 & _). rewrite L1, <- L2. apply five_sizes; auto.
  - change (elements (t_shape (five_tensor td din))) with 5. apply (five_sizes DT_F32 RO_ADD); auto. left; auto.
  - apply unit_finite. auto.
  - apply unit_range. auto.
  - exists scale, zp. split; auto. exists call. split; auto. intros r HR. destruct (H r HR) as (codes & -> & _ & HD). exists codes. split; auto.
    destruct HD as (call2 & E3 & HY); [intros _ X; discriminate|]. exists call2. split; auto. intros r2 HR2. destruct (HY r2 HR2) as (y & -> & _ & HN). exists y. split; auto.
    intros i Hi. destruct (HN i Hi) as [_ N]. unfold workflow_error in N. rewrite Rplus_0_r in N. exact N.
Qed.

(** C58: storage {inf, -1, 1, 1/2, -1/4, 3/4, 0, nan}; the view is the transpose of the 2 x 3 matrix that starts at element 1. *)
Definition wide_store : mem := as_buf DT_F32 [0x7F80; 0xBF80; 0x3F80; 0x3F00; 0xBE80; 0x3F40; 0; 0x7FC0]%Z.
Definition transposed : view := mk_view T_float32 [3; 2] [1; 3] 1 4096 wide_store.
Lemma index32 idx : valid_index [3; 2] idx -> exists i j, idx = [i; j] /\ i < 3 /\ j < 2.
Proof. intros V. inversion V as [|? i ? l Hi V1]; subst. inversion V1 as [|? j ? l' Hj V2]; subst. inversion V2; subst. eauto. Qed.
Lemma valid32 i j : i < 3 -> j < 2 -> valid_index [3; 2] [i; j].
Proof. intros Hi Hj. constructor; [exact Hi|]. constructor; [exact Hj|]. constructor. Qed.
Lemma transposed_good : good_view transposed /\ is_contiguous transposed = false.
Proof.
  split; [|reflexivity]. split; [reflexivity|]. split; [apply byteb_ok; reflexivity|]. split; [cbn; lia|]. intros idx V. apply index32 in V. destruct V as (i & j & -> & Hi & Hj).
  change (length (v_store transposed)) with 32. unfold place, transposed; cbn [v_offset v_strides storage_index v_dtype element_size]. lia.
Qed.
Lemma transposed_range : view_range transposed DT_F32 (-1) 1.
Proof.
  assert (E : forall i j, place transposed [i; j] = 1 + i + 3 * j) by (intros; unfold place, transposed; cbn [v_offset v_strides storage_index]; lia).
  assert (V : forall k, 1 <= k <= 6 -> finite (elem_at DT_F32 wide_store k) /\ val (elem_at DT_F32 wide_store k) = nth k [0; -1; 1; 1 / 2; - (1 / 4); 3 / 4; 0]%R 0%R).
  { intros k Hk. do 7 (destruct k as [|k]; [try lia; (split; [vm_compute; reflexivity|unfold val; cbn; try reflexivity; unfold F2R; cbn; lra])|]). lia. }
  split; [|split].
  - exists [0; 0]. split; [apply valid32; lia|]. rewrite E. apply V. lia.
  - exists [1; 0]. split; [apply valid32; lia|]. rewrite E. apply V. lia.
  - intros idx H. apply index32 in H. destruct H as (i & j & -> & Hi & Hj). rewrite E. change (v_store transposed) with wide_store.
    destruct (V (1 + i + 3 * j) ltac:(lia)) as [F ->]. split; auto. do 3 (destruct i as [|i]; [do 2 (destruct j as [|j]; [cbn; lra|]); lia|]). lia.
Qed.
Example C58_witness a A nt rm : a <> SSE42 -> few nt ->
  exists scale zp, view_compute_quant_params false a transposed 65536 T_quint8 [(0, 2); (2, 6)] = Ret (Ok (scale, zp)) /\
    exists call, view_quantize false A nt transposed 65536 (f64_of_f32 scale) zp T_quint8 (mode_name rm) (mk_tensor T_quint8 [3; 2] 8192 [1; 2; 3; 4; 5; 6]%Z) thr4 = Ret call /\
      forall r, returns (t_data (view_arg transposed 65536)) [1; 2; 3; 4; 5; 6]%Z call r -> exists codes, r = Ok codes /\
        exists call2, torch_dequantize false A nt (mk_tensor T_quint8 [3; 2] 8192 codes) (f64_of_f32 scale) zp T_float32 "set" (mk_tensor T_float32 [3; 2] 16384 (repeat 0%Z 24)) = Ret call2 /\
          forall r2, returns codes (repeat 0%Z 24) call2 r2 -> exists y, r2 = Ok y /\
            forall i j, i < 3 -> j < 2 ->
              (Rabs (val (f32_at y (2 * i + j)) - val (f32_at wide_store (1 + i + 3 * j))) <= val scale * (match rm with RM_NEAREST => / 2 | RM_STOCHASTIC => 1 end + / 2048))%R.
Proof.
  intros Ha Hn. destruct transposed_good as [G _].
  assert (GF : good_fresh transposed 65536) by (unfold good_fresh; cbn; split; discriminate).
  assert (SZ : sizes_ok (elements (v_shape transposed) * 4) (elements (v_shape transposed)) nt) by (change (elements (v_shape transposed)) with 6; unfold sizes_ok, few in *; lia).
  destruct (C58_workflow_view a [(0, 2); (2, 6)] A nt A nt transposed 65536 65536 (mk_tensor T_quint8 [3; 2] 8192 [1; 2; 3; 4; 5; 6]%Z) (mk_tensor T_float32 [3; 2] 16384 (repeat 0%Z 24))
    T_quint8 T_float32 DT_F32 DT_UINT8 DT_F32 rm thr4 (-1) 1) as (scale & zp & E1 & call & E2 & H); auto using transposed_range, wide2, quarter_threshold; try lra.
  - left; auto.
  - right; right; auto.
  - left; auto.
  - split; [reflexivity|split; [apply byteb_ok; reflexivity|cbn; split; discriminate]].
  - split; [reflexivity|split; [apply byteb_ok; reflexivity|cbn; split; discriminate]].
  - split; [intros b [<-|[<-|[]]]; cbn; lia|]. intros t Ht. change (elements (v_shape transposed)) with 6 in Ht. destruct (lt_dec t 2); [exists (0, 2)|exists (2, 6)]; cbn; split; auto; lia.
  - exists scale, zp. split; auto. exists call. split; auto. intros r HR. destruct (H r HR) as (codes & -> & HD). exists codes. split; auto.
    destruct HD as (call2 & E3 & HY); [intros _ X; discriminate|]. exists call2. split; auto. intros r2 HR2. destruct (HY r2 HR2) as (y & -> & HN). exists y. split; auto.
    intros i j Hi Hj. destruct (HN [i; j] (valid32 i j Hi Hj)) as [_ N]. unfold workflow_error in N. rewrite Rplus_0_r in N.
    replace (row_major (v_shape transposed) [i; j]) with (2 * i + j) in N by (unfold transposed; cbn [v_shape row_major elements fold_right]; lia).
    replace (place transposed [i; j]) with (1 + i + 3 * j) in N by (unfold place, transposed; cbn [v_offset v_strides storage_index]; lia). exact N.
Qed.
(** a view of 8-bit codes with step 2: {5, 250} out of {9, 5, 7, 250}, dequantized *)
Example C58_dequantize_witness A nt r : few nt ->
  exists call, view_dequantize false A nt (mk_view T_uint8 [2] [2] 1 4096 [9; 5; 7; 250]%Z) 65536 (f64_of_f32 f_half) 3 T_float32 "set" (mk_tensor T_float32 [2] 16384 (repeat 0%Z 8)) = Ret call /\
    (returns (t_data (view_arg (mk_view T_uint8 [2] [2] 1 4096 [9; 5; 7; 250]%Z) 65536)) (repeat 0%Z 8) call r ->
     exists o, r = Ok o /\ f32_at o 0 = fmul (f32_of_Z 2) f_half /\ f32_at o 1 = fmul (f32_of_Z 247) f_half).
Proof.
  intros Hn. set (v := mk_view T_uint8 [2] [2] 1 4096 [9; 5; 7; 250]%Z).
  assert (G : good_view v).
  { split; [reflexivity|]. split; [apply byteb_ok; reflexivity|]. split; [cbn; lia|]. intros idx V. inversion V as [|? i ? l Hi V1]; subst. inversion V1; subst.
    unfold place, v; cbn [v_offset v_strides storage_index v_dtype element_size v_store length]. lia. }
  destruct (C58_dequantize_view A nt v 65536 (mk_tensor T_float32 [2] 16384 (repeat 0%Z 8)) (f64_of_f32 f_half) 3 r G) as (call & E & H); auto.
  - unfold good_fresh. cbn. split; discriminate.
  - split; [reflexivity|split; [apply byteb_ok; reflexivity|cbn; split; discriminate]].
  - cbn. lia.
  - change (elements (v_shape v)) with 2. unfold sizes_ok, few in *. lia.
  - lia.
  - exists call. split; auto. intros HR. destruct (H HR) as (o & -> & _ & HC). exists o. split; auto.
    assert (S : f32_of_f64 (f64_of_f32 f_half) = f_half).
    { apply scale_survives; [apply half_normal|]. unfold val, f_half; cbn; unfold F2R; cbn; lra. }
    rewrite S in HC. split; [apply (HC [0])|apply (HC [1])]; (constructor; [lia|constructor]).
Qed.
(** a 2 x 4 quint2x4 tensor (two bytes) *)
Example C57_quint2x4_witness A nt scale call r : few nt ->
  torch_dequantize false A nt (mk_tensor T_quint2x4 [2; 4] 4096 [27; 228]%Z) scale 1 T_float32 "set" (mk_tensor T_float32 [2; 4] 8192 (repeat 0%Z 32)) = Ret call ->
  returns [27; 228]%Z (repeat 0%Z 32) call r -> r = UB.
Proof.
  intros Hn. apply (C57_quint2x4_float32_refuted A nt (mk_tensor T_quint2x4 [2; 4] 4096 [27; 228]%Z) (mk_tensor T_float32 [2; 4] 8192 (repeat 0%Z 32)) scale 1 "set"); auto;
    try (split; [reflexivity|split; [apply byteb_ok; reflexivity|cbn; split; discriminate]]); try discriminate.
  - cbn. lia.
  - change (elements (t_shape (mk_tensor T_quint2x4 [2; 4] 4096 [27; 228]%Z))) with 8. unfold sizes_ok, few in *. lia.
Qed.
