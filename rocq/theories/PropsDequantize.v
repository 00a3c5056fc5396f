(** PropsDequantize.v -- dequantize: C07, C08, C09 (f32 results, bounds), C13, C14, C28 (f32). *)
From Coq Require Import ZArith List Lia Bool Arith ZifyBool ZifyNat Permutation Reals Lra.
From Flocq Require Import Core Binary Bits.
From Verif Require Import Base Floats Simd Dtypes Spec ApiSpec QuantKernels DequantKernels ExecFacts FloatFacts QuantFacts QuantKernelFacts
  QuantGenericFacts DequantFacts DequantGenericFacts QuantLanes Context ContextFacts Footprint QuantizeFacts DequantizeFacts Api PropsQuantize Schedule
  PropsMemory FloatFacts2.
Import ListNotations.

Ltac Zify.zify_post_hook ::= Z.div_mod_to_equations.

(** A dequantize call whose output span is exactly [outm] and whose input span is the first [in_size] bytes of the
    readable memory [inm]. *)
Definition dequantize_call (A : arch) (nt : nat) (oaddr : Z) (din dout : dtype) (scale : f32) (zp : Z) (op : reduce_op)
    (in_size : nat) (outm : mem) : res (list (list action)) :=
  dequantize A nt oaddr (Z.of_nat in_size) din (Z.of_nat (length outm)) dout scale zp op.
(** Matching buffers.  The last clause: for uint2 -> f32 one byte behind a full packed input must be readable (C09). *)
Definition dq_buffers (nt : nat) (din dout : dtype) (inm : mem) (in_size : nat) (outm : mem) : Prop :=
  let n := numel dout (length outm) in
  quant_type din /\ float_type dout /\ Forall is_byte inm /\
  in_size = bytes_for din n /\ in_size <= length inm /\ sizes_ok (length outm) n nt /\
  (din = DT_UINT2 -> dout = DT_F32 -> n mod 4 = 0 -> n > 0 -> in_size < length inm).

(** The dequantized value: one rounded conversion of the integer difference, one rounded product. *)
Definition dequant_value (scale : f32) (zp code : Z) : f32 := fmul (f32_of_Z (code - zp)) scale.

Lemma code_at_lt din m i : quant_type din -> (0 <= code_at din m i < 256)%Z.
Proof.
  intros H. unfold code_at. cbv zeta. set (v := (_ / _)%Z).
  pose proof (Z.mod_pos_bound v (2 ^ Z.of_nat (bit_size din))) as B.
  destruct H as [->|[->| ->]]; cbn [bit_size] in *;
    [change (2 ^ Z.of_nat 2)%Z with 4%Z in *|change (2 ^ Z.of_nat 4)%Z with 16%Z in *|change (2 ^ Z.of_nat 8)%Z with 256%Z in *]; lia.
Qed.

Lemma dq_scalar_value din scale zp q : quant_type din -> (Z.abs zp <= 2 ^ 30)%Z -> (0 <= q < 256)%Z ->
  dq_scalar din DT_F32 scale zp q = Ok (dequant_value scale zp q).
Proof.
  intros Hq Hz Hc. assert (W : wrap32 zp = zp) by (apply wrap32_id; lia).
  unfold dq_scalar, dequant_value. destruct Hq as [->|[->| ->]]; unfold dq_i32, dq_i64, i32, i64; rewrite ?W;
  [rewrite in_i64_ok by lia|rewrite in_i32_ok by lia|rewrite in_i32_ok by lia]; reflexivity.
Qed.
Lemma lane_mul_value scale zp q : (Z.abs zp <= 2 ^ 30)%Z -> (0 <= q < 256)%Z -> lane_mul scale (wrap32 zp) q = dequant_value scale zp q.
Proof. intros Hz Hc. unfold lane_mul, dequant_value. rewrite (wrap32_id zp) by lia. rewrite wrap32_id by lia. reflexivity. Qed.

Lemma dequant_value_not_nan scale zp q : finite scale -> (Z.abs zp <= 2 ^ 30)%Z -> (0 <= q < 256)%Z -> ~ nan (dequant_value scale zp q).
Proof. intros Hs Hz Hq. apply fmul_not_nan; auto. apply f32_of_Z_finite. lia. Qed.

(** the reduce op that reaches element [i] (uint2 -> f32: SET in the tail, see C08) *)
Definition reaches (din : dtype) (op : reduce_op) (n i : nat) : reduce_op :=
  match din with DT_UINT2 => if i <? 4 * (n / 4) then op else RO_SET | _ => op end.

Lemma f32_at_ld m i : f32_at m i = ld_f32 (slice (4 * i) 4 m).
Proof. reflexivity. Qed.

Theorem dequantize_f32 A nt oaddr din scale zp op inm in_size outm r :
  dq_buffers nt din DT_F32 inm in_size outm -> (Z.abs zp <= 2 ^ 30)%Z -> (op = RO_ADD -> finite scale) ->
  returns inm outm (dequantize_call A nt oaddr din DT_F32 scale zp op in_size outm) r ->
  let n := numel DT_F32 (length outm) in
  exists o, r = Ok o /\ length o = length outm /\
    (forall i, i < n -> slice (4 * i) 4 o = le_bytes 4 (bits_of_f32 (
       match reaches din op n i with
       | RO_SET => dequant_value scale zp (code_at din inm i)
       | RO_ADD => fadd (f32_at outm i) (dequant_value scale zp (code_at din inm i))
       end))) /\
    (forall k, 4 * n <= k -> nth k o 0%Z = nth k outm 0%Z).
Proof.
  intros (Hq & Hfp & Hb & Hi & Hle & HS & Hx) Hz Hs HR n. unfold dequantize_call in HR.
  set (E := fun i => le_bytes 4 (bits_of_f32 (
       match reaches din op n i with
       | RO_SET => dequant_value scale zp (code_at din inm i)
       | RO_ADD => fadd (f32_at outm i) (dequant_value scale zp (code_at din inm i))
       end))).
  assert (EL : forall i, i < n -> length (E i) = 4) by (intros; apply le_bytes_length).
  pose proof (numel_le DT_F32 (length outm) Hfp) as Hn. change (esize DT_F32) with 4 in *. fold n in Hn.
  assert (HC : forall i, (0 <= code_at din inm i < 256)%Z) by (intros; apply code_at_lt; auto).
  assert (HR' := dequantize_core A nt oaddr in_size din (length outm) DT_F32 scale zp op inm outm E r Hq Hfp Hi HS Hb Hle).
  change (esize DT_F32) with 4 in HR'. fold n in HR'.
  apply HR' in HR; auto; clear HR'.
  - rewrite HR. eexists. split; [reflexivity|]. rewrite app_length, map_length, seq_length, skipn_length. split; [lia|]. split.
    + intros i Hi'. rewrite slice_byteE; auto. lia.
    + intros k Hk. rewrite app_nth2 by (rewrite map_length, seq_length; lia). rewrite map_length, seq_length.
      rewrite nth_skipn. f_equal. lia.
  - intros -> E2 Hn0. specialize (Hx eq_refl E2). fold n in Hx, Hi. subst in_size. unfold bytes_for in *. cbn [bit_size] in *.
    destruct (Nat.eq_dec (n mod 4) 0) as [E0|E0]; [specialize (Hx E0 Hn0)|]; lia.
  - intros t i Ht Hbi Hv. unfold E. cbn [dq_el_vec]. unfold dq_el_vec, el_f32.
    assert (Hr : reaches din op n i = op).
    { destruct Hq as [->|[->| ->]]; auto. exfalso. unfold vec_end, dq_block in Hv. destruct A; cbn in Hv; lia. }
    rewrite Hr. rewrite lane_mul_value by auto. destruct op; auto.
    f_equal. f_equal. rewrite f32_at_ld. apply fadd_comm. intros [_ N]. revert N. apply dequant_value_not_nan; auto.
  - intros t i Ht Hbi Hv. unfold step_put. rewrite dq_scalar_value by auto. cbn [bind put]. unfold E, put_f32.
    assert (Hr : dq_op din DT_F32 op n i = reaches din op n i) by (destruct Hq as [->|[->| ->]]; reflexivity).
    rewrite Hr. destruct (reaches din op n i); auto.
Qed.

(** ** C07: dequantize(set) *)
Theorem C07_dequantize_set_f32 A nt oaddr din scale zp inm in_size outm r :
  dq_buffers nt din DT_F32 inm in_size outm -> (Z.abs zp <= 2 ^ 30)%Z ->
  returns inm outm (dequantize_call A nt oaddr din DT_F32 scale zp RO_SET in_size outm) r ->
  let n := numel DT_F32 (length outm) in
  exists o, r = Ok o /\ length o = length outm /\
    (* the float product, bit for bit, for every scale including infinities and NaN *)
    (forall i, i < n -> f32_at o i = fmul (f32_of_Z (code_at din inm i - zp)) scale) /\
    (* the same in real numbers, when the result does not overflow *)
    (forall i, i < n -> finite scale -> let p := RN32 (RN32 (IZR (code_at din inm i - zp)) * val scale) in
       (Rabs p < max32)%R -> finite (f32_at o i) /\ val (f32_at o i) = p) /\
    (forall k, 4 * n <= k -> nth k o 0%Z = nth k outm 0%Z).
Proof.
  intros HB Hz HR n. assert (Hno : RO_SET = RO_ADD -> finite scale) by discriminate.
  destruct (dequantize_f32 _ _ _ _ _ _ _ _ _ _ _ HB Hz Hno HR) as (o & -> & HL & HE & HF).
  fold n in HE, HF. exists o. split; auto. split; auto.
  assert (G : forall i, i < n -> f32_at o i = fmul (f32_of_Z (code_at din inm i - zp)) scale).
  { intros i Hi. rewrite f32_at_ld, HE by auto. rewrite ld_f32_bytes. unfold reaches. destruct din; auto. destruct (_ <? _); auto. }
  split; auto. split; auto.
  intros i Hi Hs p Hp. rewrite G by auto. pose proof HB as (Hq & _). pose proof (code_at_lt din inm i Hq).
  destruct (f32_of_Z_finite (code_at din inm i - zp)) as [Fz Vz]; [lia|].
  destruct (fmul_ok (f32_of_Z (code_at din inm i - zp)) scale) as [F V]; auto.
  - rewrite Vz. exact Hp.
  - rewrite V, Vz. auto.
Qed.

(** ** C08: dequantize(add).  Every element accumulates, except the last [n mod 4] elements of uint2 -> f32. *)
Theorem C08_dequantize_add_f32 A nt oaddr din scale zp inm in_size outm r :
  dq_buffers nt din DT_F32 inm in_size outm -> (Z.abs zp <= 2 ^ 30)%Z -> finite scale ->
  returns inm outm (dequantize_call A nt oaddr din DT_F32 scale zp RO_ADD in_size outm) r ->
  let n := numel DT_F32 (length outm) in
  exists o, r = Ok o /\ length o = length outm /\
    (forall i, i < n -> (din = DT_UINT2 -> i < 4 * (n / 4)) ->
       f32_at o i = fadd (f32_at outm i) (fmul (f32_of_Z (code_at din inm i - zp)) scale)) /\
    (forall k, 4 * n <= k -> nth k o 0%Z = nth k outm 0%Z).
Proof.
  intros HB Hz Hs HR n. destruct (dequantize_f32 _ _ _ _ _ _ _ _ _ _ _ HB Hz (fun _ => Hs) HR) as (o & -> & HL & HE & HF).
  fold n in HE, HF. exists o. split; auto. split; auto. split; auto.
  intros i Hi Ht. rewrite (f32_at_ld o), HE by auto. rewrite ld_f32_bytes. unfold reaches. destruct din; auto.
  destruct (Nat.ltb_spec i (4 * (n / 4))) as [L|L]; auto. specialize (Ht eq_refl). lia.
Qed.
(** C08 is false of the code for uint2 -> f32: in the tail the old value is lost, on every kernel set, for every
    buffer, scale and schedule. *)
Theorem C08_add_uint2_tail_refuted A nt oaddr scale zp inm in_size outm r i :
  dq_buffers nt DT_UINT2 DT_F32 inm in_size outm -> (Z.abs zp <= 2 ^ 30)%Z -> finite scale ->
  returns inm outm (dequantize_call A nt oaddr DT_UINT2 DT_F32 scale zp RO_ADD in_size outm) r ->
  let n := numel DT_F32 (length outm) in
  4 * (n / 4) <= i < n ->
  exists o, r = Ok o /\ f32_at o i = fmul (f32_of_Z (code_at DT_UINT2 inm i - zp)) scale.
Proof.
  intros HB Hz Hs HR n Hi. destruct (dequantize_f32 _ _ _ _ _ _ _ _ _ _ _ HB Hz (fun _ => Hs) HR) as (o & -> & HL & HE & HF).
  fold n in HE, HF. exists o. split; auto. rewrite f32_at_ld, HE by lia. rewrite ld_f32_bytes. unfold reaches.
  destruct (Nat.ltb_spec i (4 * (n / 4))) as [L|L]; auto. lia.
Qed.

(** ** C09: footprint of dequantize.  All buffers, all data. *)
Theorem C09_footprint A nt oaddr din dout scale zp op in_size out_size jobs :
  quant_type din -> float_type dout -> in_size = bytes_for din (numel dout out_size) -> sizes_ok out_size (numel dout out_size) nt ->
  dequantize A nt oaddr (Z.of_nat in_size) din (Z.of_nat out_size) dout scale zp op = Ok jobs ->
  length jobs = nt /\
  (* reads stay in the input span, except for uint2 -> f32 with a whole number of packed bytes *)
  (~ (din = DT_UINT2 /\ dout = DT_F32 /\ numel dout out_size mod 4 = 0) ->
     forall j a k, In j jobs -> In a j -> touches_in a k -> k < in_size) /\
  (forall j a k, In j jobs -> In a j -> touches_in a k -> k <= in_size) /\
  (forall j a k, In j jobs -> In a j -> touches_out a k -> k < stride dout * numel dout out_size) /\
  (forall k, k < stride dout * numel dout out_size -> exists j a, In j jobs /\ In a j /\ touches_out a k).
Proof.
  intros Hq Hfp Ho HS HJ. rewrite dequantize_jobs in HJ by auto. injection HJ as <-.
  destruct (d_foot A din dout op (numel dout out_size) nt scale zp Hq Hfp) as [T W]; [destruct HS; lia|].
  set (jobs := map _ _) in *. change (esize dout) with (stride dout) in *.
  match type of W with Forall (within ?L _) _ => set (L0 := L) in * end.
  assert (HW : forall j a, In j jobs -> In a j -> within L0 (stride dout * numel dout out_size) a).
  { intros j a Hj Ha. rewrite Forall_forall in W. apply W. apply in_concat. eauto. }
  split; [unfold jobs; rewrite map_length, seq_length; auto|]. split; [|split; [|split]].
  - intros Hne j a k Hj Ha Hk. destruct (HW j a Hj Ha) as [H _]. unfold touches_in in Hk. subst in_size.
    assert (L0 = bytes_for din (numel dout out_size)); [|lia]. unfold L0.
    destruct Hq as [->|[->| ->]], Hfp as [->| ->]; auto. destruct (Nat.eqb_spec (numel DT_F32 out_size mod 4) 0); auto. tauto.
  - intros j a k Hj Ha Hk. destruct (HW j a Hj Ha) as [H _]. unfold touches_in in Hk. subst in_size.
    assert (L0 <= S (bytes_for din (numel dout out_size))); [|lia]. unfold L0.
    destruct din, dout; auto. destruct (_ =? _); auto.
  - intros j a k Hj Ha Hk. destruct (HW j a Hj Ha). unfold touches_out in Hk. lia.
  - intros k Hk. destruct (tiles_cover _ _ _ k T) as (a & Ha & Hr); [lia|]. apply in_concat in Ha. destruct Ha as (j & Hj & Ha). exists j, a. auto.
Qed.
