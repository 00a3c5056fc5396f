(** Witnesses25.v -- concrete cases of C64 (PropsDiag.v). *)
From Coq Require Import ZArith Bool Ascii String List Lia.
From Verif Require Import Base Floats Dtypes Spec ApiSpec Context PropsDispatch Diag PropsDiag.
Import ListNotations.
Local Open Scope nat_scope.

Definition src_path : text := T "/home/ci/pi-quant/src/piquant.cpp".
Lemma src_path_ok : path_ok src_path. Proof. split; vm_compute; congruence. Qed.
(* 5 f32 values (20 bytes) to uint4 need 3 bytes; 4 are given *)
Example w25_quantize_rejected : ~ quantize_args_ok 20 DT_F32 4 DT_UINT4.
Proof. intros (_ & _ & H). vm_compute in H. discriminate. Qed.
Example w25_quantize_text : exists r, quantize_report 20 DT_F32 4 DT_UINT4 = Ok (Some r) /\
  print_report true src_path r = Ok (esc_red ++ T "/home/ci/pi-quant/src/piquant.cpp:292 Assertion failed: out.size() == expected_out_bytes <- quantize: expected output buffer to hold 3 byte(s) for 5 element(s) of uint4 (bit_size=4), but got 4" ++ esc_reset).
Proof.
  destruct (C64_quantize_message src_path 20 DT_F32 4 DT_UINT4 src_path_ok ltac:(lia) ltac:(lia) w25_quantize_rejected) as (r & b & E & P & [[C _]|[(_ & C & _)|(_ & _ & _ & ->)]]).
  - destruct C as [C|[C|C]]; discriminate.
  - destruct C as [C|C]; discriminate.
  - exists r. split; [exact E|]. rewrite P. reflexivity.
Qed.
(* dequantize given an f32 input and asked for bf16 claims the input is bf16 *)
Example w25_dequantize_text : exists r, dequantize_report 20 DT_F32 10 DT_BF16 = Ok (Some r) /\
  print_report true src_path r = Ok (esc_red ++ T "/home/ci/pi-quant/src/piquant.cpp:321 Assertion failed: dti.flags & dtype_flags::is_quant <- input dtype (bf16) must be a quantized type" ++ esc_reset).
Proof.
  destruct (C64_dequantize_names_refuted src_path 20 DT_F32 10 DT_BF16 src_path_ok (or_introl eq_refl)) as (r & E & P). exists r. split; [exact E|]. rewrite P. reflexivity.
Qed.
Example w25_fused_rejected : ~ fused_args_ok 20 DT_F32 24 DT_UINT8.
Proof. intros (_ & _ & H). discriminate. Qed.
Example w25_fused_text : exists r, fused_report 20 DT_F32 24 DT_UINT8 = Ok (Some r) /\
  print_report true src_path r = Ok (esc_red ++ T "/home/ci/pi-quant/src/piquant.cpp:355 Assertion failed: in.size() == out.size() <- input and output spans must have the same length, but 20 != 24" ++ esc_reset).
Proof.
  destruct (C64_fused_message src_path 20 DT_F32 24 DT_UINT8 src_path_ok ltac:(lia) ltac:(lia) w25_fused_rejected) as (r & b & E & P & [[C _]|[(_ & C & _)|(_ & _ & _ & ->)]]).
  - destruct C as [C|[C|C]]; discriminate.
  - destruct C as [C|C]; discriminate.
  - exists r. split; [exact E|]. rewrite P. reflexivity.
Qed.
(* numbers: the largest size_t *)
Example w25_number : dec 18446744073709551615 = T "18446744073709551615" /\ number (dec 18446744073709551615) = 18446744073709551615%Z.
Proof. split; [vm_compute; reflexivity|apply C64_numbers; lia]. Qed.
(* a path of 8188 characters *)
Example w25_long : exists r, target_report DT_F32 = Ok (Some r) /\ print_report true (repeat "a"%char (Z.to_nat 8188)) r = UB.
Proof. apply C64_long_path_refuted; [left; reflexivity|rewrite repeat_length; lia]. Qed.
