(** Witnesses12.v -- concrete instances of the theorems of PropsConfigAny.v (C20, C21, C22, C24 for data of any content). *)
From Coq Require Import ZArith List Lia Bool Reals.
From Flocq Require Import Core Binary Bits.
From Verif Require Import Base Floats Dtypes Spec ApiSpec ConfigSpec MinMax MinMaxFacts PropsConfig PropsConfigAny PropsConfigRefuted Witnesses5.
Import ListNotations.
Local Open Scope nat_scope.

(** seventy floats: forty times 1.0, one special value, twenty-nine times -1.0 *)
Definition special (b : Z) : mem := f32_buf (repeat b1 40 ++ [b] ++ repeat bm1 29).
Definition two_blocks : list (nat * nat) := [(0, 35); (35, 70)].
Lemma special_raw b : In b [binf; bninf; bnan] -> raw_data DT_F32 (special b) 70.
Proof.
  intros H. assert (HB : Forall is_byte (special b)) by (apply Forall_is_byte_b; destruct H as [<-|[<-|[<-|[]]]]; vm_compute; reflexivity).
  split; [exact HB|]. destruct H as [<-|[<-|[<-|[]]]]; vm_compute; reflexivity.
Qed.
Lemma cover_70 : block_cover 70 two_blocks /\ block_cover 70 [(0, 70)].
Proof.
  split; split; cbn [two_blocks In].
  - intros b [<-|[<-|[]]]; cbn; lia.
  - intros t Ht. destruct (Nat.lt_ge_cases t 35); [exists (0, 35)|exists (35, 70)]; cbn; split; auto; lia.
  - intros b [<-|[]]; cbn; lia.
  - intros t Ht. exists (0, 70); cbn; split; auto; lia.
Qed.
Lemma special_nan_free b : In b [binf; bninf] -> nan_free DT_F32 (special b) 70.
Proof.
  intros H i Hi. assert (E : forallb (fun i => negb (fis_nan (elem_at DT_F32 (special b) i))) (seq 0 70) = true) by (destruct H as [<-|[<-|[]]]; vm_compute; reflexivity).
  rewrite forallb_forall in E. specialize (E i ltac:(apply in_seq; lia)). apply negb_true_iff in E. exact E.
Qed.
(** one +infinity among 70 elements: scale +infinity on every CPU but SSE4.2, whatever the cut *)
Example C21_plus_witness a dq : a <> SSE42 -> quant_type dq -> compute_quant_config_from_data a DT_F32 dq (special binf) two_blocks = Ok (B754_infinity 24 128 false, 0%Z).
Proof.
  intros Ha Hq. apply C21_plus_infinity with 70; auto; [left; auto|apply special_raw; cbn; auto|apply special_nan_free; cbn; auto|apply cover_70| |].
  - exists 40. split; [lia|]. vm_compute. reflexivity.
  - intros i Hi E. assert (B : forallb (fun i => negb (Z.eqb (bits_of_b32 (elem_at DT_F32 (special binf) i)) bninf)) (seq 0 70) = true) by (vm_compute; reflexivity).
    rewrite forallb_forall in B. specialize (B i ltac:(apply in_seq; lia)). unfold minus_inf_at in E. rewrite E in B. vm_compute in B. discriminate.
Qed.
Example C21_minus_witness a dq : a <> SSE42 -> quant_type dq -> compute_quant_config_from_data a DT_F32 dq (special bninf) two_blocks = UB.
Proof.
  intros Ha Hq. apply C21_minus_infinity with 70; auto; [left; auto|apply special_raw; cbn; auto|apply special_nan_free; cbn; auto|apply cover_70|].
  exists 40. split; [lia|]. vm_compute. reflexivity.
Qed.
Example C22_nan_free_witness a a' dq : a <> SSE42 -> a' <> SSE42 -> quant_type dq ->
  compute_quant_config_from_data a DT_F32 dq (special binf) two_blocks = compute_quant_config_from_data a' DT_F32 dq (special binf) [(0, 70)].
Proof.
  intros Ha Ha' Hq. apply C22_nan_free with 70; auto; try lia; [left; auto|apply special_raw; cbn; auto|apply special_nan_free; cbn; auto|apply cover_70|apply cover_70].
Qed.
(** a NaN among the data, scalar scan: skipped, whatever the cut *)
Example C22_scalar_witness dq : quant_type dq ->
  compute_quant_config_from_data GENERIC DT_F32 dq (special bnan) two_blocks = compute_quant_config_from_data GENERIC DT_F32 dq (special bnan) [(0, 70)].
Proof.
  intros Hq. apply C22_scalar_any_data with 70; auto; try lia; [left; auto|apply special_raw; cbn; auto|apply cover_70|apply cover_70].
Qed.
Example C20_scalar_nan_witness : exists mn mx, find_min_max GENERIC DT_F32 (special bnan) 70 = Ok (mn, mx) /\ fis_nan mn = false /\
  flt (elem_at DT_F32 (special bnan) 50) mn = false /\ flt mx (elem_at DT_F32 (special bnan) 3) = false.
Proof.
  destruct (C20_scalar_skips_nan GENERIC DT_F32 (special bnan) 70) as (mn & mx & E & N & _ & M & _); [auto|left; auto|apply special_raw; cbn; auto|].
  exists mn, mx. split; auto. split; auto. split; apply M; try lia; vm_compute; reflexivity.
Qed.
(** all NaN, bf16: every CPU aborts *)
Example C21_all_nan_witness a dq : quant_type dq -> compute_quant_config_from_data a DT_BF16 dq (bf16_buf (repeat 0x7fc0%Z 70)) two_blocks = Abort.
Proof.
  intros Hq. apply C21_all_nan with 70; auto; [right; auto| |apply cover_70|].
  - split; [apply Forall_is_byte_b|]; vm_compute; reflexivity.
  - intros i Hi. assert (E : forallb (fun i => fis_nan (elem_at DT_BF16 (bf16_buf (repeat 0x7fc0%Z 70)) i)) (seq 0 70) = true) by (vm_compute; reflexivity).
    rewrite forallb_forall in E. apply E, in_seq. lia.
Qed.
(** all three outcomes of C21_any_data occur *)
Example C21_any_data_witness :
  (exists s z, compute_quant_config_from_data AVX2 DT_F32 DT_UINT8 (special bnan) two_blocks = Ok (s, z)) /\
  compute_quant_config_from_data NEON DT_F32 DT_UINT8 (f32_buf (repeat bnan 32)) [(0, 32)] = Abort /\
  compute_quant_config_from_data AVX2 DT_F32 DT_UINT8 (special bninf) two_blocks = UB.
Proof.
  split; [|split; vm_compute; reflexivity].
  destruct (C21_any_data AVX2 DT_F32 DT_UINT8 (special bnan) 70 two_blocks) as [(s & z & E & _)|[(E & _)|(E & _)]];
    [left; auto|right; right; auto|apply special_raw; cbn; auto|lia|apply cover_70|eauto| |];
    exfalso; assert (G : (match compute_quant_config_from_data AVX2 DT_F32 DT_UINT8 (special bnan) two_blocks with Ok _ => true | _ => false end) = true) by (vm_compute; reflexivity);
    rewrite E in G; discriminate.
Qed.
