(** PropsCpu.v -- C32: the context installs a kernel set the CPU can run. *)
From Coq Require Import ZArith List Bool Lia.
From Verif Require Import Base Dtypes CpuDetect.
Import ListNotations.
Local Open Scope Z_scope.

(** ** Specification: feature bits (Intel SDM vol. 2A, CPUID) and operating-system support (XCR0) *)
Inductive feature := F_SSE42 | F_FMA | F_AVX | F_F16C | F_AVX2 | F_AVX512F | F_AVX512BW | F_AVX512BF16 | F_OS_YMM | F_OS_ZMM.
Definition has (c : cpu) (f : feature) : Prop :=
  match f with
  | F_SSE42 => 1 <= c_max_leaf c /\ Z.testbit (c_1_ecx c) 20 = true
  | F_FMA => 1 <= c_max_leaf c /\ Z.testbit (c_1_ecx c) 12 = true
  | F_AVX => 1 <= c_max_leaf c /\ Z.testbit (c_1_ecx c) 28 = true
  | F_F16C => 1 <= c_max_leaf c /\ Z.testbit (c_1_ecx c) 29 = true
  | F_AVX2 => 7 <= c_max_leaf c /\ Z.testbit (c_7_ebx c) 5 = true
  | F_AVX512F => 7 <= c_max_leaf c /\ Z.testbit (c_7_ebx c) 16 = true
  | F_AVX512BW => 7 <= c_max_leaf c /\ Z.testbit (c_7_ebx c) 30 = true
  | F_AVX512BF16 => 7 <= c_max_leaf c /\ Z.testbit (c_71_eax c) 5 = true
  | F_OS_YMM => Z.testbit (c_1_ecx c) 27 = true /\ Z.testbit (c_xcr0 c) 1 = true /\ Z.testbit (c_xcr0 c) 2 = true
  | F_OS_ZMM => Z.testbit (c_1_ecx c) 27 = true /\ Z.testbit (c_xcr0 c) 5 = true /\ Z.testbit (c_xcr0 c) 6 = true /\ Z.testbit (c_xcr0 c) 7 = true
  end.
(** The instruction sets each kernel file is compiled for (CMakeLists.txt:43-46 and the #error guards at the top of src/amd64/kernel_amd64_*.cpp). *)
Definition needs (a : arch) : list feature :=
  match a with
  | GENERIC | NEON => []
  | SSE42 => [F_SSE42]
  | AVX2 => [F_SSE42; F_AVX; F_AVX2; F_FMA; F_F16C; F_OS_YMM]
  | AVX512F => [F_SSE42; F_AVX; F_AVX2; F_FMA; F_F16C; F_AVX512F; F_AVX512BW; F_OS_YMM; F_OS_ZMM]
  | AVX512BF16 => [F_SSE42; F_AVX; F_AVX2; F_FMA; F_F16C; F_AVX512F; F_AVX512BW; F_AVX512BF16; F_OS_YMM; F_OS_ZMM]
  end.
Definition supports (c : cpu) (a : arch) : Prop := forall f, In f (needs a) -> has c f.
(** Architectural facts: which features every x86 processor with a feature also has; XCR0 cannot enable ZMM state without YMM and XMM state;
    the highest leaf number is a small number. *)
Definition architectural (c : cpu) : Prop :=
  0 <= c_max_leaf c < 2 ^ 31 /\
  (has c F_AVX -> has c F_SSE42) /\ (has c F_AVX2 -> has c F_AVX) /\
  (has c F_AVX512F -> has c F_AVX2 /\ has c F_FMA /\ has c F_F16C) /\
  (has c F_OS_ZMM -> has c F_OS_YMM).
(** every processor with AVX512F also having AVX512BW (true from Skylake-X on, false of Knights Landing / Knights Mill) *)
Definition bw_with_avx512f (c : cpu) : Prop := has c F_AVX512F -> has c F_AVX512BW.

(** ** Bits *)
Lemma masked_spec r m : masked r m = true <-> forall k, 0 <= k -> Z.testbit m k = true -> Z.testbit r k = true.
Proof.
  unfold masked. rewrite Z.eqb_eq. split.
  - intros H k Hk Hm. rewrite <- H, Z.land_spec in Hm. apply andb_prop in Hm. tauto.
  - intros H. apply Z.bits_inj'. intros k Hk. rewrite Z.land_spec. specialize (H k Hk). destruct (Z.testbit m k); [rewrite H by auto; reflexivity|apply andb_false_r].
Qed.
Lemma any_bit_spec r k : 0 <= k -> any_bit r (Z.shiftl 1 k) = Z.testbit r k.
Proof.
  intros Hk. unfold any_bit. destruct (Z.testbit r k) eqn:E.
  - destruct (Z.eqb_spec (Z.land r (Z.shiftl 1 k)) 0) as [H|H]; auto. exfalso.
    assert (T : Z.testbit (Z.land r (Z.shiftl 1 k)) k = false) by (rewrite H; apply Z.bits_0).
    rewrite Z.land_spec, E, Z.shiftl_spec, Z.sub_diag in T by auto. discriminate.
  - replace (Z.land r (Z.shiftl 1 k)) with 0; auto. symmetry. apply Z.bits_inj'. intros j Hj. rewrite Z.land_spec, Z.bits_0, Z.shiftl_spec by auto.
    destruct (Z.eq_dec j k) as [->|N]; [rewrite E; reflexivity|]. 
    replace (Z.testbit 1 (j - k)) with false; [apply andb_false_r|].
    destruct (Z_lt_le_dec (j - k) 0); [rewrite Z.testbit_neg_r by auto; reflexivity|].
    change 1 with (2 ^ 0). rewrite Z.pow2_bits_false by lia. reflexivity.
Qed.
Fixpoint bits_in (r : Z) (l : list Z) : bool := match l with [] => true | k :: l => Z.testbit r k && bits_in r l end.
Lemma masked_bits r m l : (m = fold_right (fun k a => Z.lor (Z.shiftl 1 k) a) 0 l) -> Forall (fun k => 0 <= k) l -> masked r m = bits_in r l.
Proof.
  intros -> HF. apply eq_true_iff_eq. rewrite masked_spec. induction HF as [|k l Hk HF IH]; cbn [fold_right bits_in].
  - split; auto. intros _ j Hj. rewrite Z.bits_0. discriminate.
  - rewrite andb_true_iff, <- IH. split.
    + intros H. split.
      * apply H; auto. rewrite Z.lor_spec, Z.shiftl_spec, Z.sub_diag by auto. reflexivity.
      * intros j Hj Hb. apply H; auto. rewrite Z.lor_spec, Hb. apply orb_true_r.
    + intros [H1 H2] j Hj. rewrite Z.lor_spec. intros Hb. destruct (Z.testbit (fold_right _ 0 l) j) eqn:E; [auto|]. rewrite orb_false_r in Hb.
      rewrite Z.shiftl_spec in Hb by auto. destruct (Z.eq_dec j k) as [->|N]; auto. exfalso.
      destruct (Z_lt_le_dec (j - k) 0); [rewrite Z.testbit_neg_r in Hb by auto; discriminate|].
      change 1 with (2 ^ 0) in Hb. rewrite Z.pow2_bits_false in Hb by lia. discriminate.
Qed.
Lemma leaf_spec c k : 0 <= c_max_leaf c < 2 ^ 31 -> 0 <= k -> leaf_below c k = (c_max_leaf c <? k).
Proof. intros H Hk. unfold leaf_below, wrap32. rewrite Z.mod_small by lia. f_equal. lia. Qed.

Lemma m_avx2 r : masked r 0x38081001 = bits_in r [0; 12; 19; 27; 28; 29].
Proof. apply masked_bits; [reflexivity|repeat constructor; lia]. Qed.
Lemma m_20 r : masked r 0x20 = bits_in r [5].
Proof. apply masked_bits; [reflexivity|repeat constructor; lia]. Qed.
Lemma m_6 r : masked r 6 = bits_in r [1; 2].
Proof. apply masked_bits; [reflexivity|repeat constructor; lia]. Qed.
Lemma m_e0 r : masked r 0xe0 = bits_in r [5; 6; 7].
Proof. apply masked_bits; [reflexivity|repeat constructor; lia]. Qed.
Lemma m_2728 r : masked r (Z.lor (Z.shiftl 1 27) (Z.shiftl 1 28)) = bits_in r [27; 28].
Proof. apply masked_bits; [reflexivity|repeat constructor; lia]. Qed.
Lemma a_27 r : any_bit r 0x8000000 = Z.testbit r 27.
Proof. apply (any_bit_spec r 27). lia. Qed.
Lemma a_28 r : any_bit r 0x10000000 = Z.testbit r 28.
Proof. apply (any_bit_spec r 28). lia. Qed.
Lemma a_16 r : any_bit r 0x10000 = Z.testbit r 16.
Proof. apply (any_bit_spec r 16). lia. Qed.

Definition sse42_bits (c : cpu) : bool := negb (leaf_below c 1) && Z.testbit (c_1_ecx c) 20.
Definition avx2_bits (c : cpu) : bool := negb (leaf_below c 7) && (bits_in (c_1_ecx c) [0; 12; 19; 27; 28; 29] && (Z.testbit (c_7_ebx c) 5 && bits_in (c_xcr0 c) [1; 2])).
Definition avx512f_bits (c : cpu) : bool := negb (leaf_below c 7) && (bits_in (c_1_ecx c) [27; 28] && (Z.testbit (c_7_ebx c) 16 && bits_in (c_xcr0 c) [5; 6; 7])).
Definition bf16_bits (c : cpu) : bool := avx512f_bits c && Z.testbit (c_71_eax c) 5.

(** No check executes xgetbv where the instruction would fault, for any register contents whatsoever. *)
Lemma check_sse42_bits c : check_sse42 c = Ok (sse42_bits c).
Proof. unfold check_sse42, sse42_bits. rewrite any_bit_spec by lia. destruct (leaf_below c 1); reflexivity. Qed.
Lemma check_avx2_bits c : check_avx2 c = Ok (avx2_bits c).
Proof.
  unfold check_avx2, avx2_bits, xgetbv. rewrite m_avx2, m_20. cbn [bits_in]. rewrite !andb_true_r.
  destruct (leaf_below c 7); [reflexivity|]. cbn [negb andb].
  destruct (Z.testbit (c_1_ecx c) 0), (Z.testbit (c_1_ecx c) 12), (Z.testbit (c_1_ecx c) 19), (Z.testbit (c_1_ecx c) 27), (Z.testbit (c_1_ecx c) 28), (Z.testbit (c_1_ecx c) 29); try reflexivity.
  cbn [negb andb]. destruct (Z.testbit (c_7_ebx c) 5); [|reflexivity]. cbn [negb andb bind]. rewrite m_6. cbn [bits_in]. rewrite andb_true_r. reflexivity.
Qed.
Lemma check_avx512f_bits c : check_avx512f c = Ok (avx512f_bits c).
Proof.
  unfold check_avx512f, avx512f_bits, xgetbv. rewrite a_27, a_28, a_16. cbn [bits_in]. rewrite !andb_true_r.
  destruct (leaf_below c 7); [reflexivity|]. cbn [negb andb].
  destruct (Z.testbit (c_1_ecx c) 27), (Z.testbit (c_1_ecx c) 28); try reflexivity.
  cbn [negb andb orb]. destruct (Z.testbit (c_7_ebx c) 16); [|reflexivity]. cbn [negb andb bind]. rewrite m_e0. cbn [bits_in]. rewrite andb_true_r. reflexivity.
Qed.
Lemma check_bf16_bits c : check_avx512f_bf16 c = Ok (bf16_bits c).
Proof.
  unfold check_avx512f_bf16, bf16_bits, avx512f_bits, xgetbv. rewrite m_2728, !any_bit_spec by lia. cbn [bits_in]. rewrite !andb_true_r.
  destruct (leaf_below c 7); [reflexivity|]. cbn [negb andb].
  destruct (Z.testbit (c_1_ecx c) 27), (Z.testbit (c_1_ecx c) 28); try reflexivity.
  cbn [negb andb orb]. destruct (Z.testbit (c_7_ebx c) 16); [|reflexivity]. cbn [negb andb].
  destruct (Z.testbit (c_71_eax c) 5); cbn [negb bind]; [|rewrite andb_false_r; reflexivity]. rewrite m_e0. cbn [bits_in]. rewrite !andb_true_r. reflexivity.
Qed.

Lemma select_bits c : select_arch c =
  Ok (if bf16_bits c then AVX512BF16 else if avx512f_bits c then AVX512F else if avx2_bits c then AVX2 else if sse42_bits c then SSE42 else GENERIC).
Proof.
  unfold select_arch. rewrite check_bf16_bits, check_avx512f_bits, check_avx2_bits, check_sse42_bits. cbn [bind].
  destruct (bf16_bits c), (avx512f_bits c), (avx2_bits c), (sse42_bits c); reflexivity.
Qed.

(** ** C32.  The constructor never executes an unsupported instruction while probing and always installs some x86 kernel set. *)
Theorem C32_detection_total c : exists a, select_arch c = Ok a /\ a <> NEON.
Proof.
  rewrite select_bits. eexists. split; [reflexivity|]. destruct (bf16_bits c), (avx512f_bits c), (avx2_bits c), (sse42_bits c); discriminate.
Qed.

Lemma leaf_ge c k : 0 <= c_max_leaf c < 2 ^ 31 -> 0 <= k -> leaf_below c k = false -> k <= c_max_leaf c.
Proof. intros H Hk E. rewrite leaf_spec in E by auto. apply Z.ltb_ge in E. auto. Qed.
Ltac split_bits H := repeat (apply andb_prop in H; let H' := fresh "B" in destruct H as [H' H]).

(** On every architecturally consistent CPU, whatever its feature bits: everything the installed set needs is there -- except that nothing
    checks AVX512BW. *)
Theorem C32_supported_but_bw c a f : architectural c -> select_arch c = Ok a -> In f (needs a) -> f <> F_AVX512BW -> has c f.
Proof.
  intros (HL & A1 & A2 & A3 & A4) E Hf Hb. rewrite select_bits in E. injection E as <-.
  assert (Z : avx512f_bits c = true -> has c F_AVX512F /\ has c F_OS_ZMM).
  { unfold avx512f_bits. cbn [bits_in]. intros H. rewrite !andb_true_iff, negb_true_iff in H. destruct H as (L & (B27 & B28 & _) & B16 & X5 & X6 & X7 & _).
    pose proof (leaf_ge c 7 HL ltac:(lia) L). cbn [has]. repeat split; auto; lia. }
  assert (Y : avx512f_bits c = true -> f = F_SSE42 \/ f = F_AVX \/ f = F_AVX2 \/ f = F_FMA \/ f = F_F16C \/ f = F_AVX512F \/ f = F_OS_YMM \/ f = F_OS_ZMM -> has c f).
  { intros H G. destruct (Z H) as [Z1 Z2]. destruct (A3 Z1) as (Z3 & Z4 & Z5). specialize (A2 Z3). specialize (A1 A2). specialize (A4 Z2).
    repeat (destruct G as [-> |G]; [assumption|]). subst f. assumption. }
  destruct (bf16_bits c) eqn:E1.
  { unfold bf16_bits in E1. rewrite andb_true_iff in E1. destruct E1 as [E1 B5]. destruct (Z E1) as [[Z1 _] _].
    cbn [needs In] in Hf. destruct Hf as [Hf|[Hf|[Hf|[Hf|[Hf|[Hf|[Hf|[Hf|[Hf|[Hf|[]]]]]]]]]]]; subst f; try congruence; try (apply Y; auto; tauto). split; auto. }
  destruct (avx512f_bits c) eqn:E2.
  { cbn [needs In] in Hf. destruct Hf as [Hf|[Hf|[Hf|[Hf|[Hf|[Hf|[Hf|[Hf|[Hf|[]]]]]]]]]]; subst f; try congruence; apply Y; auto; tauto. }
  destruct (avx2_bits c) eqn:E3.
  { unfold avx2_bits in E3. cbn [bits_in] in E3. rewrite !andb_true_iff, negb_true_iff in E3. destruct E3 as (L & (B0 & B12 & B19 & B27 & B28 & B29 & _) & B5 & X1 & X2 & _).
    pose proof (leaf_ge c 7 HL ltac:(lia) L) as L'. cbn [has] in *.
    cbn [needs In] in Hf. destruct Hf as [Hf|[Hf|[Hf|[Hf|[Hf|[Hf|[]]]]]]]; subst f; repeat split; auto; try lia. apply A1. split; auto; lia. }
  destruct (sse42_bits c) eqn:E4.
  { unfold sse42_bits in E4. rewrite andb_true_iff, negb_true_iff in E4. destruct E4 as (L & B20). pose proof (leaf_ge c 1 HL ltac:(lia) L) as L'.
    cbn [needs In] in Hf. destruct Hf as [Hf|[]]; subst f. split; auto. }
  destruct Hf.
Qed.
(** Where AVX512F comes with AVX512BW the installed set is supported. *)
Theorem C32_supported c a : architectural c -> bw_with_avx512f c -> select_arch c = Ok a -> supports c a.
Proof.
  intros HA HB E f Hf. assert (D : f = F_AVX512BW \/ f <> F_AVX512BW) by (destruct f; try (right; discriminate); auto).
  destruct D as [->|D]; [|eapply C32_supported_but_bw; eauto]. apply HB.
  apply (C32_supported_but_bw c a F_AVX512F HA E); [|discriminate]. destruct a; cbn in *; intuition discriminate.
Qed.
(** A Knights Landing CPU (AVX512F/CD/ER/PF, no AVX512BW): the AVX-512 set, compiled with -mavx512bw, is installed although the CPU cannot run it. *)
Definition knights_landing : cpu := mk_cpu 0xd 0x7ffefbbf 0x1c0d23ab 0 0xe7.
Theorem C32_avx512bw_refuted : architectural knights_landing /\ select_arch knights_landing = Ok AVX512F /\ ~ supports knights_landing AVX512F.
Proof.
  split; [|split; [vm_compute; reflexivity|]].
  - unfold architectural. cbn [has c_max_leaf c_1_ecx c_7_ebx c_71_eax c_xcr0 knights_landing]. vm_compute. repeat split; intros; discriminate.
  - intros H. specialize (H F_AVX512BW ltac:(cbn; tauto)). destruct H as [_ H]. vm_compute in H. discriminate.
Qed.

(** The choice is also the best: a CPU that supports a set gets that set or a better one. *)
Definition rank (a : arch) : nat := match a with GENERIC | NEON => 0 | SSE42 => 1 | AVX2 => 2 | AVX512F => 3 | AVX512BF16 => 4 end.
Theorem C32_best_supported c a b : 0 <= c_max_leaf c < 2 ^ 31 -> Z.testbit (c_1_ecx c) 0 = true -> Z.testbit (c_1_ecx c) 19 = true ->
  select_arch c = Ok a -> supports c b -> (rank b <= rank a)%nat.
Proof.
  intros HL S3 S41 E HS. rewrite select_bits in E. injection E as <-.
  assert (LB : forall k, 0 <= k -> k <= c_max_leaf c -> leaf_below c k = false) by (intros; rewrite leaf_spec by auto; apply Z.ltb_ge; auto).
  assert (P4 : b = AVX512BF16 -> bf16_bits c = true).
  { intros ->. pose proof (HS F_AVX512F ltac:(cbn; tauto)) as [L B16]. pose proof (HS F_AVX ltac:(cbn; tauto)) as [_ B28].
    pose proof (HS F_AVX512BF16 ltac:(cbn; tauto)) as [_ B5]. pose proof (HS F_OS_ZMM ltac:(cbn; tauto)) as (B27 & X5 & X6 & X7).
    unfold bf16_bits, avx512f_bits. cbn [bits_in]. rewrite LB, B16, B28, B5, B27, X5, X6, X7 by lia. reflexivity. }
  assert (P3 : b = AVX512F -> avx512f_bits c = true).
  { intros ->. pose proof (HS F_AVX512F ltac:(cbn; tauto)) as [L B16]. pose proof (HS F_AVX ltac:(cbn; tauto)) as [_ B28].
    pose proof (HS F_OS_ZMM ltac:(cbn; tauto)) as (B27 & X5 & X6 & X7).
    unfold avx512f_bits. cbn [bits_in]. rewrite LB, B16, B28, B27, X5, X6, X7 by lia. reflexivity. }
  assert (P2 : b = AVX2 -> avx2_bits c = true).
  { intros ->. pose proof (HS F_AVX2 ltac:(cbn; tauto)) as [L B5]. pose proof (HS F_AVX ltac:(cbn; tauto)) as [_ B28]. pose proof (HS F_FMA ltac:(cbn; tauto)) as [_ B12].
    pose proof (HS F_F16C ltac:(cbn; tauto)) as [_ B29]. pose proof (HS F_OS_YMM ltac:(cbn; tauto)) as (B27 & X1 & X2).
    unfold avx2_bits. cbn [bits_in]. rewrite LB, S3, S41, B5, B12, B28, B29, B27, X1, X2 by lia. reflexivity. }
  assert (P1 : b = SSE42 -> sse42_bits c = true).
  { intros ->. pose proof (HS F_SSE42 ltac:(cbn; tauto)) as [L B20]. unfold sse42_bits. rewrite LB, B20 by lia. reflexivity. }
  destruct (bf16_bits c), (avx512f_bits c), (avx2_bits c), (sse42_bits c), b; cbn; try lia; exfalso;
    first [specialize (P4 eq_refl); discriminate|specialize (P3 eq_refl); discriminate|specialize (P2 eq_refl); discriminate|specialize (P1 eq_refl); discriminate].
Qed.
(** Non-vacuity: a Skylake-X and a Haswell. *)
Definition skylake_x : cpu := mk_cpu 0x16 0x7ffefbff 0xd39ffffb 0 0xe7.
Definition haswell : cpu := mk_cpu 0xd 0x7ffafbbf 0x27ab 0 7.
Example C32_witness : architectural skylake_x /\ bw_with_avx512f skylake_x /\ select_arch skylake_x = Ok AVX512F /\ supports skylake_x AVX512F /\
  architectural haswell /\ select_arch haswell = Ok AVX2.
Proof.
  assert (A : architectural skylake_x) by (unfold architectural; cbn [has c_max_leaf c_1_ecx c_7_ebx c_71_eax c_xcr0 skylake_x]; vm_compute; repeat split; intros; discriminate).
  assert (B : bw_with_avx512f skylake_x) by (intros _; split; vm_compute; congruence).
  split; auto. split; auto. split; [vm_compute; reflexivity|]. split; [apply C32_supported; auto; vm_compute; reflexivity|].
  split; [unfold architectural; cbn [has c_max_leaf c_1_ecx c_7_ebx c_71_eax c_xcr0 haswell]; vm_compute; repeat split; intros; try discriminate; intuition discriminate|vm_compute; reflexivity].
Qed.
