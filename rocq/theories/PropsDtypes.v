(** PropsDtypes.v -- C39: the dtype table, written out.  The specification files use [bit_size] and [stride] of Dtypes.v; this file pins every
    entry to a literal, so that the specification cannot drift together with the model. *)
From Coq Require Import ZArith List Bool Lia.
From Verif Require Import Base Floats Dtypes Spec ApiSpec Context Capi.
Import ListNotations.
Local Open Scope Z_scope.

(** Bits per element, bytes per addressable unit, codes per byte, largest code, enum value, kind. *)
Theorem C39_dtype_table :
  (bit_size DT_F32 = 32%nat /\ bit_size DT_BF16 = 16%nat /\ bit_size DT_UINT2 = 2%nat /\ bit_size DT_UINT4 = 4%nat /\ bit_size DT_UINT8 = 8%nat) /\
  (stride DT_F32 = 4%nat /\ stride DT_BF16 = 2%nat /\ stride DT_UINT2 = 1%nat /\ stride DT_UINT4 = 1%nat /\ stride DT_UINT8 = 1%nat) /\
  (codes_per_byte DT_UINT2 = 4%nat /\ codes_per_byte DT_UINT4 = 2%nat /\ codes_per_byte DT_UINT8 = 1%nat) /\
  (code_max DT_UINT2 = 3 /\ code_max DT_UINT4 = 15 /\ code_max DT_UINT8 = 255) /\
  (forall d, is_quant d = true <-> d = DT_UINT2 \/ d = DT_UINT4 \/ d = DT_UINT8) /\
  (forall d, is_float d = true <-> d = DT_F32 \/ d = DT_BF16) /\
  (forall d, is_int d = true <-> d = DT_UINT2 \/ d = DT_UINT4 \/ d = DT_UINT8) /\
  (forall d, is_signed d = true <-> d = DT_F32 \/ d = DT_BF16) /\
  (forall d, is_packed d = true <-> d = DT_UINT2 \/ d = DT_UINT4).
Proof. repeat split; try reflexivity; intros; repeat match goal with d : dtype |- _ => destruct d end; cbn in *; intuition congruence. Qed.

(** A buffer of n elements of a sub-byte type takes ceil(n/4), ceil(n/2) or n bytes. *)
Theorem C39_bytes_for n : bytes_for DT_UINT2 n = ((n + 3) / 4)%nat /\ bytes_for DT_UINT4 n = ((n + 1) / 2)%nat /\ bytes_for DT_UINT8 n = n.
Proof.
  unfold bytes_for. cbn [bit_size]. split; [|split].
  - replace (n * 2 + 7)%nat with (1 + (n + 3) * 2)%nat by lia. change 8%nat with (2 * 4)%nat at 1. rewrite <- Nat.div_div by lia. rewrite Nat.div_add by lia. reflexivity.
  - replace (n * 4 + 7)%nat with (3 + (n + 1) * 4)%nat by lia. change 8%nat with (4 * 2)%nat at 1. rewrite <- Nat.div_div by lia. rewrite Nat.div_add by lia. reflexivity.
  - replace (n * 8 + 7)%nat with (7 + n * 8)%nat by lia. rewrite Nat.div_add by lia. reflexivity.
Qed.

(** Which bits hold element i: literal forms of [code_at]. *)
Theorem C39_code_positions m i :
  code_at DT_UINT8 m i = nth i m 0 mod 256 /\
  code_at DT_UINT4 m (2 * i) = nth i m 0 mod 16 /\ code_at DT_UINT4 m (2 * i + 1) = (nth i m 0 / 16) mod 16 /\
  code_at DT_UINT2 m (4 * i) = nth i m 0 mod 4 /\ code_at DT_UINT2 m (4 * i + 1) = (nth i m 0 / 4) mod 4 /\
  code_at DT_UINT2 m (4 * i + 2) = (nth i m 0 / 16) mod 4 /\ code_at DT_UINT2 m (4 * i + 3) = (nth i m 0 / 64) mod 4.
Proof.
  assert (D : forall a b, (b < 8)%nat -> ((b + a * 8) / 8 = a /\ (b + a * 8) mod 8 = b)%nat).
  { intros a b Hb. rewrite Nat.div_add, Nat.mod_add by lia. rewrite Nat.div_small, Nat.mod_small by lia. auto. }
  unfold code_at. cbn [bit_size].
  replace (i * 8)%nat with (0 + i * 8)%nat by lia. replace (2 * i * 4)%nat with (0 + i * 8)%nat by lia.
  replace ((2 * i + 1) * 4)%nat with (4 + i * 8)%nat by lia. replace (4 * i * 2)%nat with (0 + i * 8)%nat by lia.
  replace ((4 * i + 1) * 2)%nat with (2 + i * 8)%nat by lia. replace ((4 * i + 2) * 2)%nat with (4 + i * 8)%nat by lia.
  replace ((4 * i + 3) * 2)%nat with (6 + i * 8)%nat by lia.
  repeat (match goal with |- context [((?b + i * 8) / 8)%nat] => destruct (D i b ltac:(lia)) as [-> ->] end).
  change (2 ^ Z.of_nat 0) with 1. rewrite Z.div_1_r. repeat split; reflexivity.
Qed.

(** The enum values of the C API and the table indices of the C++ API: f32 0, bf16 1, uint2 2, uint4 3, uint8 4; nearest 0, stochastic 1; set 0, add 1. *)
Theorem C39_enum_values :
  (forall d, dtype_of_enum (Z.of_nat (dtype_index d)) = Ok d) /\
  (forall v d, dtype_of_enum v = Ok d -> v = Z.of_nat (dtype_index d)) /\
  (dtype_index DT_F32 = 0 /\ dtype_index DT_BF16 = 1 /\ dtype_index DT_UINT2 = 2 /\ dtype_index DT_UINT4 = 3 /\ dtype_index DT_UINT8 = 4)%nat /\
  (rm_index RM_NEAREST = 0 /\ rm_index RM_STOCHASTIC = 1 /\ ro_index RO_SET = 0 /\ ro_index RO_ADD = 1)%nat /\
  (forall v m, round_mode_of_enum v = Some m <-> v = Z.of_nat (rm_index m)) /\
  (forall v o, reduce_op_of_enum v = Some o <-> v = Z.of_nat (ro_index o)).
Proof.
  repeat split; try reflexivity; intros.
  - destruct d; reflexivity.
  - unfold dtype_of_enum in H. repeat match type of H with (if ?b then _ else _) = _ => destruct b eqn:?E; [inversion H; subst; cbn; lia|] end. discriminate.
  - unfold round_mode_of_enum in H. repeat match type of H with (if ?b then _ else _) = _ => destruct b eqn:?E; [inversion H; subst; cbn; lia|] end. discriminate.
  - subst. destruct m; reflexivity.
  - unfold reduce_op_of_enum in H. repeat match type of H with (if ?b then _ else _) = _ => destruct b eqn:?E; [inversion H; subst; cbn; lia|] end. discriminate.
  - subst. destruct o; reflexivity.
Qed.
