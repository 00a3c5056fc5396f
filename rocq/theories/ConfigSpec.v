(** ConfigSpec.v -- vocabulary for the properties of compute_quant_config_from_data: the range of the data, the way the pool may cut
    it into blocks, and the documented formulas for scale and zero point (in double precision). *)
From Coq Require Import ZArith List Reals.
From Flocq Require Import Core.
From Verif Require Import Base Floats Dtypes Spec.
Import ListNotations.

(** Round a real to the nearest binary64 value, ties to even. *)
Definition RN64 (r : R) : R := round radix2 (FLT_exp (-1074) 53) ZnearestE r.

(** [lo] is the smallest and [hi] the largest of the [n] elements of the float buffer [m]. *)
Definition data_range (d : dtype) (m : mem) (n : nat) (lo hi : R) : Prop :=
  (exists i, i < n /\ val (elem_at d m i) = lo) /\ (exists i, i < n /\ val (elem_at d m i) = hi) /\
  forall i, i < n -> (lo <= val (elem_at d m i) <= hi)%R.
Definition finite_data (d : dtype) (m : mem) (n : nat) : Prop :=
  Forall is_byte m /\ length m = stride d * n /\ forall i, i < n -> finite (elem_at d m i).

(** A way to cut the indices 0..n-1 into non-empty blocks [start, stop). *)
Definition block_cover (n : nat) (blocks : list (nat * nat)) : Prop :=
  (forall b, In b blocks -> fst b < snd b <= n) /\ forall t, t < n -> exists b, In b blocks /\ fst b <= t < snd b.

(** The documented parameters for a range lo < hi: scale = (hi - lo) / (2^bits - 1), zero point = round(-lo / scale) clamped to the code
    range, computed in double precision; the scale is then rounded to float. *)
Definition config_step (dq : dtype) (lo hi : R) : R := RN64 (RN64 (hi - lo) / IZR (code_max dq)).
Definition config_scale (dq : dtype) (lo hi : R) : R := RN32 (config_step dq lo hi).
Definition config_zp (dq : dtype) (lo hi : R) : Z :=
  clamp 0 (code_max dq) (round_half_away (RN64 (0 - RN64 (lo / config_step dq lo hi)))).
(** ... and for constant data *)
Definition mid_code (dq : dtype) : Z := (code_max dq / 2)%Z.
