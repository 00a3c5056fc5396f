(** Rng.v -- the threshold of a stochastic call.
    src/piquant.cpp:194-201: [static thread_local std::mt19937_64 rng {rd()};] ...
    [desc.rnd_threshold = std::uniform_real_distribution<fp32_t>{0.f, 1.f}(rng);] on every stochastic call.
    Here the generator's output is any 64-bit number (its recurrence is in Mt19937.v).  The distribution is modelled after the algorithm the C++ standard
    prescribes for std::generate_canonical<float, 24> ([rand.util.canonical]): with a 64-bit generator one output suffices and the result is
    float(output) / float(2^64), scaled by b - a = 1 and offset by a = 0 (both exact). *)
From Coq Require Import ZArith List.
From Verif Require Import Base Floats Dtypes.
Import ListNotations.
Local Open Scope Z_scope.

(** 2^64 as a float, exact *)
Definition f_2_64 : f32 := f32_of_Z 18446744073709551616.
(** the plain algorithm (libc++): float(u) / 2^64 *)
Definition draw_plain (u : Z) : f32 := fdiv (f32_of_Z u) f_2_64.
(** libstdc++ replaces a result of 1 by the largest float below 1: bits/random.tcc [if (__ret >= 1) __ret = nextafter(1, 0)] *)
Definition f_below_one : f32 := f32_of_bits 0x3f7fffff.
(* piquant.cpp:200, std::uniform_real_distribution<fp32_t>{0.f, 1.f}(rng), libstdc++ *)
Definition draw_capped (u : Z) : f32 := let t := draw_plain u in if fge t f_one then f_below_one else t.

(** The thresholds of a thread's sequence of calls: a stochastic call takes the next output of the thread's generator, a nearest call takes none
    and leaves the descriptor's threshold at 0 (src/piquant.cpp:197-201; include/piquant.hpp:334). *)
Fixpoint thresholds (draw : Z -> f32) (calls : list round_mode_t) (rng : nat -> Z) : list f32 :=
  match calls with
  | [] => []
  | RM_NEAREST :: calls' => f_zero :: thresholds draw calls' rng
  | RM_STOCHASTIC :: calls' => draw (rng O) :: thresholds draw calls' (fun n => rng (S n))
  end.
