(** Mt19937.v -- the generator behind the stochastic threshold.
    src/piquant.cpp:194-195: [static thread_local std::random_device rd; static thread_local std::mt19937_64 rng {rd()};]
    Each thread has its own generator, seeded once with the [unsigned int] (32 bits) returned by rd().  The engine is the one the C++ standard
    prescribes ([rand.eng.mers], [rand.predef]: mersenne_twister_engine<uint64_t, 64, 312, 156, 31, 0xb5026f5aa96619e9, 29,
    0x5555555555555555, 17, 0x71d67fffeda60000, 37, 0xfff7eee000000000, 43, 6364136223846793005>).  The standard's recurrence is modelled
    one word at a time; libraries that refill all 312 words at once produce the same sequence. *)
From Coq Require Import ZArith List.
From Verif Require Import Base Floats Dtypes Rng.
Import ListNotations.
Local Open Scope Z_scope.

(** the parameters *)
Definition mt_n : nat := 312.
(* piquant.cpp:194-195 std::mt19937_64: m *)
Definition mt_m : nat := 156.
(* piquant.cpp:194-195 std::mt19937_64: a *)
Definition mt_a : Z := 0xb5026f5aa96619e9.
(* piquant.cpp:194-195 std::mt19937_64: the upper w - r bits (r = 31) *)
Definition mt_upper : Z := 0xffffffff80000000.
(* piquant.cpp:194-195 std::mt19937_64: the lower r = 31 bits *)
Definition mt_lower : Z := 0x7fffffff.

(** seeding: X_0 = seed mod 2^64, X_i = f * (X_(i-1) xor (X_(i-1) >> 62)) + i mod 2^64 ([k] more words, the next index being [i]) *)
Fixpoint mt_fill (k : nat) (i : Z) (prev : Z) : list Z :=
  match k with
  | O => []
  | S k' => let x := wrap_u64 (6364136223846793005 * Z.lxor prev (Z.shiftr prev 62) + i) in x :: mt_fill k' (i + 1) x
  end.
(* piquant.cpp:194-195 rng {rd()}: the constructor of the engine *)
Definition mt_seed (s : Z) : list Z := let x0 := wrap_u64 s in x0 :: mt_fill (mt_n - 1) 1 x0.

(** multiplication by the matrix A: y >> 1, xor a if y is odd *)
Definition mt_mul (y : Z) : Z := Z.lxor (Z.shiftr y 1) (if Z.odd y then mt_a else 0).
(** one transition: the window [X_k .. X_(k+311)] becomes [X_(k+1) .. X_(k+312)] *)
Definition mt_next (st : list Z) : Z :=
  Z.lxor (nth mt_m st 0) (mt_mul (Z.lor (Z.land (nth 0 st 0) mt_upper) (Z.land (nth 1 st 0) mt_lower))).
(* piquant.cpp:200, one draw: the state transition *)
Definition mt_step (st : list Z) : list Z := tl st ++ [mt_next st].
(** the output function applied to the newest word *)
Definition mt_temper (x : Z) : Z :=
  let z1 := Z.lxor x (Z.land (Z.shiftr x 29) 0x5555555555555555) in
  let z2 := Z.lxor z1 (Z.land (Z.shiftl z1 17) 0x71d67fffeda60000) in
  let z3 := Z.lxor z2 (Z.land (Z.shiftl z2 37) 0xfff7eee000000000) in
  Z.lxor z3 (Z.shiftr z3 43).
(** the state after [k] outputs of an engine seeded with [s], and output number [k] (counted from 0) *)
Fixpoint mt_state (s : Z) (k : nat) : list Z := match k with O => mt_seed s | S k' => mt_step (mt_state s k') end.
(* piquant.cpp:200, the k-th draw *)
Definition mt_output (s : Z) (k : nat) : Z := mt_temper (mt_next (mt_state s k)).
