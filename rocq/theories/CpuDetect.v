(** CpuDetect.v -- the choice of the kernel set by the context constructor on x86-64.
    Models src/piquant.cpp:27-74 (check_*_support) and 178-188 (constructor). *)
From Coq Require Import ZArith List Bool.
From Verif Require Import Base Dtypes.
Local Open Scope Z_scope.

(** What CPUID and XGETBV return: the highest basic leaf (EAX of leaf 0), ECX of leaf 1, EBX of leaf 7.0, EAX of leaf 7.1, XCR0.
    Registers are bit patterns (unsigned). *)
Record cpu := mk_cpu { c_max_leaf : Z; c_1_ecx : Z; c_7_ebx : Z; c_71_eax : Z; c_xcr0 : Z }.

(** [int info[4]]: the comparison [info[0] < k] is signed *)
Definition leaf_below (c : cpu) (k : Z) : bool := wrap32 (c_max_leaf c) <? k.
Definition masked (r m : Z) : bool := Z.land r m =? m.      (* (r & m) == m *)
Definition any_bit (r m : Z) : bool := negb (Z.land r m =? 0). (* (r & m) != 0 *)
(** xgetbv raises #UD unless the OS has set CR4.OSXSAVE, which CPUID reports in bit 27 of leaf 1 ECX (Intel SDM): modelled as UB *)
Definition xgetbv (c : cpu) : res Z := if Z.testbit (c_1_ecx c) 27 then Ok (c_xcr0 c) else UB.

(** piquant.cpp:27-33 *)
Definition check_sse42 (c : cpu) : res bool :=
  if leaf_below c 1 then Ok false else Ok (any_bit (c_1_ecx c) (Z.shiftl 1 20)).
(** piquant.cpp:35-46 *)
Definition check_avx2 (c : cpu) : res bool :=
  if leaf_below c 7 then Ok false
  else if negb (masked (c_1_ecx c) 0x38081001) then Ok false
  else if negb (masked (c_7_ebx c) 0x20) then Ok false
  else x <- xgetbv c ;; Ok (masked x 6).
(** piquant.cpp:48-59 *)
Definition check_avx512f (c : cpu) : res bool :=
  if leaf_below c 7 then Ok false
  else if negb (any_bit (c_1_ecx c) 0x8000000) || negb (any_bit (c_1_ecx c) 0x10000000) then Ok false
  else if negb (any_bit (c_7_ebx c) 0x10000) then Ok false
  else x <- xgetbv c ;; Ok (masked x 0xe0).
(** piquant.cpp:61-74 *)
Definition check_avx512f_bf16 (c : cpu) : res bool :=
  if leaf_below c 7 then Ok false
  else if negb (masked (c_1_ecx c) (Z.lor (Z.shiftl 1 27) (Z.shiftl 1 28))) then Ok false
  else if negb (any_bit (c_7_ebx c) (Z.shiftl 1 16)) then Ok false
  else if negb (any_bit (c_71_eax c) (Z.shiftl 1 5)) then Ok false
  else x <- xgetbv c ;; Ok (masked x 0xe0).

(** piquant.cpp:178-188: the registry the constructor installs on x86-64 *)
Definition select_arch (c : cpu) : res arch :=
  b <- check_avx512f_bf16 c ;;
  if b : bool then Ok AVX512BF16
  else f <- check_avx512f c ;;
  if f : bool then Ok AVX512F
  else a <- check_avx2 c ;;
  if a : bool then Ok AVX2
  else s <- check_sse42 c ;;
  if s : bool then Ok SSE42 else Ok GENERIC.
