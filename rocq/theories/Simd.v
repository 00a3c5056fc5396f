(** Simd.v -- list models of the vector intrinsics used by src/kernels/kernels_specialized.inl.
    A vector register is the list of its lanes, lowest lane first; the lane type of each
    list is fixed by the intrinsic that produced it (f32 lanes, int32 lanes, uint16 lanes, bytes).
    Semantics: Intel Intrinsics Guide / Arm ACLE. *)
From Coq Require Import ZArith List Lia Bool.
From Verif Require Import Base Floats.
Import ListNotations.
Local Open Scope Z_scope.

(** ** Loads: little-endian lanes of a byte block. *)
Definition loadu_ps (b : mem) : list f32 := map (fun c => f32_of_bits (le_val c)) (chunks 4 b).
(* 16-bit lanes of a load: kernels_specialized.inl:203-206, 283-287 *)
Definition load_u16 (b : mem) : list Z := map le_val (chunks 2 b).
(** bytes [off, off+len) of the block *)
Definition sub (off len : nat) (b : mem) : mem := firstn len (skipn off b).
(* _mm_storeu_ps, _mm256_storeu_ps, _mm512_storeu_ps: kernels_specialized.inl:760-763, 808-811 *)
Definition store_ps (l : list f32) : mem := flat_map (fun x => le_bytes 4 (bits_of_f32 x)) l.
(* stores of 16-bit lanes: kernels_specialized.inl:967-970, 1265-1280 *)
Definition store_u16 (l : list Z) : mem := flat_map (le_bytes 2) l.

(** ** Float lanes *)
Definition set1 {A} (n : nat) (v : A) : list A := repeat v n.
(* _mm*_mul_ps: kernels_specialized.inl:62-65, 105-108 *)
Definition mul_ps := map2 fmul.
(* _mm*_add_ps: kernels_specialized.inl:66-69, 109-112 *)
Definition add_ps := map2 fadd.
(* _mm*_sub_ps (no kernel uses it; kept for completeness of the lane operations) *)
Definition sub_ps := map2 fsub.
(* _mm*_cmp_ps(a, b, _CMP_GE_OQ) / _mm_cmpge_ps *)
Definition cmpge_ps := map2 fge.
(* blendv(a, b, mask): lane from b where the mask is set; _mm512_mask_blend_ps(k, a, b) likewise *)
Fixpoint blendv {A} (a b : list A) (m : list bool) : list A :=
  match a, b, m with
  | x :: a', y :: b', k :: m' => (if k then y else x) :: blendv a' b' m'
  | _, _, _ => []
  end.
(* _mm512_fmadd_ps: kernels_specialized.inl:1236-1243, 1360-1362 *)
Fixpoint fmadd_ps (a b c : list f32) : list f32 :=
  match a, b, c with
  | x :: a', y :: b', z :: c' => ffma x y z :: fmadd_ps a' b' c'
  | _, _, _ => []
  end.
(* _mm*_cvttps_epi32: kernels_specialized.inl:70-73, 113-116 *)
Definition cvttps_epi32 := map cvttps.
(* _mm*_cvtepi32_ps: kernels_specialized.inl:750-753, 790-797 *)
Definition cvtepi32_ps := map f32_of_Z.

(** ** int32 lanes (signed values) *)
Definition add_epi32 := map2 (fun a b => wrap32 (a + b)).
(* _mm*_sub_epi32: kernels_specialized.inl:746-749, 782-789 *)
Definition sub_epi32 := map2 (fun a b => wrap32 (a - b)).
(* _mm*_max_epi32: kernels_specialized.inl:74-77, 117-120 *)
Definition max_epi32 := map2 Z.max.
(* _mm*_min_epi32: kernels_specialized.inl:74-77, 117-120 *)
Definition min_epi32 := map2 Z.min.
(** uint32 view: shift left by 16 and reinterpret as floats (bf16 widening) *)
Definition slli16_castps (l : list Z) : list f32 := map (fun u => f32_of_bits ((Z.shiftl u 16) mod 4294967296)) l.

(** ** Narrowing with saturation *)
Definition sat_u8 (z : Z) : Z := Z.max 0 (Z.min 255 z).
(* saturation of _mm_packus_epi32: kernels_specialized.inl:121, 155-156 *)
Definition sat_u16 (z : Z) : Z := Z.max 0 (Z.min 65535 z).
(* saturation of _mm_packs_epi32: kernels_specialized.inl:400, 458; vqmovn_s32: 170-173 *)
Definition sat_i16 (z : Z) : Z := Z.max (-32768) (Z.min 32767 z).
(* the unsigned reading of an int32 lane, as in _mm512_cvtusepi32_epi8: kernels_specialized.inl:78-81 *)
Definition u32 (z : Z) : Z := z mod 4294967296.
(* 16-bit lanes read as signed *)
Definition s16 (z : Z) : Z := (z + 32768) mod 65536 - 32768.
(* _mm512_cvtusepi32_epi8: unsigned saturation of the lane seen as uint32 *)
Definition cvtusepi32_epi8 (l : list Z) : list Z := map (fun z => Z.min 255 (u32 z)) l.
(* 128-bit packs *)
Definition packus_epi32 (a b : list Z) : list Z := map sat_u16 a ++ map sat_u16 b.
(* _mm_packs_epi32: kernels_specialized.inl:400, 403, 458-459 *)
Definition packs_epi32 (a b : list Z) : list Z := map sat_i16 a ++ map sat_i16 b.
(* _mm_packus_epi16: kernels_specialized.inl:157, 307-308, 404, 460 *)
Definition packus_epi16 (a b : list Z) : list Z := map (fun z => sat_u8 (s16 z)) a ++ map (fun z => sat_u8 (s16 z)) b.
(* 256-bit packs work on each 128-bit half *)
Definition lo_half {A} (l : list A) : list A := firstn (Nat.div2 (length l)) l.
(* upper 128-bit half of a 256-bit register *)
Definition hi_half {A} (l : list A) : list A := skipn (Nat.div2 (length l)) l.
(* _mm256_packus_epi32: kernels_specialized.inl:121, 266 *)
Definition packus_epi32_256 (a b : list Z) : list Z :=
  packus_epi32 (lo_half a) (lo_half b) ++ packus_epi32 (hi_half a) (hi_half b).
(* _mm256_packus_epi16: kernels_specialized.inl:121, 266 *)
Definition packus_epi16_256 (a b : list Z) : list Z :=
  packus_epi16 (lo_half a) (lo_half b) ++ packus_epi16 (hi_half a) (hi_half b).

(** ** Byte permutations *)
(* _mm256_permute4x64_epi64(v, imm) on the 32 bytes of v *)
Definition permute4x64 (v : list Z) (imm : Z) : list Z :=
  flat_map (fun k => sub (8 * Z.to_nat (Z.land (Z.shiftr imm (2 * k)) 3)) 8 v) [0; 1; 2; 3].
(* _mm_shuffle_epi8: control byte with the top bit set gives zero *)
Definition shuffle_epi8 (v ctl : list Z) : list Z :=
  map (fun c => if Z.testbit c 7 then 0 else nth (Z.to_nat (Z.land c 15)) v 0) ctl.
(* _mm256_shuffle_epi8: per 128-bit half *)
Definition shuffle_epi8_256 (v ctl : list Z) : list Z :=
  shuffle_epi8 (sub 0 16 v) (sub 0 16 ctl) ++ shuffle_epi8 (sub 16 16 v) (sub 16 16 ctl).
(* _mm_or_si128: kernels_specialized.inl:361, 407, 463 *)
Definition or_si := map2 Z.lor.
(* _mm_and_si128 and wider: kernels_specialized.inl:696, 1009-1010, 1077 *)
Definition and_si := map2 Z.land.
(* _mm_slli_epi16 / _mm_srli_epi16 on a byte vector: 16-bit lanes are pairs of bytes *)
Fixpoint slli_epi16 (v : list Z) (n : Z) : list Z :=
  match v with
  | a :: b :: v' => le_bytes 2 ((Z.shiftl (a + 256 * b) n) mod 65536) ++ slli_epi16 v' n
  | _ => []
  end.
(* _mm_srli_epi16: kernels_specialized.inl:1010, 1078, 1158 *)
Fixpoint srli_epi16 (v : list Z) (n : Z) : list Z :=
  match v with
  | a :: b :: v' => le_bytes 2 (Z.shiftr (a + 256 * b) n) ++ srli_epi16 v' n
  | _ => []
  end.
(* _mm_srli_si128 on uint16 lanes (shift by 8 bytes = 4 lanes) *)
Definition srli_si128_8_u16 (v : list Z) : list Z := skipn 4 v ++ repeat 0 4.
(* _mm_cvtepu16_epi32: the low n lanes *)
Definition cvtepu16_epi32 (n : nat) (v : list Z) : list Z := firstn n v.
(* _mm_unpacklo_epi8 / _mm_unpackhi_epi8 on 16-byte vectors *)
Fixpoint interleave2 (a b : list Z) : list Z :=
  match a, b with
  | x :: a', y :: b' => x :: y :: interleave2 a' b'
  | _, _ => []
  end.
(* _mm_unpacklo_epi8: kernels_specialized.inl:827, 1011, 1159 *)
Definition unpacklo_epi8 (a b : list Z) : list Z := interleave2 (firstn 8 a) (firstn 8 b).
(* _mm_unpackhi_epi8: kernels_specialized.inl:828, 1012, 1160 *)
Definition unpackhi_epi8 (a b : list Z) : list Z := interleave2 (skipn 8 a) (skipn 8 b).
(* _mm_maddubs_epi16(a, b): a unsigned bytes, b signed bytes; pairs summed with int16 saturation *)
Definition s8 (z : Z) : Z := (z + 128) mod 256 - 128.
(* _mm_maddubs_epi16: kernels_specialized.inl:697 *)
Fixpoint maddubs_epi16 (a b : list Z) : list Z :=
  match a, b with
  | a0 :: a1 :: a', b0 :: b1 :: b' => sat_i16 (a0 * s8 b0 + a1 * s8 b1) :: maddubs_epi16 a' b'
  | _, _ => []
  end.
(* _mm_hadd_epi16(a, b): wrapping sums of adjacent int16 lanes *)
Fixpoint hadd_half (a : list Z) : list Z :=
  match a with
  | x :: y :: a' => s16 (x + y) :: hadd_half a'
  | _ => []
  end.
(* _mm_hadd_epi16: kernels_specialized.inl:698 *)
Definition hadd_epi16 (a b : list Z) : list Z := hadd_half a ++ hadd_half b.
