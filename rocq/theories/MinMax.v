(** MinMax.v -- the data range scan (find_min_max_f32 / find_min_max_bf16) and the computation of scale and zero point
    (compute_quant_config).  Models src/kernels/kernels_specialized.inl:1418-1607, src/piquant.cpp:213-269 and 371-381. *)
From Coq Require Import ZArith List Lia Bool Reals.
From Flocq Require Import Core BinarySingleNaN Binary Bits.
From Verif Require Import Base Floats Simd Dtypes.
Import ListNotations.
Local Open Scope nat_scope.

(** A read of bytes [off, off+len) of the span; outside the span it is undefined behaviour. *)
Definition rd (m : mem) (off len : nat) : res mem := if in_bounds off len m then Ok (slice off len m) else UB.

(** std::numeric_limits<fp32_t>::max() / lowest() (kernels_specialized.inl:1422-1423) and dtype_limits<fp32_t>::max / min
    (include/piquant.hpp:167-170; kernels_specialized.inl:1522-1523): the same two floats. *)
Definition flt_max : f32 := f32_of_bits 0x7f7fffff.
(* std::numeric_limits<fp32_t>::lowest(): kernels_specialized.inl:1423, 1523 *)
Definition flt_lowest : f32 := f32_of_bits 0xff7fffff.

(** x86 minps/maxps (Intel SDM): the second operand unless the first compares strictly below (above). *)
Definition minps (a b : f32) : f32 := if flt a b then a else b.
(* _mm*_max_ps: kernels_specialized.inl:1418-1500, 1518-1600 *)
Definition maxps (a b : f32) : f32 := if fgt a b then a else b.
(** Arm FMIN/FMAX (vminq_f32/vmaxq_f32): a NaN operand gives a NaN, and -0 < +0. *)
Definition neon_min (a b : f32) : f32 :=
  if fis_nan a then a else if fis_nan b then b
  else if flt a b then a else if flt b a then b else if Bsign 24 128 a then a else b.
(* vmaxq_f32: kernels_specialized.inl:1499-1506 *)
Definition neon_max (a b : f32) : f32 :=
  if fis_nan a then a else if fis_nan b then b
  else if fgt a b then a else if fgt b a then b else if Bsign 24 128 a then b else a.

(** ** Horizontal reductions; [op] is the lane operation *)
(** _mm512_reduce_min_ps / _mm512_reduce_max_ps: halves folded onto each other (gcc's avx512fintrin.h, upper half first), then the
    two 128-bit shuffles {2,3,0,1} and {1,0,3,2}; lane 0. *)
Definition reduce512 (op : f32 -> f32 -> f32) (v : list f32) : f32 :=
  let t3 := map2 op (skipn 8 v) (firstn 8 v) in
  let t6 := map2 op (skipn 4 t3) (firstn 4 t3) in
  let l k := nth k t6 f_zero in
  op (op (l 0) (l 2)) (op (l 1) (l 3)).
(** kernels_specialized.inl:1460-1471 (f32), 1567-1578 (bf16): cast/extract, then movehl(m, m), then shuffle(m, m, 0b01); lane 0.
    movehl(m, m) = (m2, m3, m2, m3); shuffle(m, m, 1) has lane 0 = m1. *)
Definition reduce256 (op : f32 -> f32 -> f32) (v : list f32) : f32 :=
  let m := map2 op (firstn 4 v) (skipn 4 v) in
  let l k := nth k m f_zero in
  let m' := [op (l 0) (l 2); op (l 1) (l 3)] in
  op (nth 0 m' f_zero) (nth 1 m' f_zero).
(** kernels_specialized.inl:1489-1490 (f32), 1596-1597 (bf16): op(op(v, movehl(v, v)), shuffle(v, v, 0b01)); lane 0.
    The shuffle is of the unreduced vector: lane 3 takes no part. *)
Definition reduce128 (op : f32 -> f32 -> f32) (v : list f32) : f32 :=
  let l k := nth k v f_zero in op (op (l 0) (l 2)) (l 1).
(** kernels_specialized.inl:1508: std::min({l0, l1, l2, l3}) (std::min_element: the first smallest); 1509: std::max(...). *)
Definition std_min4 (v : list f32) : f32 :=
  fold_left (fun r x => if flt x r then x else r) (tl v) (hd f_zero v).
(* kernels_specialized.inl:1509 *)
Definition std_max4 (v : list f32) : f32 :=
  fold_left (fun r x => if flt r x then x else r) (tl v) (hd f_zero v).

(** ** The vector loop: [for (; i+back < numel; i += step) { v_m = load(x+i+gap*m), m = 0..3; vmin/vmax op= v_m }].
    [fuel] >= numel is enough; running out of it is reported as [UB], which the theorems exclude. *)
Record vscan := mk_vscan {
  vs_back : nat; (* i+back < numel *)
  vs_step : nat; (* i += step *)
  vs_gap : nat;  (* elements between the four loads *)
  vs_lanes : nat;
  vs_load : mem -> nat -> res (list f32); (* load at an element index *)
  vs_min : f32 -> f32 -> f32;
  vs_max : f32 -> f32 -> f32;
  vs_redmin : list f32 -> f32;
  vs_redmax : list f32 -> f32
}.
(* the vector loops of find_min_max: kernels_specialized.inl:1418-1510, 1518-1600 *)
Fixpoint vloop (k : vscan) (fuel : nat) (x : mem) (numel i : nat) (vmin vmax : list f32) : res (nat * (list f32 * list f32)) :=
  match fuel with
  | O => UB
  | S f =>
    if i + vs_back k <? numel then
      v0 <- vs_load k x i ;;
      (v1 <- vs_load k x (i + vs_gap k) ;;
      (v2 <- vs_load k x (i + 2 * vs_gap k) ;;
      (v3 <- vs_load k x (i + 3 * vs_gap k) ;;
       let mn v w := map2 (vs_min k) v w in
       let mx v w := map2 (vs_max k) v w in
       vloop k f x numel (i + vs_step k) (mn (mn (mn (mn vmin v0) v1) v2) v3) (mx (mx (mx (mx vmax v0) v1) v2) v3))))
    else Ok (i, (vmin, vmax))
  end.
(** [for (; i < numel; ++i) { if (x[i] < min) min = x[i]; if (x[i] > max) max = x[i]; }]: kernels_specialized.inl:1511-1514, 1601-1605 *)
Definition ld_elem (d : dtype) (x : mem) (i : nat) : res f32 :=
  match d with
  | DT_BF16 => b <- rd x (2 * i) 2 ;; Ok (f32_of_bf16 (le_val b))
  | _ => b <- rd x (4 * i) 4 ;; Ok (f32_of_bits (le_val b))
  end.
(* kernels_specialized.inl:1511-1514, 1601-1605 *)
Fixpoint sloop (d : dtype) (fuel : nat) (x : mem) (numel i : nat) (mn mx : f32) : res (f32 * f32) :=
  match fuel with
  | O => UB
  | S f =>
    if i <? numel then
      xi <- ld_elem d x i ;;
      sloop d f x numel (i + 1) (if flt xi mn then xi else mn) (if fgt xi mx then xi else mx)
    else Ok (mn, mx)
  end.

(** Loads.  f32: [lanes] floats at x+i.  bf16: [cnt] 16-bit patterns at x+i, the low [lanes] of them widened (<< 16). *)
Definition load_f32 (lanes : nat) (x : mem) (i : nat) : res (list f32) :=
  b <- rd x (4 * i) (4 * lanes) ;; Ok (loadu_ps b).
(* kernels_specialized.inl:1518-1600 *)
Definition load_bf16 (cnt lanes : nat) (x : mem) (i : nat) : res (list f32) :=
  b <- rd x (2 * i) (2 * cnt) ;; Ok (slli16_castps (cvtepu16_epi32 lanes (load_u16 b))).

(** Which vector loop each kernel set has. kernels_specialized.inl: AVX-512 1424-1442 / 1524-1549, AVX2 1443-1471 / 1550-1578,
    SSE4.2 1472-1490 / 1579-1597 (16 x f32 per step, but 32 x bf16 with four-lane loads), NEON 1491-1509 / none (1598-1600).
    [_mm512_cvtpbh_ps] (AVX512BF16, 1529-1532) is the same widening shift. *)
Definition vscan_of (a : arch) (d : dtype) : option vscan :=
  match d, a with
  | DT_F32, (AVX512F | AVX512BF16) => Some (mk_vscan 63 63 16 16 (load_f32 16) minps maxps (reduce512 minps) (reduce512 maxps))
  | DT_F32, AVX2 => Some (mk_vscan 31 32 8 8 (load_f32 8) minps maxps (reduce256 minps) (reduce256 maxps))
  | DT_F32, SSE42 => Some (mk_vscan 15 16 4 4 (load_f32 4) minps maxps (reduce128 minps) (reduce128 maxps))
  | DT_F32, NEON => Some (mk_vscan 15 16 4 4 (load_f32 4) neon_min neon_max std_min4 std_max4)
  | DT_BF16, (AVX512F | AVX512BF16) => Some (mk_vscan 63 63 16 16 (load_bf16 16 16) minps maxps (reduce512 minps) (reduce512 maxps))
  | DT_BF16, AVX2 => Some (mk_vscan 31 32 8 8 (load_bf16 8 8) minps maxps (reduce256 minps) (reduce256 maxps))
  | DT_BF16, SSE42 => Some (mk_vscan 31 32 8 4 (load_bf16 8 4) minps maxps (reduce128 minps) (reduce128 maxps))
  | _, _ => None
  end.

(** find_min_max_f32 (1418-1516) and find_min_max_bf16 (1518-1607): [x] is the span, [numel] = in.size(). *)
Definition find_min_max (a : arch) (d : dtype) (x : mem) (numel : nat) : res (f32 * f32) :=
  match vscan_of a d with
  | Some k =>
      r <- vloop k (S numel) x numel 0 (set1 (vs_lanes k) flt_max) (set1 (vs_lanes k) flt_lowest) ;;
      let '(i, (vmin, vmax)) := r in
      sloop d (S numel) x numel i (vs_redmin k vmin) (vs_redmax k vmax)
  | None => sloop d (S numel) x numel 0 flt_max flt_lowest
  end.

(** ** binary64 arithmetic of compute_quant_config *)
Definition nan64 (_ : f64) : { nan : f64 | is_nan 53 1024 nan = true } := default_nan_pl64.
(** static_cast<double>(float): exact *)
Definition f64_of_f32 (x : f32) : f64 :=
  match x with
  | B754_zero _ _ s => B754_zero 53 1024 s
  | B754_infinity _ _ s => B754_infinity 53 1024 s
  | B754_nan _ _ _ _ _ => proj1_sig (default_nan_pl64)
  | B754_finite _ _ s m e _ => binary_normalize 53 1024 Hprec64 Hmax64 mode_NE (cond_Zopp s (Zpos m)) e s
  end.
(** conversion of a double to float (the returned pair's fp32_t): round to nearest even, overflow to infinity *)
Definition f32_of_f64 (x : f64) : f32 :=
  match x with
  | B754_zero _ _ s => B754_zero 24 128 s
  | B754_infinity _ _ s => B754_infinity 24 128 s
  | B754_nan _ _ _ _ _ => proj1_sig (default_nan_pl32)
  | B754_finite _ _ s m e _ => binary_normalize 24 128 Hprec32 Hmax32 mode_NE (cond_Zopp s (Zpos m)) e s
  end.
(* static_cast<double>(integer): piquant.cpp:222-259 compute_quant_config *)
Definition f64_of_Z (z : Z) : f64 := binary_normalize 53 1024 Hprec64 Hmax64 mode_NE z 0 false.
(* double -: piquant.cpp:222-259 compute_quant_config *)
Definition dsub (a b : f64) : f64 := b64_minus mode_NE a b.
(* double /: piquant.cpp:222-259 compute_quant_config *)
Definition ddiv (a b : f64) : f64 := b64_div mode_NE a b.
(* double <, inside std::min, std::max: piquant.cpp:222-259 compute_quant_config *)
Definition dlt (a b : f64) : bool := match b64_compare a b with Some Lt => true | _ => false end.
(* double ==: piquant.cpp:222-259 compute_quant_config *)
Definition deq (a b : f64) : bool := match b64_compare a b with Some Eq => true | _ => false end.
(** std::round(double) *)
Definition dround (x : f64) : f64 := Bnearbyint 53 1024 Hmax64 nan64 mode_NA x.
(** static_cast<std::int64_t>(double): UB out of range *)
Definition f64_to_i64 (x : f64) : res Z :=
  if is_finite 53 1024 x then i64 (Btrunc 53 1024 x) else UB.
(** std::min(a, b) = (b < a) ? b : a;  std::max(a, b) = (a < b) ? b : a *)
Definition dmin (a b : f64) : f64 := if dlt b a then b else a.
(* std::max(double, double): piquant.cpp:222-259 compute_quant_config *)
Definition dmax (a b : f64) : f64 := if dlt a b then b else a.
(** std::numeric_limits<double>::max() / lowest() *)
Definition dbl_max : f64 := b64_of_bits 0x7fefffffffffffff.
(* std::numeric_limits<double>::lowest(): piquant.cpp:222-259 compute_quant_config *)
Definition dbl_lowest : f64 := b64_of_bits 0xffefffffffffffff.

(** src/piquant.cpp:213-220 compute_type_max *)
Definition compute_type_max (d : dtype) : res Z :=
  _ <- assert (is_quant d && is_int d) ;;
  (_ <- assert (Nat.ltb 0 (bit_size d) && Nat.leb (bit_size d) 64) ;;
   let width := if is_signed d then bit_size d - 1 else bit_size d in
   Ok (2 ^ Z.of_nat width - 1)%Z).

(** The per-block callback (piquant.cpp:230-235): an empty block contributes {0.0, 0.0}. *)
Definition block_range (a : arch) (d : dtype) (inm : mem) (blk : nat * nat) : res (f32 * f32) :=
  let '(start, stop) := blk in
  if stop - start =? 0 then Ok (f_zero, f_zero)
  else find_min_max a d (slice (stride d * start) (stride d * (stop - start)) inm) (stop - start).

(** piquant.cpp:238-244: the fold over the block results *)
Definition fold_range (l : list (f32 * f32)) : f64 * f64 :=
  fold_left (fun r m => (dmin (fst r) (f64_of_f32 (fst m)), dmax (snd r) (f64_of_f32 (snd m)))) l (dbl_max, dbl_lowest).

(** piquant.cpp:245-259, from the range to (scale, zero point).  [static_cast<std::int64_t>(zero_point)] on return is exact: the value
    is an integer already. *)
Definition params_of_range (dq : dtype) (r_min r_max : f64) : res (f32 * Z) :=
  type_max <- compute_type_max dq ;;
  (let type_min := (if is_signed dq then - type_max - 1 else 0)%Z in
   if deq r_max r_min then Ok (f_one, Z.shiftr (type_max + type_min) 1)
   else
     let q_min := f64_of_Z type_min in
     let q_max := f64_of_Z type_max in
     let scale := ddiv (dsub r_max r_min) (dsub q_max q_min) in
     let zp := dsub q_min (ddiv r_min scale) in
     r <- f64_to_i64 (dround zp) ;;
     let zp' := dmax (dmin (f64_of_Z r) q_max) q_min in
     z <- f64_to_i64 zp' ;;
     Ok (f32_of_f64 scale, z)).

(** compute_quant_config (piquant.cpp:222-259) for the blocks [blocks] into which pool.scheduleBlocks cuts [0, x.size()).  The pool is a
    third-party submodule that is not in the repository: the blocks are a parameter. *)
Definition compute_quant_config (a : arch) (d dq : dtype) (inm : mem) (blocks : list (nat * nat)) : res (f32 * Z) :=
  rs <- sequence (map (block_range a d inm) blocks) ;;
  let r := fold_range rs in
  params_of_range dq (fst r) (snd r).

(** context::compute_quant_config_from_data (piquant.cpp:371-381): the assertion on the result *)
Definition compute_quant_config_from_data (a : arch) (d dq : dtype) (inm : mem) (blocks : list (nat * nat)) : res (f32 * Z) :=
  r <- compute_quant_config a d dq inm blocks ;;
  (_ <- assert (negb (fis_nan (fst r)) && fge (fst r) f_zero) ;; Ok r).
