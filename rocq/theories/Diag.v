(** Diag.v -- the diagnostics of a rejected call: panic (src/piquant.cpp:88-99), the assertion macro (src/piquant_internal.hpp:14-18) and the
    messages of the public calls (src/piquant.cpp:213-217, 288-295, 321-327, 353-355, 373, 379).
    printf conversions and snprintf follow the C standard (7.21.6.1, 7.21.6.5, 7.21.6.12). *)
From Coq Require Import ZArith Bool Ascii String List.
From Verif Require Import Base Floats Dtypes Context.
Import ListNotations.
Local Open Scope Z_scope.

(* const char*, std::string_view (piquant.cpp:88, piquant.hpp:142-147) *)
Definition text := list ascii.
(* a string literal *)
Definition T (s : string) : text := list_ascii_of_string s.

(** ** printf *)
(** Arguments with the type they have after the default argument promotions; [A_view] is a class object (std::string_view). *)
Inductive parg := A_str (s : text) | A_int (z : Z) | A_size (z : Z) | A_view (s : text).
(* decimal digits, most significant first; 20 digits are enough for 64 bits *)
Definition digit (d : Z) : ascii := ascii_of_N (Z.to_N (48 + d)).
(* the digits of printf's %d, %u, %zu (piquant_internal.hpp:16, piquant.cpp:293-295) *)
Fixpoint digits (fuel : nat) (n : Z) (acc : text) : text :=
  match fuel with
  | O => acc
  | S f => if n <? 10 then digit n :: acc else digits f (n / 10) (digit (n mod 10) :: acc)
  end.
(* %u, %zu: piquant.cpp:217, 293-295, 326-327, 355 *)
Definition dec (n : Z) : text := digits 20 n [].
(* %d: piquant_internal.hpp:16 (__LINE__) *)
Definition dec_signed (n : Z) : text := if n <? 0 then "-"%char :: dec (- n) else dec n.
(** One conversion.  [lp64] = false: the C standard, a va_arg of the wrong type is undefined.  [lp64] = true: the LP64 calling conventions
    (System V x86-64, AAPCS64), where %u reads the low 32 bits of the slot of a 64-bit size_t. *)
Definition conv (lp64 : bool) (c : ascii) (args : list parg) : res (text * list parg) :=
  match args with
  | A_str s :: r => if Ascii.eqb c "s" then Ok (s, r) else UB
  | A_int z :: r => if Ascii.eqb c "d" then Ok (dec_signed z, r) else UB
  | A_size z :: r => if Ascii.eqb c "z" then Ok (dec z, r) else if (Ascii.eqb c "u" && lp64)%bool then Ok (dec (z mod 4294967296), r) else UB
  | A_view _ :: _ => UB
  | [] => UB
  end.
(* conversions used: %s %d %u %zu; surplus arguments are ignored *)
Fixpoint format (lp64 : bool) (f : text) (args : list parg) : res text :=
  match f with
  | [] => Ok []
  | c :: f' =>
      if Ascii.eqb c "%" then
        match f' with
        | [] => UB
        | d :: f'' =>
            if Ascii.eqb d "z" then
              match f'' with
              | u :: f3 => if Ascii.eqb u "u" then p <- conv lp64 "z" args ;; r <- format lp64 f3 (snd p) ;; Ok (fst p ++ r)%list else UB
              | [] => UB
              end
            else p <- conv lp64 d args ;; r <- format lp64 f'' (snd p) ;; Ok (fst p ++ r)%list
        end
      else r <- format lp64 f' args ;; Ok (c :: r)
  end.

(** ** The buffer of panic *)
Definition nul : ascii := "000"%char.
(* sizeof(tmp): piquant.cpp:91 *)
Definition tmp_size : Z := 8192.
(* int returned by (v)snprintf: the length of the whole text, negative if it does not fit *)
Definition int_len (s : text) : Z := let n := Z.of_nat (length s) in if n <=? 2147483647 then n else -1.
(* snprintf(tmp + off, size, ...): at most size - 1 characters and a NUL; a write outside the array is undefined *)
Definition snprintf (buf : text) (off size : Z) (s : text) : res text :=
  if size =? 0 then Ok buf
  else
    let w := (firstn (Z.to_nat (size - 1)) s ++ [nul])%list in
    if (0 <=? off) && (off + Z.of_nat (length w) <=? Z.of_nat (length buf))
    then Ok (firstn (Z.to_nat off) buf ++ w ++ skipn (Z.to_nat off + length w) buf)%list else UB.
(* the characters before the first NUL (operator << of a C string); none: undefined *)
Fixpoint c_string (buf : text) : res text :=
  match buf with
  | [] => UB
  | c :: r => if Ascii.eqb c nul then Ok [] else s <- c_string r ;; Ok (c :: s)
  end.
(* piquant.cpp:92 *)
Definition esc_red : text := ("027"%char :: T "[31m")%list.
(* piquant.cpp:94 *)
Definition esc_reset : text := ("027"%char :: T "[0m")%list.
(* piquant.cpp:88-99: what is printed before std::abort; sizeof(tmp)-delta is computed in size_t *)
Definition panic (lp64 : bool) (msg : text) (args : list parg) : res text :=
  let tmp := repeat nul (Z.to_nat tmp_size) in
  b1 <- snprintf tmp 0 tmp_size esc_red ;;
  let delta := int_len esc_red in
  s <- format lp64 msg args ;;
  b2 <- snprintf b1 delta (wrap_u64 (tmp_size - delta)) s ;;
  delta' <- i32 (delta + int_len s) ;;
  b3 <- snprintf b2 delta' (wrap_u64 (tmp_size - delta')) esc_reset ;;
  c_string b3.

(** ** The assertion macro (piquant_internal.hpp:14-18) *)
Record report := mk_report { rp_line : Z; rp_expr : text; rp_msg : text; rp_args : list parg }.
(* [file] and the lines are __FILE__ and __LINE__ *)
Definition print_report (lp64 : bool) (file : text) (r : report) : res text :=
  panic lp64 (T "%s:%d Assertion failed: " ++ rp_expr r ++ T " <- " ++ rp_msg r)%list (A_str file :: A_int (rp_line r) :: rp_args r).

(* include/piquant.hpp:149-155 *)
Definition dtype_name (d : dtype) : text :=
  T (match d with DT_F32 => "f32" | DT_BF16 => "bf16" | DT_UINT2 => "uint2" | DT_UINT4 => "uint4" | DT_UINT8 => "uint8" end).

(** ** The messages; None: all assertions of the call hold *)
Definition failed (ok : bool) (r : report) (next : res (option report)) : res (option report) := if ok then next else Ok (Some r).
(* piquant.cpp:286-295 *)
Definition quantize_report (in_size : Z) (dt_in : dtype) (out_size : Z) (dt_out : dtype) : res (option report) :=
  failed (negb (is_quant dt_in))
    (mk_report 288 (T "!(dti.flags & dtype_flags::is_quant)") (T "input dtype (%s) must be a dequantized type") [A_str (dtype_name dt_in)])
  (failed (is_quant dt_out)
    (mk_report 289 (T "dto.flags & dtype_flags::is_quant") (T "output dtype (%s) must be a quantized type") [A_str (dtype_name dt_out)])
  (let ne := in_size / Z.of_nat (stride dt_in) in
   expected <- (if Nat.eqb (bit_size dt_out) 8 then Ok (wrap_u64 (ne * Z.of_nat (stride dt_out)))
                else p <- packed_numel ne dt_out ;; Ok (wrap_u64 (p * Z.of_nat (stride dt_out)))) ;;
   failed (out_size =? expected)
    (mk_report 292 (T "out.size() == expected_out_bytes")
      (T "quantize: expected output buffer to hold %zu byte(s) for %zu element(s) of %s (bit_size=%u), but got %zu")
      [A_size expected; A_size ne; A_str (dtype_name dt_out); A_size (Z.of_nat (bit_size dt_out)); A_size out_size])
   (Ok None))).
(* piquant.cpp:319-327; lines 321 and 322 pass the name of the other dtype *)
Definition dequantize_report (in_size : Z) (dt_in : dtype) (out_size : Z) (dt_out : dtype) : res (option report) :=
  failed (is_quant dt_in)
    (mk_report 321 (T "dti.flags & dtype_flags::is_quant") (T "input dtype (%s) must be a quantized type") [A_str (dtype_name dt_out)])
  (failed (negb (is_quant dt_out))
    (mk_report 322 (T "!(dto.flags & dtype_flags::is_quant)") (T "output dtype (%s) must be a dequantized type") [A_str (dtype_name dt_in)])
  (let ne := out_size / Z.of_nat (stride dt_out) in
   p <- packed_numel ne dt_in ;;
   let min_in := wrap_u64 (p * Z.of_nat (stride dt_in)) in
   failed (in_size =? min_in)
    (mk_report 325 (T "in.size() == min_in_bytes") (T "dequantize: need %zu byte(s) of %s for %zu element(s), but got %zu")
      [A_size min_in; A_str (dtype_name dt_in); A_size ne; A_size in_size])
   (Ok None))).
(* piquant.cpp:352-355 *)
Definition fused_report (in_size : Z) (dt_in_out : dtype) (out_size : Z) (quant_type : dtype) : res (option report) :=
  failed (negb (is_quant dt_in_out)) (mk_report 353 (T "!(dti.flags & dtype_flags::is_quant)") (T "input dtype must be a dequantized type") [])
  (failed (is_quant quant_type) (mk_report 354 (T "dtype_info_of(quant_type).flags & dtype_flags::is_quant") (T "quant dtype must be a quantized type") [])
  (failed (in_size =? out_size)
    (mk_report 355 (T "in.size() == out.size()") (T "input and output spans must have the same length, but %zu != %zu") [A_size in_size; A_size out_size])
   (Ok None))).
(* piquant.cpp:213-217: the target type of compute_quant_config_from_data *)
Definition target_report (dq : dtype) : res (option report) :=
  failed (is_quant dq && is_int dq)
    (mk_report 215 (T "info.flags & dtype_flags::is_quant && info.flags & dtype_flags::is_int") (T "type %s is not a quantization type") [A_str (dtype_name dq)])
  (failed (Nat.ltb 0 (bit_size dq) && Nat.leb (bit_size dq) 64)
    (mk_report 217 (T "width > 0 && width <= 64") (T "invalid width %zu for type %s") [A_size (Z.of_nat (bit_size dq)); A_str (dtype_name dq)])
   (Ok None)).
(* kernels.inl:159 (likewise 171 and 185): a null kernel; the names are passed as std::string_view objects *)
Definition null_kernel_report (dt_in dt_out : dtype) : report :=
  mk_report 159 (T "kernel != nullptr") (T "invalid quantization types: %s -> %s") [A_view (dtype_name dt_in); A_view (dtype_name dt_out)].
