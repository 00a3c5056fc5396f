(** Arena.v -- calls in one address space.  The other files run one call on its own two buffers; here several calls are in flight at the same time on
    one byte array (the process's memory), on one context or on several, and their worker threads interleave freely.  Models the concurrent use of
    piquant::context::quantize / dequantize / quantize_dequantize_fused, which are const member functions (include/piquant.hpp:208-216, 242-250, 276-285;
    src/piquant.cpp:197-211, 277-369) whose only shared mutable state is the thread pool (not modelled: every scheduled job runs exactly once). *)
From Coq Require Import ZArith List Bool.
From Verif Require Import Base Floats Dtypes QuantKernels DequantKernels Context.
Import ListNotations.

(** A call in flight: where its input and output buffers lie in the memory, and the jobs it has scheduled. *)
Record launch := mk_launch {
  l_in : nat;       (* index of the first input byte *)
  l_isize : nat;    (* size of the input allocation *)
  l_out : nat;      (* index of the first output byte *)
  l_osize : nat;    (* size of the output *)
  l_jobs : list (list action)
}.

(** One step of launch [L] on memory [m]: the step reads the bytes of the input and output buffers that are in memory at this moment. *)
Definition arena_step (L : launch) (a : action) (m : mem) : res mem :=
  o <- run_action (slice (l_in L) (l_isize L) m) a (slice (l_out L) (l_osize L) m) ;; Ok (splice (l_out L) o m).
(** A run is a list of steps tagged with the number of the launch they belong to. *)
Fixpoint arena_run (Ls : list launch) (tr : list (nat * action)) (m : mem) : res mem :=
  match tr with
  | [] => Ok m
  | (k, a) :: tr' =>
      match nth_error Ls k with
      | Some L => m' <- arena_step L a m ;; arena_run Ls tr' m'
      | None => UB
      end
  end.
(** All jobs of all launches, tagged. *)
Fixpoint tagged_from (k : nat) (Ls : list launch) : list (list (nat * action)) :=
  match Ls with
  | [] => []
  | L :: Ls' => map (map (pair k)) (l_jobs L) ++ tagged_from (S k) Ls'
  end.
(** [together Ls m r]: running the launches [Ls] concurrently on memory [m] can end with [r]. *)
Definition together (Ls : list launch) (m : mem) (r : res mem) : Prop :=
  exists tr, interleave (tagged_from 0 Ls) tr /\ r = arena_run Ls tr m.

(** ** Requests: calls by their arguments.  [q_in], [q_out] are addresses (indices into the memory, which starts at address [base]); sizes in bytes;
    [q_extra] readable bytes follow the input span.  Each request may use its own context (kernel set, thread count). *)
Inductive command :=
| Do_quantize (din dout : dtype) (scale : f32) (zp : Z) (rm : round_mode_t) (thr : f32)
| Do_dequantize (din dout : dtype) (scale : f32) (zp : Z) (op : reduce_op)
| Do_fused (dt dq : dtype) (scale : f32) (zp : Z) (rm : round_mode_t) (op : reduce_op) (thr : f32).
(* the arguments of piquant.cpp:277-369 *)
Record request := mk_request {
  q_arch : arch; q_threads : nat;
  q_in : nat; q_isize : nat; q_extra : nat;
  q_out : nat; q_osize : nat;
  q_cmd : command
}.
(** The call a request makes: piquant.cpp:277-308, 310-340, 342-369 *)
Definition request_call (base : Z) (q : request) : res (list (list action)) :=
  let oaddr := (base + Z.of_nat (q_out q))%Z in
  match q_cmd q with
  | Do_quantize din dout scale zp rm thr =>
      quantize (q_arch q) (q_threads q) oaddr (Z.of_nat (q_isize q)) din (Z.of_nat (q_osize q)) dout scale zp rm thr
  | Do_dequantize din dout scale zp op =>
      dequantize (q_arch q) (q_threads q) oaddr (Z.of_nat (q_isize q)) din (Z.of_nat (q_osize q)) dout scale zp op
  | Do_fused dt dq scale zp rm op thr =>
      quantize_dequantize_fused (q_arch q) (q_threads q) oaddr (Z.of_nat (q_isize q)) dt (Z.of_nat (q_osize q)) dq scale zp rm op thr
  end.
(* piquant.cpp:277-308, 310-340, 342-369 *)
Definition request_launch (base : Z) (q : request) : res launch :=
  jobs <- request_call base q ;; Ok (mk_launch (q_in q) (q_isize q + q_extra q) (q_out q) (q_osize q) jobs).
(** Concurrent requests: the first one whose argument checks fail (in the list order; the checks touch no memory) aborts the process. *)
Definition concurrently (base : Z) (qs : list request) (m : mem) (r : res mem) : Prop :=
  match sequence (map (request_launch base) qs) with
  | Ok Ls => together Ls m r
  | Abort => r = Abort
  | UB => r = UB
  end.
(** A program that issues rounds of concurrent requests, each round after the previous one has returned. *)
Inductive program_runs (base : Z) : list (list request) -> mem -> res mem -> Prop :=
| pr_done m : program_runs base [] m (Ok m)
| pr_round qs rest m m' r : concurrently base qs m (Ok m') -> program_runs base rest m' r -> program_runs base (qs :: rest) m r
| pr_fail qs rest m r : concurrently base qs m r -> (forall m', r <> Ok m') -> program_runs base (qs :: rest) m r.
