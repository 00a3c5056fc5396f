(** WeakMem.v -- the output buffer under x86 store ordering: ordinary stores (FIFO store buffer) and streaming stores (write-combining
    buffers), and the end-of-job signal of the thread pool.

    The kernels that write uint8 codes with vectors use streaming stores (kernels_specialized.inl:78-81, 123, 158, 268); there is no
    sfence in /repo.  Every job runs on a pool worker and the caller waits for the pool (piquant.cpp:197-211).  Base.returns runs the
    actions of all threads atomically on one memory; here the stores of an action become visible to the caller later, byte by byte:
    ordinary stores in program order, streaming stores in any order and arbitrarily late unless something drains them.
    Not modelled: loads may not be reordered with respect to each other (no kernel reads another thread's output), cache lines (bytes
    drain one by one, which allows more executions than hardware does). *)
From Coq Require Import ZArith List Bool Arith.
From Verif Require Import Base Dtypes Floats Simd.
Import ListNotations.

(** ** Which iterations store with streaming stores
    kernels_specialized.inl:78-81 (AVX-512, float32 to uint8), 123 (AVX2), 158 (SSE4.2), 268 (AVX2, bfloat16 to uint8).  The alignment
    loops before and the scalar loops after these vector loops store one byte per iteration with ordinary stores (lines 52-56, 95-99, 178-182 and so on);
    every other kernel uses ordinary stores only (storeu, storel, vst1q, scalar assignments). *)
Definition streaming_kernel (A : arch) (din dout : dtype) (rm : round_mode_t) : bool :=
  match A, din, dout, rm with
  | (SSE42 | AVX2 | AVX512F | AVX512BF16), DT_F32, DT_UINT8, RM_NEAREST => true
  | AVX2, DT_BF16, DT_UINT8, RM_NEAREST => true
  | _, _, _, _ => false
  end.
(* kernels_specialized.inl:78-81, 123, 158, 268 *)
Definition streams (A : arch) (din dout : dtype) (rm : round_mode_t) (a : action) : bool :=
  streaming_kernel A din dout rm && Nat.ltb 1 (a_olen a).
(* dequantize.inl, kernels_specialized.inl:729-1416 and kernels.inl:30-52 have no streaming store *)
Definition streams_never (a : action) : bool := false.

(** ** A worker thread *)
Inductive entry := Put (k : nat) (b : Z) | Done.      (* a buffered store: one output byte, or the end-of-job flag *)
Inductive phase := Working | Signalled | Joined.      (* Joined: the caller has seen the end of this job *)
Inductive signal := Draining | Plain_store.           (* how the pool tells the caller: after draining (locked instruction, sfence), or a plain store *)
Record core := Core {
  c_todo : list action;          (* iterations still to execute, in order *)
  c_fifo : list entry;           (* ordinary stores not yet visible, oldest first *)
  c_wc : list (nat * Z);         (* streaming stores not yet visible *)
  c_phase : phase
}.

(* the stores waiting in a store buffer; the machine is that of the Intel SDM vol. 3, 8.2, not of /repo *)
Fixpoint puts (l : list entry) : list (nat * Z) :=
  match l with [] => [] | Put k b :: l' => (k, b) :: puts l' | Done :: l' => puts l' end.
(* stores of a worker that other threads do not see yet *)
Definition pending (c : core) : list (nat * Z) := puts (c_fifo c) ++ c_wc c.
(* one byte store becomes visible *)
Definition put (m : mem) (e : nat * Z) : mem := splice (fst e) [snd e] m.
(* what the thread itself reads: its own stores over the shared memory *)
Definition view (c : core) (m : mem) : mem := fold_left put (pending c) m.

(* the bytes an iteration stored, given the output it leaves *)
Definition written (a : action) (v : mem) : list (nat * Z) :=
  combine (seq (a_ooff a) (a_olen a)) (slice (a_ooff a) (a_olen a) v).
(* an ordinary (not streaming) byte store, as by _mm_storeu_ps, o[i] = ... *)
Definition put_entry (e : nat * Z) : entry := Put (fst e) (snd e).

(** One step of one worker on the shared output [m].  [nt a]: iteration [a] uses streaming stores. *)
Inductive cstep (nt : action -> bool) (inm : mem) (sg : signal) : core -> mem -> core -> mem -> Prop :=
| s_exec a l fifo wc m v : run_action inm a (view (Core (a :: l) fifo wc Working) m) = Ok v ->
    cstep nt inm sg (Core (a :: l) fifo wc Working) m
      (if nt a then Core l fifo (wc ++ written a v) Working else Core l (fifo ++ map put_entry (written a v)) wc Working) m
| s_drain l k b fifo wc p m : cstep nt inm sg (Core l (Put k b :: fifo) wc p) m (Core l fifo wc p) (put m (k, b))
| s_evict l fifo wc1 e wc2 p m : cstep nt inm sg (Core l fifo (wc1 ++ e :: wc2) p) m (Core l fifo (wc1 ++ wc2) p) (put m e)
| s_signal_draining m : sg = Draining -> cstep nt inm sg (Core [] [] [] Working) m (Core [] [] [] Joined) m
| s_signal_plain fifo wc m : sg = Plain_store -> cstep nt inm sg (Core [] fifo wc Working) m (Core [] (fifo ++ [Done]) wc Signalled) m
| s_done l fifo wc m : cstep nt inm sg (Core l (Done :: fifo) wc Signalled) m (Core l fifo wc Joined) m.

(** The machine: any worker may step. *)
Inductive step (nt : action -> bool) (inm : mem) (sg : signal) : list core * mem -> list core * mem -> Prop :=
| step_core pre c post m c' m' : cstep nt inm sg c m c' m' -> step nt inm sg (pre ++ c :: post, m) (pre ++ c' :: post, m').
(* piquant.cpp:203-210: the workers run until jobs_future.join() returns *)
Inductive steps (nt : action -> bool) (inm : mem) (sg : signal) : list core * mem -> list core * mem -> Prop :=
| steps_refl s : steps nt inm sg s s
| steps_more s s' s'' : steps nt inm sg s s' -> step nt inm sg s' s'' -> steps nt inm sg s s''.

(* piquant.cpp:203: scheduleSequence *)
Definition start (jobs : list (list action)) (outm : mem) : list core * mem := (map (fun j => Core j [] [] Working) jobs, outm).
(* the wait for the pool returns: piquant.cpp:210 *)
Definition joined (cs : list core) : Prop := forall c, In c cs -> c_phase c = Joined.

(** [call_returns nt sg inm outm call m]: the call returns to its caller, which then finds [m] in the output buffer. *)
Definition call_returns (nt : action -> bool) (sg : signal) (inm outm : mem) (call : res (list (list action))) (m : mem) : Prop :=
  exists jobs cs, call = Ok jobs /\ steps nt inm sg (start jobs outm) (cs, m) /\ joined cs.
