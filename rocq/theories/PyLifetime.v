(** PyLifetime.v -- the life of native contexts behind the Python class Context (python/src/piquant/__init__.py:64-80) as a transition system over any number of
    Python threads.
    What Python itself does is outside the repository; it is modelled from its documentation: [weakref.finalize] calls its callback at most once, when the
    object is unreachable (any time after that) or when the interpreter exits; [functools.lru_cache] calls the wrapped function without holding a lock, keeps the
    first result that arrives and hands every caller whose lookup missed its own result.
    Simplified: native contexts are numbered in the order of their creation.  If the allocator reuses an address, the new context still has a new number, so
    touching a destroyed context is never excused by reuse.  [C.piquant_context_create] always succeeds (new throws and terminates the process otherwise). *)
From Coq Require Import List Arith Bool.
Import ListNotations.

(** How a constructor run was started: [Context(n)], [Context.get()] after a cache miss, or an explicit second [ctx.__init__(n)]. *)
Inductive kind := KNew | KGet | KAgain.
(** What a thread is doing: inside __init__ before line 70, between line 70 and the end of line 71, or inside a native call made by a method of object [o]
    (lines 99, 120, 130, 141) with context [h]. *)
Inductive frame := FInit (k : kind) (o : nat) | FMade (k : kind) (o h : nat) | FCall (o h : nat).
(* self of the method the thread is in (__init__.py:64-142) *)
Definition frame_obj (f : frame) : nat := match f with FInit _ o => o | FMade _ o _ => o | FCall o _ => o end.

(* state of the interpreter as far as __init__.py:64-142 uses it *)
Record py := mk_py {
  objs : nat;                       (* Context objects allocated so far: 0 .. objs - 1 *)
  field : nat -> option nat;        (* self._ctx *)
  refs : list nat;                  (* references held by the program: locals, globals, default arguments *)
  cache : option nat;               (* the one entry of the lru_cache of get() *)
  frames : nat -> option frame;     (* by thread *)
  registry : list (nat * nat);      (* weakref.finalize objects not called yet: object, context *)
  doomed : list nat;                (* finalizers taken from the registry whose native destroy has not run yet *)
  made : nat;                       (* native contexts created so far *)
  exiting : bool }.
(* after import, before the first call (__init__.py:64-142) *)
Definition py_start : py := mk_py 0 (fun _ => None) [] None (fun _ => None) [] [] 0 false.

(* assignment to one entry of a map; models no line of its own *)
Definition upd {B} (f : nat -> option B) (k : nat) (v : option B) : nat -> option B := fun x => if x =? k then v else f x.
(* del / reassignment of one reference to an object *)
Fixpoint remove1 (o : nat) (l : list nat) : list nat := match l with [] => [] | x :: l' => if x =? o then l' else x :: remove1 o l' end.
(* weakref.finalize removes the entry it runs (__init__.py:71) *)
Fixpoint remove_entry (o h : nat) (l : list (nat * nat)) : list (nat * nat) :=
  match l with [] => [] | (x, y) :: l' => if (x =? o) && (y =? h) then l' else (x, y) :: remove_entry o h l' end.

(** Nothing refers to the object: no reference in the program, not the cache, no running method. *)
Definition unreachable (s : py) (o : nat) : Prop := ~ In o (refs s) /\ cache s <> Some o /\ forall t f, frames s t = Some f -> frame_obj f <> o.

(** The events.  [t] is a thread, [o] an object, [h] a native context. *)
Inductive label :=
  | LNew (t o : nat)                       (* Context(...) called *)
  | LAgain (t o : nat)                     (* o.__init__(...) called once more *)
  | LGetHit (t o : nat)                    (* Context.get() returns the cached object *)
  | LGetMiss (t o : nat)                   (* Context.get() finds the cache empty and calls Context() *)
  | LCreate (t o h : nat)                  (* piquant_context_create *)
  | LInterrupt (t : nat)                   (* an exception (KeyboardInterrupt, MemoryError, a bad argument) leaves __init__ *)
  | LDone (t : nat) (k : kind) (o h : nat) (* the finalizer is registered; __init__ (and get()) returns *)
  | LCall (t o h : nat) | LReturn (t o h : nat)   (* a native call on the context begins, ends *)
  | LCopy (o : nat) | LDrop (o : nat)      (* the program copies, drops a reference *)
  | LClear                                 (* Context.get.cache_clear() *)
  | LFinalize (o h : nat)                  (* a finalizer is taken from the registry to be run *)
  | LDestroy (h : nat)                     (* piquant_context_destroy *)
  | LExit.                                 (* the interpreter starts running its exit handlers *)

(* __init__.py:65-71 (construction), 71 (finalizer), 73-80 (get), 99, 120, 130, 141 (native calls) *)
Inductive step (s : py) : label -> py -> Prop :=
  (* __init__.py:65 *)
  | S_new t : frames s t = None ->
      step s (LNew t (objs s)) (mk_py (S (objs s)) (field s) (refs s) (cache s) (upd (frames s) t (Some (FInit KNew (objs s)))) (registry s) (doomed s) (made s) (exiting s))
  (* a second __init__ on an object of the program; two threads inside __init__ of the same object are not modelled *)
  | S_again t o : frames s t = None -> In o (refs s) -> (forall t' f, frames s t' = Some f -> frame_obj f = o -> exists h, f = FCall o h) ->
      step s (LAgain t o) (mk_py (objs s) (field s) (refs s) (cache s) (upd (frames s) t (Some (FInit KAgain o))) (registry s) (doomed s) (made s) (exiting s))
  (* __init__.py:73-80 *)
  | S_get_hit t o : frames s t = None -> cache s = Some o ->
      step s (LGetHit t o) (mk_py (objs s) (field s) (o :: refs s) (cache s) (frames s) (registry s) (doomed s) (made s) (exiting s))
  | S_get_miss t : frames s t = None -> cache s = None ->
      step s (LGetMiss t (objs s)) (mk_py (S (objs s)) (field s) (refs s) (cache s) (upd (frames s) t (Some (FInit KGet (objs s)))) (registry s) (doomed s) (made s) (exiting s))
  (* __init__.py:70: self._ctx = C.piquant_context_create(self._num_threads); capi.cpp:19-22 *)
  | S_create t k o : frames s t = Some (FInit k o) ->
      step s (LCreate t o (made s)) (mk_py (objs s) (upd (field s) o (Some (made s))) (refs s) (cache s) (upd (frames s) t (Some (FMade k o (made s)))) (registry s) (doomed s) (S (made s)) (exiting s))
  | S_interrupt t f : frames s t = Some f -> (forall o h, f <> FCall o h) ->
      step s (LInterrupt t) (mk_py (objs s) (field s) (refs s) (cache s) (upd (frames s) t None) (registry s) (doomed s) (made s) (exiting s))
  (* __init__.py:71: weakref.finalize(self, C.piquant_context_destroy, self._ctx); then the result goes to the caller, and into the cache if there is none yet *)
  | S_done t k o h0 h : frames s t = Some (FMade k o h0) -> field s o = Some h ->
      step s (LDone t k o h) (mk_py (objs s) (field s) (match k with KAgain => refs s | _ => o :: refs s end)
        (match k, cache s with KGet, None => Some o | _, c => c end) (upd (frames s) t None) ((o, h) :: registry s) (doomed s) (made s) (exiting s))
  (* __init__.py:99-101, 120-122, 130, 141: C.piquant_...(self._ctx, ...) *)
  | S_call t o h : frames s t = None -> In o (refs s) -> field s o = Some h ->
      step s (LCall t o h) (mk_py (objs s) (field s) (refs s) (cache s) (upd (frames s) t (Some (FCall o h))) (registry s) (doomed s) (made s) (exiting s))
  | S_return t o h : frames s t = Some (FCall o h) ->
      step s (LReturn t o h) (mk_py (objs s) (field s) (refs s) (cache s) (upd (frames s) t None) (registry s) (doomed s) (made s) (exiting s))
  | S_copy o : In o (refs s) ->
      step s (LCopy o) (mk_py (objs s) (field s) (o :: refs s) (cache s) (frames s) (registry s) (doomed s) (made s) (exiting s))
  | S_drop o : In o (refs s) ->
      step s (LDrop o) (mk_py (objs s) (field s) (remove1 o (refs s)) (cache s) (frames s) (registry s) (doomed s) (made s) (exiting s))
  | S_clear : step s LClear (mk_py (objs s) (field s) (refs s) None (frames s) (registry s) (doomed s) (made s) (exiting s))
  (* weakref.finalize: when the object is gone, or at exit (atexit is true by default) *)
  | S_finalize o h : In (o, h) (registry s) -> unreachable s o \/ exiting s = true ->
      step s (LFinalize o h) (mk_py (objs s) (field s) (refs s) (cache s) (frames s) (remove_entry o h (registry s)) (h :: doomed s) (made s) (exiting s))
  (* capi.cpp:24-26, piquant.cpp:190-192 *)
  | S_destroy h : In h (doomed s) ->
      step s (LDestroy h) (mk_py (objs s) (field s) (refs s) (cache s) (frames s) (registry s) (remove1 h (doomed s)) (made s) (exiting s))
  | S_exit : step s LExit (mk_py (objs s) (field s) (refs s) (cache s) (frames s) (registry s) (doomed s) (made s) true).

(** All histories, from the start of the program. *)
Inductive runs : list label -> py -> Prop :=
  | runs_start : runs [] py_start
  | runs_step tr s l s' : runs tr s -> step s l s' -> runs (tr ++ [l]) s'.
