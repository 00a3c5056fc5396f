(** Link.v -- how the translation units of the library are compiled for different instruction sets and linked into one binary (x86-64 builds).
    Models CMakeLists.txt:24-48 (sources, their order and compile flags), src/kernels/kernels.inl:1-28 (one namespace and static functions per unit),
    70-149 (the dispatch tables) and src/piquant.cpp:178-188 (each kernel set is entered through the registry of its unit). *)
From Coq Require Import ZArith List Bool.
From Verif Require Import Base Dtypes CpuDetect PropsCpu.
Import ListNotations.

(** The translation units: CMakeLists.txt:24 (src/*.cpp) and 35-40. *)
Inductive unit := U_capi | U_generic | U_piquant | U_sse42 | U_avx2 | U_avx512f | U_bf16.
Definition unit_eqb (u v : unit) : bool :=
  match u, v with
  | U_capi, U_capi | U_generic, U_generic | U_piquant, U_piquant | U_sse42, U_sse42 | U_avx2, U_avx2 | U_avx512f, U_avx512f | U_bf16, U_bf16 => true
  | _, _ => false
  end.
(** Instruction sets the compiler may use in a unit beyond the x86-64 baseline: CMakeLists.txt:43-46 sets the flags of the four kernel files of src/amd64
    ([needs] lists what they enable, with the register state the operating system must save); the other units get none (58, 69). *)
Definition flags (u : unit) : list feature :=
  match u with
  | U_capi | U_generic | U_piquant => needs GENERIC
  | U_sse42 => needs SSE42
  | U_avx2 => needs AVX2
  | U_avx512f => needs AVX512F
  | U_bf16 => needs AVX512BF16
  end.
(** The order of the sources, hence of the object files on the linker's command line: file(GLOB) sorts (CMakeLists.txt:24), then 35-41 appends. *)
Definition link_order : list unit := [U_capi; U_generic; U_piquant; U_sse42; U_avx2; U_avx512f; U_bf16].
(** The unit whose registry the constructor installs for a kernel set (piquant.cpp:180-187; kernel_generic.cpp:1; src/amd64/kernel_amd64_*.cpp). *)
Definition unit_of (a : arch) : unit :=
  match a with GENERIC | NEON => U_generic | SSE42 => U_sse42 | AVX2 => U_avx2 | AVX512F => U_avx512f | AVX512BF16 => U_bf16 end.

(** Symbols.  [Own k]: functions with internal linkage, and those of the unit's own namespace (kernels.inl:28: all kernels, the dispatch functions, the arrays
    of kernel pointers at 108-149, which are constant-initialized).  [Shared k]: inline functions and template instantiations from headers (bfp16_t's
    members, std::clamp, std::round, std::array, ...); every unit that does not expand them in place emits a copy, and the linker keeps one copy for all.
    [Table k]: the variables make_quant_row<...>::value etc. (kernels.inl:76-105): inline variables like [Shared], but with other contents in every unit. *)
Inductive symbol := Own (k : nat) | Shared (k : nat) | Table (k : nat).
(** Compiled code: the instruction sets it uses and the symbols it calls (for a table: the functions it points to). *)
Record code := mk_code { c_uses : list feature; c_calls : list symbol }.
(** What the compiler produced: the code each unit emitted for each symbol, if it emitted it.  Simplification: calls out of the library (libc, libstdc++.so,
    threadpool, the registry's function pointers) are not followed; the registry is modelled by starting in [unit_of a]. *)
Definition objects := unit -> symbol -> option code.
(** The linker keeps one copy of each shared symbol. *)
Definition linker := symbol -> option unit.
Definition emits (o : objects) (s : symbol) (u : unit) : bool := match o u s with Some _ => true | None => false end.
(** COMDAT groups: the copy in the first object file that has one is kept. *)
Definition first_wins (o : objects) (order : list unit) : linker := fun s => find (emits o s) order.
(** What a reference to [s] in unit [u] is bound to. *)
Definition bound (L : linker) (u : unit) (s : symbol) : option unit := match s with Own _ => Some u | _ => L s end.
(** One call, and any number of calls: which code runs once [s] of unit [u] runs. *)
Inductive runs (o : objects) (L : linker) : unit -> symbol -> unit -> symbol -> Prop :=
| runs_self u s : runs o L u s u s
| runs_call u s v t c s' v' : runs o L u s v t -> o v t = Some c -> In s' (c_calls c) -> bound L v s' = Some v' -> runs o L u s v' s'.
