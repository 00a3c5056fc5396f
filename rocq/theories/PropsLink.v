(** PropsLink.v -- C69: kernel sets compiled for different CPUs live in one binary and do not leak into each other. *)
From Coq Require Import ZArith List Bool Lia.
From Verif Require Import Base Dtypes CpuDetect PropsCpu Link.
Import ListNotations.

(** ** Specification *)
(** What any compiler guarantees: code uses no instruction set its unit was not compiled for, and a shared symbol that is called was emitted by the caller's unit. *)
Definition compiled (o : objects) : Prop :=
  forall u s c, o u s = Some c -> (forall f, In f (c_uses c) -> In f (flags u)) /\ (forall s', In s' (c_calls c) -> emits o s' u = true).
(** The linker keeps only copies that exist. *)
Definition sound (o : objects) (L : linker) : Prop := forall s u, L s = Some u -> emits o s u = true.
(** The code that runs once [s] of [u] is called can run on the CPU. *)
Definition can_run (c : cpu) (o : objects) (L : linker) (u : unit) (s : symbol) : Prop :=
  forall v t k, runs o L u s v t -> o v t = Some k -> forall f, In f (c_uses k) -> has c f.
(** Every call finds its target. *)
Definition no_missing (o : objects) (L : linker) (u : unit) (s : symbol) : Prop :=
  forall v t k, runs o L u s v t -> o v t = Some k -> forall s', In s' (c_calls k) -> exists v', bound L v s' = Some v' /\ emits o s' v' = true.
(** Every unit may use what the units before it may use. *)
Definition growing (order : list unit) : Prop :=
  forall i j u v, (i <= j)%nat -> nth_error order i = Some u -> nth_error order j = Some v -> forall f, In f (flags u) -> In f (flags v).
Definition complete (order : list unit) : Prop := NoDup order /\ forall u, In u order.

(** ** Proofs *)
Lemma find_first {A} (p : A -> bool) l u : find p l = Some u -> exists i, nth_error l i = Some u /\ forall j v, nth_error l j = Some v -> p v = true -> (i <= j)%nat.
Proof.
  induction l as [|x l IH]; cbn; intros H; [discriminate|]. destruct (p x) eqn:E.
  - injection H as <-. exists 0%nat. split; auto. intros; lia.
  - destruct (IH H) as (i & Hi & M). exists (S i). split; auto. intros [|j] v Hv Pv.
    + injection Hv as <-. congruence.
    + specialize (M j v Hv Pv). lia.
Qed.
Lemma link_growing : growing link_order.
Proof.
  intros i j u v Hij Hi Hj f Hf. assert (Lj : (j < 7)%nat) by (apply (nth_error_Some link_order j); congruence).
  do 7 (destruct j as [|j]; [injection Hj as <-; do 7 (destruct i as [|i]; [first [exfalso; lia | injection Hi as <-; cbn in *; tauto]|]); exfalso; lia|]). exfalso; lia.
Qed.
Lemma link_complete : complete link_order.
Proof. split; [repeat constructor; cbn; intuition discriminate|]. intros []; cbn; tauto. Qed.

Lemma runs_down o order u s v t : complete order -> compiled o -> runs o (first_wins o order) u s v t ->
  exists i j, (i <= j)%nat /\ nth_error order i = Some v /\ nth_error order j = Some u.
Proof.
  intros [_ HA] HC R. induction R as [u s|u s v t c s' v' R IH E Hs' B].
  - destruct (In_nth_error order u (HA u)) as [i Hi]. exists i, i. auto.
  - destruct IH as (i & j & L & Hi & Hj). destruct (HC _ _ _ E) as [_ EM]. specialize (EM s' Hs').
    destruct s' as [k|k|k]; cbn [bound] in B.
    + injection B as <-. eauto.
    + destruct (find_first _ _ _ B) as (i' & Hi' & M). exists i', j. split; auto. specialize (M i v Hi EM). lia.
    + destruct (find_first _ _ _ B) as (i' & Hi' & M). exists i', j. split; auto. specialize (M i v Hi EM). lia.
Qed.

Lemma supports_flags c a : supports c a -> forall f, In f (flags (unit_of a)) -> has c f.
Proof. intros HS f Hf. apply HS. destruct a; auto. Qed.

(** ** C69.  Whatever the compiler expands in place and whatever it emits as shared copies: on a CPU for which the constructor selects kernel set [a], all code
    that runs in a kernel of that set - and in the API functions, on any CPU - uses only instructions the CPU has, and no call is left without a target. *)
Theorem C69_kernels_can_run c a o k : architectural c -> bw_with_avx512f c -> select_arch c = Ok a -> compiled o ->
  can_run c o (first_wins o link_order) (unit_of a) (Own k).
Proof.
  intros HA HB HS HC v t kd R E f Hf. destruct (runs_down _ _ _ _ _ _ link_complete HC R) as (i & j & L & Hi & Hj).
  destruct (HC _ _ _ E) as [U _]. specialize (U f Hf). apply (supports_flags c a).
  - apply (C32_supported c a); auto.
  - exact (link_growing i j v (unit_of a) L Hi Hj f U).
Qed.
Theorem C69_api_can_run c o u k : u = U_capi \/ u = U_piquant -> compiled o -> can_run c o (first_wins o link_order) u (Own k).
Proof.
  intros Hu HC v t kd R E f Hf. exfalso. destruct (runs_down _ _ _ _ _ _ link_complete HC R) as (i & j & L & Hi & Hj).
  destruct (HC _ _ _ E) as [U _]. specialize (U f Hf). pose proof (link_growing i j v u L Hi Hj f U) as G. destruct Hu as [-> | ->]; exact G.
Qed.
Theorem C69_no_missing o u k : compiled o -> no_missing o (first_wins o link_order) u (Own k).
Proof.
  intros HC v t kd R E s' Hs'. destruct (HC _ _ _ E) as [_ EM]. specialize (EM s' Hs'). destruct s' as [j|j|j]; cbn [bound]; eauto.
  all: unfold first_wins; match goal with |- exists v', ?x = _ /\ _ => destruct x as [v'|] eqn:F end.
  all: try (exists v'; split; auto; apply find_some in F; tauto).
  all: exfalso; assert (In v link_order) by (destruct v; cbn; tauto); pose proof (find_none _ _ F v H); congruence.
Qed.

(** The order of the object files matters only through the instruction sets: any order in which the requirements grow does. *)
Theorem C69_any_order c a o order k : complete order -> growing order -> architectural c -> bw_with_avx512f c -> select_arch c = Ok a -> compiled o ->
  can_run c o (first_wins o order) (unit_of a) (Own k).
Proof.
  intros HO HG HA HB HS HC v t kd R E f Hf. destruct (runs_down _ _ _ _ _ _ HO HC R) as (i & j & L & Hi & Hj).
  destruct (HC _ _ _ E) as [U _]. specialize (U f Hf). apply (supports_flags c a).
  - apply (C32_supported c a); auto.
  - exact (HG i j v (unit_of a) L Hi Hj f U).
Qed.

(** ** The kernels that run are those of the selected set, whatever copies the linker keeps - as long as code that runs neither reads the inline tables
    (they are only read by the compiler, to initialize each unit's own arrays) nor, when shared, refers to a unit's own functions (the headers know none). *)
Definition tables_unread (o : objects) : Prop := forall u s c k, o u s = Some c -> (forall j, s <> Table j) -> ~ In (Table k) (c_calls c).
Definition headers_know_no_kernel (o : objects) : Prop := forall u j c k, o u (Shared j) = Some c -> ~ In (Own k) (c_calls c).
Theorem C69_own_kernels o L u k v j : tables_unread o -> headers_know_no_kernel o -> runs o L u (Own k) v (Own j) -> v = u.
Proof.
  intros HT HH R.
  assert (G : forall u s v t, runs o L u s v t -> u = u -> forall k, s = Own k -> (exists j, t = Own j /\ v = u) \/ (exists j, t = Shared j)).
  { clear - HT HH. intros u s v t R. induction R as [u s|u s v t c s' v' R IH E Hs' B]; intros _ k ->.
    - left. eauto.
    - destruct (IH eq_refl k eq_refl) as [(j & -> & ->)|(j & ->)].
      + destruct s' as [i|i|i]; cbn [bound] in B.
        * injection B as <-. left. eauto.
        * right. eauto.
        * exfalso. apply (HT _ _ _ i E) in Hs'; auto. discriminate.
      + destruct s' as [i|i|i].
        * exfalso. exact (HH _ _ _ i E Hs').
        * right. eauto.
        * exfalso. apply (HT _ _ _ i E) in Hs'; auto. discriminate. }
  destruct (G _ _ _ _ R eq_refl k eq_refl) as [(i & E & ->)|(i & E)]; [auto|discriminate].
Qed.

(** ** Refutations *)
(** All units emit the inline function 0; the AVX-512 unit's copy uses AVX-512 instructions.  A linker that keeps the last copy, or object files in the reverse
    order: on a CPU for which the constructor selects the AVX2 set, its kernels run AVX-512 code. *)
Definition helper_objects : objects := fun u s =>
  match s with
  | Own 0 => Some (mk_code [] [Shared 0])
  | Shared 0 => Some (mk_code (flags u) [])
  | _ => None
  end.
Ltac fine := split; [intros f Hf; first [exact Hf | destruct Hf]|intros s' HI; repeat (destruct HI as [<-|HI]; [reflexivity|]); destruct HI].
Lemma helper_compiled : compiled helper_objects.
Proof.
  intros u [[|k]|[|k]|k] c E; cbn in E; try discriminate; injection E as <-; cbn [c_uses c_calls].
  - fine.
  - fine.
Qed.

(** A CPU with AVX2 but without AVX-512 (Haswell), as CPUID describes it. *)
Definition haswell : cpu := mk_cpu 13 0x7ffafbff 0x7a9 0 7.
Lemma haswell_ok : architectural haswell /\ bw_with_avx512f haswell /\ select_arch haswell = Ok AVX2 /\ ~ has haswell F_AVX512F.
Proof.
  assert (N : ~ has haswell F_AVX512F) by (intros [_ H]; vm_compute in H; discriminate).
  split; [|split; [|split; [reflexivity|exact N]]].
  - split; [cbn; lia|]. split; [intros _; split; [cbn; lia|reflexivity]|]. split; [intros _; split; [cbn; lia|reflexivity]|].
    split; [intros H; exfalso; apply N; auto|intros _; repeat split; reflexivity].
  - intros H. tauto.
Qed.
Definition last_wins (o : objects) (order : list unit) : linker := first_wins o (rev order).
Theorem C69_last_copy_refuted : sound helper_objects (last_wins helper_objects link_order) /\
  ~ can_run haswell helper_objects (last_wins helper_objects link_order) (unit_of AVX2) (Own 0).
Proof.
  split.
  - intros s u H. apply find_some in H. tauto.
  - intros H. apply (proj2 (proj2 (proj2 haswell_ok))). apply (H U_bf16 (Shared 0) (mk_code (flags U_bf16) [])); [|reflexivity|cbn; tauto].
    eapply runs_call; [apply runs_self|reflexivity|left; reflexivity|reflexivity].
Qed.

(** A static library is searched member by member: piquant.o is needed first, kernel_generic.o is only found on a later pass.  The generic kernels then share
    the SSE4.2 unit's copies, and on a CPU without SSE4.2 (where the generic set is selected) run SSE4.2 code. *)
Definition archive_order : list unit := [U_capi; U_piquant; U_sse42; U_avx2; U_avx512f; U_bf16; U_generic].
Definition core2 : cpu := mk_cpu 10 0x0000e3bd 0 0 0.
Definition sse_objects : objects := fun u s =>
  match s with
  | Own 0 => match u with U_capi | U_piquant => None | _ => Some (mk_code [] [Shared 0]) end
  | Shared 0 => match u with U_capi | U_piquant => None | _ => Some (mk_code (flags u) []) end
  | _ => None
  end.
Lemma sse_compiled : compiled sse_objects.
Proof.
  intros u [[|k]|[|k]|k] c E; cbn in E; try discriminate; destruct u; try discriminate; injection E as <-; cbn [c_uses c_calls].
  all: fine.
Qed.
Theorem C69_archive_order_refuted : complete archive_order /\ architectural core2 /\ bw_with_avx512f core2 /\ select_arch core2 = Ok GENERIC /\ compiled sse_objects /\
  ~ can_run core2 sse_objects (first_wins sse_objects archive_order) (unit_of GENERIC) (Own 0).
Proof.
  assert (N : forall f, In f (needs AVX512BF16) -> ~ has core2 f).
  { intros f Hf H. cbn in Hf. repeat (destruct Hf as [<-|Hf]; [cbn in H; decompose [and] H; first [discriminate|lia]|]). exact Hf. }
  split; [split; [repeat constructor; cbn; intuition discriminate|intros []; cbn; tauto]|]. split.
  { split; [cbn; lia|]. split; [|split; [|split]]; intros H; exfalso; revert H; apply N; cbn; tauto. }
  split; [intros H; exfalso; revert H; apply N; cbn; tauto|]. split; [reflexivity|]. split; [apply sse_compiled|].
  intros H. apply (N F_SSE42); [cbn; tauto|]. apply (H U_sse42 (Shared 0) (mk_code (flags U_sse42) [])); [|reflexivity|cbn; tauto].
  eapply runs_call; [apply runs_self|reflexivity|left; reflexivity|reflexivity].
Qed.

(** If the dispatch functions read the inline tables instead of their unit's own arrays, every set would dispatch to the kernels of the unit whose tables the
    linker kept: here the AVX2 set runs the generic kernel. *)
Definition table_objects : objects := fun u s =>
  match s with
  | Own 0 => Some (mk_code [] [Table 0])
  | Table 0 => Some (mk_code [] [Own 1])
  | Own 1 => Some (mk_code (flags u) [])
  | _ => None
  end.
Theorem C69_inline_tables_refuted : compiled table_objects /\ headers_know_no_kernel table_objects /\
  runs table_objects (first_wins table_objects link_order) (unit_of AVX2) (Own 0) U_capi (Own 1).
Proof.
  split; [|split].
  - intros u [[|[|k]]|k|[|k]] c E; cbn in E; try discriminate; injection E as <-; cbn [c_uses c_calls]; fine.
  - intros u j c k E. discriminate.
  - eapply runs_call; [eapply runs_call; [apply runs_self|reflexivity|left; reflexivity|reflexivity]|reflexivity|left; reflexivity|reflexivity].
Qed.

(** Code that a unit runs when the library is loaded is not protected: it runs before, and regardless of, the CPU check. *)
Definition initializer : nat := 9.
Definition init_objects : objects := fun u s => match s with Own 9 => Some (mk_code (flags u) []) | _ => None end.
Theorem C69_load_time_refuted : compiled init_objects /\ exists u, ~ can_run haswell init_objects (first_wins init_objects link_order) u (Own initializer).
Proof.
  split.
  - intros u s c E. destruct s as [k|k|k]; try discriminate. do 10 (destruct k as [|k]; [try discriminate|]); try discriminate.
    injection E as <-. split; [auto|intros s' []].
  - exists U_avx512f. intros H. apply (proj2 (proj2 (proj2 haswell_ok))). apply (H U_avx512f (Own initializer) (mk_code (flags U_avx512f) [])); [apply runs_self|reflexivity|cbn; tauto].
Qed.

(** ** A concrete case: the SSE4.2 unit is the first to emit the inline function 0, which calls 1, first emitted by the generic unit.
    On Haswell the AVX2 set runs these two copies. *)
Definition mixed_objects : objects := fun u s =>
  match s with
  | Own 0 => match u with U_capi | U_piquant => None | U_generic => Some (mk_code [] [Shared 1]) | _ => Some (mk_code (flags u) [Shared 0; Shared 1]) end
  | Shared 0 => match u with U_capi | U_piquant | U_generic => None | _ => Some (mk_code (flags u) [Shared 1]) end
  | Shared 1 => match u with U_capi | U_piquant => None | _ => Some (mk_code (flags u) []) end
  | _ => None
  end.
Lemma mixed_compiled : compiled mixed_objects.
Proof.
  intros u [[|k]|[|[|k]]|k] c E; cbn in E; try discriminate; destruct u; try discriminate; injection E as <-; cbn [c_uses c_calls]; fine.
Qed.
Example C69_witness :
  let L := first_wins mixed_objects link_order in
  runs mixed_objects L (unit_of AVX2) (Own 0) U_sse42 (Shared 0) /\ runs mixed_objects L (unit_of AVX2) (Own 0) U_generic (Shared 1) /\
  can_run haswell mixed_objects L (unit_of AVX2) (Own 0).
Proof.
  intros L. assert (R0 : runs mixed_objects L (unit_of AVX2) (Own 0) U_sse42 (Shared 0)).
  { eapply runs_call; [apply runs_self|reflexivity|left; reflexivity|reflexivity]. }
  split; auto. split; [eapply runs_call; [exact R0|reflexivity|left; reflexivity|reflexivity]|].
  destruct haswell_ok as (HA & HB & HS & _). apply (C69_kernels_can_run haswell AVX2 mixed_objects 0 HA HB HS mixed_compiled).
Qed.
