(** PropsScanLoops.v -- C40 for the range scan behind compute_quant_config_from_data: the two loops of find_min_max, as a relation
    without fuel, stop for every length and every content after at most one iteration per element, and the function of MinMax.v
    is that relation. *)
From Coq Require Import ZArith List Lia Bool.
From Flocq Require Import Core BinarySingleNaN Binary Bits.
From Verif Require Import Base Floats Simd Dtypes MinMax Spec ApiSpec MinMaxFacts MinMaxAny PropsConfigAny.
Import ListNotations.
Local Open Scope nat_scope.

(** [for (; i+back < numel; i += step) { four loads; vmin/vmax }] (kernels_specialized.inl:1427-1440, 1446-1459, 1475-1488, 1494-1507,
    1527-1547, 1553-1566, 1582-1595): from index [i] and accumulators, [t] iterations, to index [i'] and accumulators. *)
Inductive vector_loop (k : vscan) (x : mem) (numel : nat) : nat -> list f32 -> list f32 -> nat -> nat -> list f32 -> list f32 -> Prop :=
| vector_stop i mn mx : ~ i + vs_back k < numel -> vector_loop k x numel i mn mx 0 i mn mx
| vector_next i mn mx v0 v1 v2 v3 t i' mn' mx' : i + vs_back k < numel ->
    vs_load k x i = Ok v0 -> vs_load k x (i + vs_gap k) = Ok v1 -> vs_load k x (i + 2 * vs_gap k) = Ok v2 -> vs_load k x (i + 3 * vs_gap k) = Ok v3 ->
    vector_loop k x numel (i + vs_step k)
      (map2 (vs_min k) (map2 (vs_min k) (map2 (vs_min k) (map2 (vs_min k) mn v0) v1) v2) v3)
      (map2 (vs_max k) (map2 (vs_max k) (map2 (vs_max k) (map2 (vs_max k) mx v0) v1) v2) v3) t i' mn' mx' ->
    vector_loop k x numel i mn mx (S t) i' mn' mx'.
(** [for (; i < numel; ++i) ...] (kernels_specialized.inl:1511-1514, 1601-1605): the index ends at numel. *)
Inductive scalar_loop (d : dtype) (x : mem) (numel : nat) : nat -> f32 -> f32 -> nat -> nat -> f32 -> f32 -> Prop :=
| scalar_stop i mn mx : ~ i < numel -> scalar_loop d x numel i mn mx 0 i mn mx
| scalar_next i mn mx xi t i' mn' mx' : i < numel -> ld_elem d x i = Ok xi ->
    scalar_loop d x numel (i + 1) (if flt xi mn then xi else mn) (if fgt xi mx then xi else mx) t i' mn' mx' ->
    scalar_loop d x numel i mn mx (S t) i' mn' mx'.
(** The whole scan: [t1] vector and [t2] scalar iterations, final index [i]. *)
Definition scan_runs (a : arch) (d : dtype) (x : mem) (numel t1 t2 i : nat) (mn mx : f32) : Prop :=
  match vscan_of a d with
  | Some k => exists j vmin vmax,
      vector_loop k x numel 0 (set1 (vs_lanes k) flt_max) (set1 (vs_lanes k) flt_lowest) t1 j vmin vmax /\
      scalar_loop d x numel j (vs_redmin k vmin) (vs_redmax k vmax) t2 i mn mx
  | None => t1 = 0 /\ scalar_loop d x numel 0 flt_max flt_lowest t2 i mn mx
  end.

Lemma vector_loop_det k x n i mn mx t i' mn' mx' : vector_loop k x n i mn mx t i' mn' mx' ->
  forall t2 i2 mn2 mx2, vector_loop k x n i mn mx t2 i2 mn2 mx2 -> t2 = t /\ i2 = i' /\ mn2 = mn' /\ mx2 = mx'.
Proof.
  induction 1 as [i mn mx C|i mn mx v0 v1 v2 v3 t i' mn' mx' C L0 L1 L2 L3 H IH]; intros t2 i2 mn2 mx2 H2; inversion H2; subst; try contradiction; auto.
  assert (v0 = v4 /\ v1 = v5 /\ v2 = v6 /\ v3 = v7) as (-> & -> & -> & ->) by (repeat split; congruence).
  match goal with K : vector_loop _ _ _ _ _ _ _ _ _ _ |- _ => destruct (IH _ _ _ _ K) as (-> & -> & -> & ->) end. auto.
Qed.
Lemma scalar_loop_det d x n i mn mx t i' mn' mx' : scalar_loop d x n i mn mx t i' mn' mx' ->
  forall t2 i2 mn2 mx2, scalar_loop d x n i mn mx t2 i2 mn2 mx2 -> t2 = t /\ i2 = i' /\ mn2 = mn' /\ mx2 = mx'.
Proof.
  induction 1 as [i mn mx C|i mn mx xi t i' mn' mx' C L H IH]; intros t2 i2 mn2 mx2 H2; inversion H2; subst; try contradiction; auto.
  assert (xi = xi0) as -> by congruence.
  match goal with K : scalar_loop _ _ _ _ _ _ _ _ _ _ |- _ => destruct (IH _ _ _ _ K) as (-> & -> & -> & ->) end. auto.
Qed.
Lemma vloop_rel k x n : forall fuel i mn mx i' mn' mx', vloop k fuel x n i mn mx = Ok (i', (mn', mx')) ->
  exists t, vector_loop k x n i mn mx t i' mn' mx' /\ i' = i + vs_step k * t.
Proof.
  induction fuel as [|fuel IH]; intros i mn mx i' mn' mx' E; [discriminate|]. cbn [vloop] in E.
  destruct (Nat.ltb_spec (i + vs_back k) n) as [C|C].
  - destruct (vs_load k x i) as [v0| |] eqn:L0; try discriminate. cbn [bind] in E.
    destruct (vs_load k x (i + vs_gap k)) as [v1| |] eqn:L1; try discriminate. cbn [bind] in E.
    destruct (vs_load k x (i + 2 * vs_gap k)) as [v2| |] eqn:L2; try discriminate. cbn [bind] in E.
    destruct (vs_load k x (i + 3 * vs_gap k)) as [v3| |] eqn:L3; try discriminate. cbn [bind] in E.
    apply IH in E. destruct E as (t & H & I). exists (S t). split; [econstructor; eauto|]. rewrite I, Nat.mul_succ_r. lia.
  - injection E as <- <- <-. exists 0. split; [constructor; lia|lia].
Qed.
Lemma sloop_rel d x n : forall fuel i mn mx mn' mx', i <= n -> sloop d fuel x n i mn mx = Ok (mn', mx') ->
  exists t, scalar_loop d x n i mn mx t n mn' mx' /\ t = n - i.
Proof.
  induction fuel as [|fuel IH]; intros i mn mx mn' mx' Hi E; [discriminate|]. cbn [sloop] in E. destruct (Nat.ltb_spec i n) as [C|C].
  - destruct (ld_elem d x i) as [xi| |] eqn:L; try discriminate. cbn [bind] in E. apply IH in E; [|lia]. destruct E as (t & H & I).
    exists (S t). split; [econstructor; eauto|lia].
  - injection E as <- <-. replace i with n by lia. exists 0. split; [constructor; lia|lia].
Qed.

(** ** C40.  The scan of a block of n elements of any content stops at index n, after at most n iterations in both loops together, in
    exactly one way, and find_min_max returns what it computed. *)
Theorem C40_scan_loops a d x n : float_type d -> raw_data d x n ->
  exists t1 t2 mn mx,
    scan_runs a d x n t1 t2 n mn mx /\ t1 + t2 <= n /\
    find_min_max a d x n = Ok (mn, mx) /\
    forall t1' t2' i' mn' mx', scan_runs a d x n t1' t2' i' mn' mx' -> t1' = t1 /\ t2' = t2 /\ i' = n /\ mn' = mn /\ mx' = mx.
Proof.
  intros Hd [Hby HL]. destruct (scan_any a d x n Hd Hby HL) as (mn & mx & E & _). unfold find_min_max in E. unfold scan_runs, find_min_max.
  destruct (vscan_of a d) as [k|] eqn:EK.
  - pose proof (vscan_kspec a d k Hd EK) as KS.
    destruct (vloop_fold d x n Hby HL k _ KS (S n) 0 (set1 (vs_lanes k) flt_max) (set1 (vs_lanes k) flt_lowest) ltac:(lia) (repeat_length _ _) (repeat_length _ _))
      as (st & vmin & vmax & EV & D1 & D2 & _).
    rewrite Nat.add_0_l in EV, D1. rewrite EV in E |- *. cbn [bind] in E |- *. pose proof (ks_step _ _ _ KS) as S0.
    assert (D4 : vs_step k * st <= n).
    { destruct st as [|st]; [lia|]. specialize (D2 st ltac:(lia)). rewrite Nat.mul_succ_r. lia. }
    destruct (vloop_rel _ _ _ _ _ _ _ _ _ _ EV) as (t1 & V & I1). rewrite Nat.add_0_l in I1.
    destruct (sloop_rel _ _ _ _ _ _ _ _ _ D4 E) as (t2 & W & I2).
    exists t1, t2, mn, mx. split; [eauto 6|]. split; [|split; [auto|]].
    + assert (t1 <= vs_step k * st) by (rewrite I1; nia). lia.
    + intros t1' t2' i' mn' mx' (j & vm & vx & V' & W').
      destruct (vector_loop_det _ _ _ _ _ _ _ _ _ _ V _ _ _ _ V') as (-> & -> & -> & ->).
      destruct (scalar_loop_det _ _ _ _ _ _ _ _ _ _ W _ _ _ _ W') as (-> & -> & -> & ->). auto.
  - destruct (sloop_rel _ _ _ _ _ _ _ _ _ (Nat.le_0_l n) E) as (t2 & W & I2).
    exists 0, t2, mn, mx. split; [auto|]. split; [lia|]. split; [auto|].
    intros t1' t2' i' mn' mx' (-> & W'). destruct (scalar_loop_det _ _ _ _ _ _ _ _ _ _ W _ _ _ _ W') as (-> & -> & -> & ->). auto.
Qed.
(** Non-trivial instance: 200 NaNs on AVX2, whose vector loop and scalar loop both run. *)
Example C40_scan_witness : raw_data DT_F32 (flat_map (le_bytes 4) (repeat 0x7fc00000%Z 200)) 200 /\
  exists t1 t2 mn mx, scan_runs AVX2 DT_F32 (flat_map (le_bytes 4) (repeat 0x7fc00000%Z 200)) 200 t1 t2 200 mn mx.
Proof.
  assert (H : raw_data DT_F32 (flat_map (le_bytes 4) (repeat 0x7fc00000%Z 200)) 200).
  { split; [|reflexivity]. apply Forall_forall. intros y Hy. apply in_flat_map in Hy. destruct Hy as (v & Hv & Hy). apply repeat_spec in Hv. subst v.
    revert y Hy. apply Forall_forall. apply FloatFacts2.le_bytes_is_byte. }
  split; auto. destruct (C40_scan_loops AVX2 DT_F32 _ _ (or_introl eq_refl) H) as (t1 & t2 & mn & mx & R & _). eauto 6.
Qed.
