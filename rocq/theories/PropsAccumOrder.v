(** PropsAccumOrder.v -- C76: the order in which packed buffers are accumulated.  Two receivers add the same buffers in different orders (an all-reduce
    whose messages arrive in another order): the results agree up to f32 rounding, exactly when nothing rounds, and not bit for bit in general. *)
From Coq Require Import ZArith List Lia Bool Arith Reals Lra Permutation.
From Flocq Require Import Core Binary Bits.
From Verif Require Import Base Floats Simd Dtypes Spec ApiSpec QuantKernels DequantKernels ExecFacts FloatFacts QuantFacts Context ContextFacts Api PropsQuantize FloatFacts2 PropsDequantize RoundTripFacts PropsAccumulate.
Import ListNotations.
Open Scope nat_scope.

(** what the sender of a packed buffer fixes, as opposed to what the receiver chooses (CPU, threads, addresses) *)
Definition payload (c : contribution) : dtype * f32 * Z * mem := (c_type c, c_scale c, c_zp c, c_bytes c).
(** the two lists hold the same packed buffers, in any two orders, decoded on any CPUs *)
Definition same_buffers (cs cs' : list contribution) : Prop := Permutation (map payload cs) (map payload cs').

Local Open Scope R_scope.
Definition decoded (c : contribution) (i : nat) : R := val (c_value c i).

Definition pay_value (p : dtype * f32 * Z * mem) (i : nat) : f32 :=
  let '(d, s, z, b) := p in fmul (f32_of_Z (code_at d b i - z)) s.
Lemma pay_value_ok c i : c_value c i = pay_value (payload c) i.
Proof. reflexivity. Qed.
Lemma rsum_map {X Y} (f : Y -> R) (g : X -> Y) l : rsum f (map g l) = rsum (fun x => f (g x)) l.
Proof. induction l as [|a l IH]; [reflexivity|]. cbn [map]. rewrite !rsum_cons, IH. reflexivity. Qed.
Lemma rsum_perm {X} (f : X -> R) l l' : Permutation l l' -> rsum f l = rsum f l'.
Proof. induction 1; rewrite ?rsum_cons in *; lra. Qed.
Lemma same_sum (g : f32 -> R) i cs cs' : same_buffers cs cs' -> rsum (fun c => g (c_value c i)) cs = rsum (fun c => g (c_value c i)) cs'.
Proof.
  intros H. pose proof (rsum_perm (fun p => g (pay_value p i)) _ _ H) as E. rewrite !rsum_map in E. exact E.
Qed.
Lemma same_length cs cs' : same_buffers cs cs' -> length cs = length cs'.
Proof. intros H. apply Permutation_length in H. rewrite !map_length in H. exact H. Qed.

(** ** Any order: the results differ by at most twice the rounding of the sum. *)
Theorem C76_any_order cs cs' outm outm' r r' i :
  let n := numel DT_F32 (length outm) in
  let n' := numel DT_F32 (length outm') in
  same_buffers cs cs' -> Forall (contribution_ok outm) cs -> Forall (contribution_ok outm') cs' ->
  chain add_step cs outm r -> chain add_step cs' outm' r' ->
  accumulates n cs i -> accumulates n' cs' i -> f32_at outm i = f32_at outm' i -> finite (f32_at outm i) -> Forall (fun c => finite (c_value c i)) cs ->
  let k := length cs in
  let mass := Rabs (val (f32_at outm i)) + rsum (fun c => Rabs (decoded c i)) cs in
  mass * (1 + u_f32) ^ k <= bpow radix2 127 ->
  exists o o', r = Ok o /\ r' = Ok o' /\ finite (f32_at o i) /\ finite (f32_at o' i) /\
    Rabs (val (f32_at o i) - val (f32_at o' i)) <= 2 * ((1 + u_f32) ^ k - 1) * mass.
Proof.
  intros n n' HP H1 H2 C1 C2 A1 A2 E0 F0 FV k mass HM.
  destruct (C55_accumulated_bits cs outm r H1 C1) as (o & -> & _ & B1 & _). destruct (C55_accumulated_bits cs' outm' r' H2 C2) as (o' & -> & _ & B2 & _).
  exists o, o'. split; auto. split; auto. rewrite (B1 i A1), (B2 i A2), (fold_map_add (fun c => c_value c i) cs), (fold_map_add (fun c => c_value c i) cs'), <- E0.
  assert (FV' : Forall (fun c => finite (c_value c i)) cs').
  { assert (X : Forall (fun p => finite (pay_value p i)) (map payload cs')).
    { apply (Permutation_Forall HP). apply (proj2 (Forall_map payload (fun p => finite (pay_value p i)) cs)). exact FV. }
    exact (proj1 (Forall_map payload (fun p => finite (pay_value p i)) cs') X). }
  assert (S1 : rsum val (map (fun c => c_value c i) cs) = rsum val (map (fun c => c_value c i) cs')) by (rewrite !rsum_map; apply (same_sum val i _ _ HP)).
  assert (S2 : rsum (fun t => Rabs (val t)) (map (fun c => c_value c i) cs) = rsum (fun t => Rabs (val t)) (map (fun c => c_value c i) cs')) by (rewrite !rsum_map; apply (same_sum (fun t => Rabs (val t)) i _ _ HP)).
  assert (S3 : rsum (fun t => Rabs (val t)) (map (fun c => c_value c i) cs) = rsum (fun c => Rabs (decoded c i)) cs) by (rewrite rsum_map; reflexivity).
  pose proof (fsum_error (map (fun c => c_value c i) cs) (f32_at outm i) F0 (proj2 (Forall_map (fun c => c_value c i) finite cs) FV)) as X1. cbv zeta in X1.
  pose proof (fsum_error (map (fun c => c_value c i) cs') (f32_at outm i) F0 (proj2 (Forall_map (fun c => c_value c i) finite cs') FV')) as X2. cbv zeta in X2.
  rewrite map_length in X1, X2. rewrite <- S2, <- S1, <- (same_length _ _ HP) in X2. rewrite S3 in X1, X2. fold k in X1, X2. fold mass in X1, X2.
  destruct (X1 HM) as [Y1 Z1]. destruct (X2 HM) as [Y2 Z2]. split; [exact Y1|]. split; [exact Y2|].
  set (a := val (fold_left fadd (map (fun c => c_value c i) cs) (f32_at outm i))) in *. set (b := val (fold_left fadd (map (fun c => c_value c i) cs') (f32_at outm i))) in *.
  set (t := val (f32_at outm i) + rsum val (map (fun c => c_value c i) cs)) in *. replace (a - b) with ((a - t) + (t - b)) by ring.
  eapply Rle_trans; [apply Rabs_triang|]. rewrite (Rabs_minus_sym t b). lra.
Qed.

(** ** If the old values and the scales are integer multiples of one power of two and the integers add up to at most 2^24, the order cannot be seen. *)
Theorem C76_exact_any_order cs cs' outm outm' r r' e (mant : f32 -> Z) i old :
  let n := numel DT_F32 (length outm) in
  let n' := numel DT_F32 (length outm') in
  (-149 <= e <= 100)%Z -> same_buffers cs cs' -> Forall (contribution_ok outm) cs -> Forall (contribution_ok outm') cs' ->
  Forall (fun c => (Z.abs (c_zp c) <= 2 ^ 19)%Z /\ val (c_scale c) = IZR (mant (c_scale c)) * bpow radix2 e) cs ->
  chain add_step cs outm r -> chain add_step cs' outm' r' ->
  accumulates n cs i -> accumulates n' cs' i -> f32_at outm i = f32_at outm' i -> finite (f32_at outm i) -> val (f32_at outm i) = IZR old * bpow radix2 e ->
  (Z.abs old + zsum (fun c => Z.abs (c_int c i * mant (c_scale c))) cs <= 2 ^ 24)%Z ->
  exists o o', r = Ok o /\ r' = Ok o' /\ finite (f32_at o i) /\ val (f32_at o i) = val (f32_at o' i).
Proof.
  intros n n' He HP H1 H2 HS C1 C2 A1 A2 E0 F0 V0 HM.
  assert (ZM : forall (f : dtype * f32 * Z * mem -> Z) l, zsum f (map payload l) = zsum (fun c => f (payload c)) l).
  { intros f l. induction l as [|a l IH]; [reflexivity|]. cbn [map]. rewrite !zsum_cons, IH. reflexivity. }
  assert (HS' : Forall (fun c => (Z.abs (c_zp c) <= 2 ^ 19)%Z /\ val (c_scale c) = IZR (mant (c_scale c)) * bpow radix2 e) cs').
  { assert (X : Forall (fun p : dtype * f32 * Z * mem => let '(_, s, z, _) := p in (Z.abs z <= 2 ^ 19)%Z /\ val s = IZR (mant s) * bpow radix2 e) (map payload cs')).
    { apply (Permutation_Forall HP). apply (proj2 (Forall_map payload _ cs)). exact HS. }
    exact (proj1 (Forall_map payload _ cs') X). }
  assert (Z1 : zsum (fun c => Z.abs (c_int c i * mant (c_scale c)))%Z cs = zsum (fun c => Z.abs (c_int c i * mant (c_scale c)))%Z cs').
  { pose proof (zsum_perm (fun p : dtype * f32 * Z * mem => let '(d, s, z, b) := p in Z.abs ((code_at d b i - z) * mant s))%Z _ _ HP) as X. rewrite !ZM in X. exact X. }
  assert (Z2 : zsum (fun c => c_int c i * mant (c_scale c))%Z cs = zsum (fun c => c_int c i * mant (c_scale c))%Z cs').
  { pose proof (zsum_perm (fun p : dtype * f32 * Z * mem => let '(d, s, z, b) := p in ((code_at d b i - z) * mant s))%Z _ _ HP) as X. rewrite !ZM in X. exact X. }
  destruct (C55_exact_sum cs outm r e (fun c => mant (c_scale c)) He H1 HS C1) as (o & -> & _ & X1).
  destruct (C55_exact_sum cs' outm' r' e (fun c => mant (c_scale c)) He H2 HS' C2) as (o' & -> & _ & X2).
  destruct (X1 i old A1 F0 V0 HM) as [Y1 Y2]. rewrite E0 in F0, V0. destruct (X2 i old A2 F0 V0 ltac:(rewrite <- Z1; exact HM)) as [_ Y3].
  exists o, o'. split; auto. split; auto. split; auto. rewrite Y2, Y3, Z2. reflexivity.
Qed.

(** ** In general the bits depend on the order: 2^24 + 1 - 2^24 is 0, 2^24 - 2^24 + 1 is 1. *)
Lemma by_bits x y : bits_of_f32 x = bits_of_f32 y -> x = y.
Proof. intros H. rewrite <- (f32_bits_bits x), <- (f32_bits_bits y), H. reflexivity. Qed.
Lemma by_value x y : finite x -> finite y -> val y <> 0 -> val x = val y -> x = y.
Proof.
  intros Fx Fy N E.
  assert (ST : forall z, finite z -> val z <> 0 -> is_finite_strict 24 128 z = true).
  { intros z Fz Nz. destruct z as [s| | |s m e H]; try discriminate Fz; [destruct Nz; reflexivity|reflexivity]. }
  apply (B2R_inj 24 128); [apply ST; [exact Fx|rewrite E; exact N]|apply ST; assumption|exact E].
Qed.
Theorem C76_order_refuted a b c outm i r r' :
  let n := numel DT_F32 (length outm) in
  Forall (contribution_ok outm) [a; b; c] -> accumulates n [a; b; c] i -> accumulates n [a; c; b] i ->
  f32_at outm i = f_zero ->
  finite (c_value a i) -> finite (c_value b i) -> finite (c_value c i) -> decoded a i = 16777216 -> decoded b i = 1 -> decoded c i = -16777216 ->
  chain add_step [a; b; c] outm r -> chain add_step [a; c; b] outm r' ->
  exists o o', r = Ok o /\ r' = Ok o' /\ val (f32_at o i) = 0 /\ val (f32_at o' i) = 1.
Proof.
  intros n H A1 A2 E0 Fa Fb Fc Va Vb Vc C1 C2.
  assert (H' : Forall (contribution_ok outm) [a; c; b]).
  { rewrite Forall_forall in *. intros x [<-|[<-|[<-|[]]]]; apply H; cbn [In]; auto. }
  destruct (C55_accumulated_bits _ outm r H C1) as (o & -> & _ & B1 & _). destruct (C55_accumulated_bits _ outm r' H' C2) as (o' & -> & _ & B2 & _).
  exists o, o'. split; auto. split; auto. rewrite (B1 i A1), (B2 i A2), E0. cbn [fold_left].
  set (big := f32_of_bits 0x4b800000). set (nbig := f32_of_bits 0xcb800000). set (one := f32_of_bits 0x3f800000).
  assert (G1 : finite big /\ val big = 16777216) by (split; [reflexivity|unfold val, big; cbn; unfold F2R; cbn; lra]).
  assert (G2 : finite nbig /\ val nbig = -16777216) by (split; [reflexivity|unfold val, nbig; cbn; unfold F2R; cbn; lra]).
  assert (G3 : finite one /\ val one = 1) by (split; [reflexivity|unfold val, one; cbn; unfold F2R; cbn; lra]).
  destruct G1 as [G1 W1], G2 as [G2 W2], G3 as [G3 W3].
  assert (Ea : c_value a i = big) by (apply by_value; auto; [lra|unfold decoded in Va; lra]).
  assert (Eb : c_value b i = one) by (apply by_value; auto; [lra|unfold decoded in Vb; lra]).
  assert (Ec : c_value c i = nbig) by (apply by_value; auto; [lra|unfold decoded in Vc; lra]).
  rewrite Ea, Eb, Ec.
  assert (T1 : bits_of_f32 (fadd (fadd (fadd f_zero big) one) nbig) = 0%Z) by (vm_compute; reflexivity).
  assert (T2 : bits_of_f32 (fadd (fadd (fadd f_zero big) nbig) one) = 0x3f800000%Z) by (vm_compute; reflexivity).
  split.
  - transitivity (val f_zero); [apply (f_equal val); apply by_bits; rewrite T1; vm_compute; reflexivity|apply f_zero_ok].
  - transitivity (val one); [|exact W3]. apply (f_equal val). apply by_bits. rewrite T2. symmetry. vm_compute. reflexivity.
Qed.
