(** PropsAccumulate.v -- C55: accumulating any number of quantized buffers into one f32 buffer with dequantize(add), the inner loop of a
    quantized all-reduce. *)
From Coq Require Import ZArith List Lia Bool Arith Reals Lra Psatz Permutation.
From Flocq Require Import Core Binary Bits Relative Plus_error.
From Verif Require Import Base Floats Simd Dtypes Spec ApiSpec QuantKernels DequantKernels ExecFacts FloatFacts QuantFacts QuantKernelFacts
  QuantGenericFacts DequantFacts DequantGenericFacts QuantLanes Context ContextFacts Footprint QuantizeFacts DequantizeFacts Api PropsQuantize Schedule
  PropsMemory FloatFacts2 PropsDequantize PropsRoundTrip PathSpec PropsPaths RoundTripFacts PropsIdempotent MinMax MinMaxFacts ConfigSpec F64Facts ConfigFacts PropsConfig
  PropsRepresent Bf16Spec Bf16Facts FloatFacts3 PropsDequantBf16 PropsRoundTripTypes PropsContract.
Import ListNotations.

(** ** Vocabulary *)
(** A chain of calls on one output buffer: each call starts on the bytes its predecessor left; the chain stops at the first call that does not return. *)
Inductive chain {X : Type} (step : X -> mem -> res mem -> Prop) : list X -> mem -> res mem -> Prop :=
| chain_nil o : chain step [] o (Ok o)
| chain_next x xs o o' r : step x o (Ok o') -> chain step xs o' r -> chain step (x :: xs) o r
| chain_stop x xs o r : step x o r -> (forall o', r <> Ok o') -> chain step (x :: xs) o r.

(** One packed buffer with its parameters, and the context (kernel set, thread count, address of the output) that adds it. *)
Record contribution := { c_arch : arch; c_threads : nat; c_oaddr : Z; c_type : dtype; c_scale : f32; c_zp : Z; c_bytes : mem; c_size : nat }.
Definition add_step (c : contribution) (o : mem) (r : res mem) : Prop :=
  returns (c_bytes c) o (dequantize_call (c_arch c) (c_threads c) (c_oaddr c) (c_type c) DT_F32 (c_scale c) (c_zp c) RO_ADD (c_size c) o) r.
(** the integer an element of the packed buffer stands for, and the f32 value the library decodes it to *)
Definition c_int (c : contribution) (i : nat) : Z := (code_at (c_type c) (c_bytes c) i - c_zp c)%Z.
Definition c_value (c : contribution) (i : nat) : f32 := fmul (f32_of_Z (c_int c i)) (c_scale c).
Definition contribution_ok (outm : mem) (c : contribution) : Prop :=
  dq_buffers (c_threads c) (c_type c) DT_F32 (c_bytes c) (c_size c) outm /\ (Z.abs (c_zp c) <= 2 ^ 30)%Z /\ finite (c_scale c).
(** elements that every buffer of the list accumulates (C08: not the last n mod 4 elements of a uint2 buffer) *)
Definition accumulates (n : nat) (cs : list contribution) (i : nat) : Prop :=
  i < n /\ (i < 4 * (n / 4) \/ Forall (fun c => c_type c <> DT_UINT2) cs).

(** real sums *)
Definition rsum {X} (f : X -> R) (l : list X) : R := fold_right (fun x s => (f x + s)%R) 0%R l.
Definition zsum {X} (f : X -> Z) (l : list X) : Z := fold_right (fun x s => (f x + s)%Z) 0%Z l.
(** the unit roundoff of f32 *)
Definition u_f32 : R := (/ 16777216)%R.

(** ** The bits *)
Lemma dq_buffers_len nt d dt m s o o' : length o' = length o -> dq_buffers nt d dt m s o -> dq_buffers nt d dt m s o'.
Proof. intros E. unfold dq_buffers. rewrite E. auto. Qed.
Lemma contribution_ok_len o o' c : length o' = length o -> contribution_ok o c -> contribution_ok o' c.
Proof. intros E (H & R). split; auto. eapply dq_buffers_len; eauto. Qed.

Theorem C55_accumulated_bits cs outm r :
  let n := numel DT_F32 (length outm) in
  Forall (contribution_ok outm) cs -> chain add_step cs outm r ->
  exists o, r = Ok o /\ length o = length outm /\
    (forall i, accumulates n cs i -> f32_at o i = fold_left (fun acc c => fadd acc (c_value c i)) cs (f32_at outm i)) /\
    (forall k, 4 * n <= k -> nth k o 0%Z = nth k outm 0%Z).
Proof.
  intros n H C. assert (En : n = numel DT_F32 (length outm)) by reflexivity. clearbody n.
  induction C as [o|c cs o o' r S C IH|c cs o r S N].
  - exists o. auto.
  - inversion H as [|? ? (HB & Hz & Hs) Ht]; subst. unfold add_step in S.
    destruct (C08_dequantize_add_f32 _ _ _ _ _ _ _ _ _ _ HB Hz Hs S) as (o1 & E & L & B & K). injection E as <-.
    destruct IH as (o2 & -> & L2 & B2 & K2).
    + eapply Forall_impl; [|exact Ht]. intros a. apply contribution_ok_len. auto.
    + congruence.
    + exists o2. split; auto. split; [congruence|]. split.
      * intros i (Hi & Hu). cbn [fold_left]. rewrite B2.
        -- rewrite B; auto. intros Eu. destruct Hu as [Hu|Hu]; auto. inversion Hu; congruence.
        -- split; auto. destruct Hu as [Hu|Hu]; auto. right. inversion Hu; auto.
      * intros k Hk. rewrite K2, K by auto. reflexivity.
  - inversion H as [|? ? (HB & Hz & Hs) Ht]; subst. unfold add_step in S.
    destruct (C08_dequantize_add_f32 _ _ _ _ _ _ _ _ _ _ HB Hz Hs S) as (o1 & E & _). destruct (N o1 E).
Qed.

(** ** The error of the accumulated sum *)
Local Open Scope R_scope.
Lemma rsum_cons {X} (f : X -> R) a l : rsum f (a :: l) = f a + rsum f l.
Proof. reflexivity. Qed.
Lemma rsum_ge0 {X} (f : X -> R) l : (forall x, 0 <= f x) -> 0 <= rsum f l.
Proof. intros H. induction l as [|a l IH]; [apply Rle_refl|]. rewrite rsum_cons. specialize (H a). lra. Qed.
Lemma rsum_map {X Y} (f : Y -> R) (g : X -> Y) l : rsum f (map g l) = rsum (fun x => f (g x)) l.
Proof. induction l as [|a l IH]; [reflexivity|]. cbn [map]. rewrite !rsum_cons, IH. reflexivity. Qed.
Lemma rsum_le {X} (f g : X -> R) l : Forall (fun x => f x <= g x) l -> rsum f l <= rsum g l.
Proof. induction 1 as [|a l Ha H IH]; [apply Rle_refl|]. rewrite !rsum_cons. cbv beta in Ha. lra. Qed.
Lemma rsum_diff {X} (f g h : X -> R) l : Forall (fun x => Rabs (f x - g x) <= h x) l -> Rabs (rsum f l - rsum g l) <= rsum h l.
Proof.
  induction 1 as [|a l Ha H IH]; [unfold rsum; cbn [fold_right]; rewrite Rminus_0_r, Rabs_R0; lra|]. rewrite !rsum_cons.
  replace (f a + rsum f l - (g a + rsum g l)) with ((f a - g a) + (rsum f l - rsum g l)) by ring.
  eapply Rle_trans; [apply Rabs_triang|]. lra.
Qed.
Lemma rsum_scal {X} c (f : X -> R) l : rsum (fun x => c * f x) l = c * rsum f l.
Proof. induction l as [|a l IH]; [unfold rsum; cbn [fold_right]; ring|]. rewrite !rsum_cons, IH. ring. Qed.
Lemma rsum_plus {X} (f g : X -> R) l : rsum (fun x => f x + g x) l = rsum f l + rsum g l.
Proof. induction l as [|a l IH]; [unfold rsum; cbn [fold_right]; ring|]. rewrite !rsum_cons, IH. ring. Qed.

Lemma fadd_rel x y : finite x -> finite y -> Rabs (val x + val y) <= bpow radix2 127 ->
  finite (fadd x y) /\ exists d, Rabs d <= u_f32 /\ val (fadd x y) = (val x + val y) * (1 + d).
Proof.
  intros Fx Fy B. destruct (fadd_ok x y Fx Fy) as [F V].
  { apply PropsContract.RN32_no_overflow. auto. }
  split; auto. rewrite V. unfold RN32.
  destruct (FLT_plus_error_N_ex radix2 (-149) 24 (fun z => negb (Z.even z)) (val x) (val y)) as (e & He & E).
  - exact (generic_format_B2R 24 128 x).
  - exact (generic_format_B2R 24 128 y).
  - exists e. split; [|exact E]. eapply Rle_trans; [exact He|]. clear.
    unfold Relative.u_ro. change (- (24) + 1)%Z with (-23)%Z. change (bpow radix2 (-23)) with (/ 8388608). unfold u_f32.
    set (w := / 2 * / 8388608). assert (W : w = / 16777216) by (unfold w; lra). clearbody w. rewrite <- W. assert (0 < w) by lra.
    apply Rmult_le_reg_r with (1 + w); [lra|]. replace (w / (1 + w) * (1 + w)) with w by (field; lra). nra.
Qed.

Lemma fsum_error ts : forall a, finite a -> Forall finite ts ->
  let T := Rabs (val a) + rsum (fun t => Rabs (val t)) ts in
  T * (1 + u_f32) ^ length ts <= bpow radix2 127 ->
  finite (fold_left fadd ts a) /\
  Rabs (val (fold_left fadd ts a) - (val a + rsum val ts)) <= ((1 + u_f32) ^ length ts - 1) * T.
Proof.
  induction ts as [|t ts IH]; intros a Fa Ft T HT.
  - unfold T. cbn [fold_left length pow rsum fold_right]. unfold rsum; cbn [fold_right]. split; auto. rewrite Rplus_0_r. rewrite Rminus_diag_eq by auto. rewrite Rabs_R0. lra.
  - inversion Ft as [|? ? F1 F2]; subst. cbn [fold_left length] in *. rewrite rsum_cons. unfold T in *. clear T. rewrite rsum_cons in *. set (T := Rabs (val a) + (Rabs (val t) + rsum (fun t => Rabs (val t)) ts)) in *.
    set (P := (1 + u_f32) ^ length ts) in *. cbn [pow] in HT. fold P in HT. cbn [pow]. fold P.
    assert (U : 0 < u_f32) by (unfold u_f32; lra).
    assert (P1 : 1 <= P) by (apply pow_R1_Rle; lra).
    set (S := rsum (fun t => Rabs (val t)) ts) in *. assert (S0 : 0 <= S) by (apply rsum_ge0; intros; apply Rabs_pos).
    pose proof (Rabs_pos (val a)) as A0. pose proof (Rabs_pos (val t)) as T0. set (x := Rabs (val a) + Rabs (val t)).
    assert (ET : T = x + S) by (unfold T, x; ring).
    assert (Bx : Rabs (val a + val t) <= x) by apply Rabs_triang.
    assert (X0 : 0 <= x) by (unfold x; lra).
    assert (Bt : T <= bpow radix2 127).
    { eapply Rle_trans; [|exact HT]. rewrite <- (Rmult_1_r T) at 1. apply Rmult_le_compat_l; [lra|]. nra. }
    destruct (fadd_rel a t Fa F1 ltac:(lra)) as [Fs (d & Hd & V)].
    set (a' := fadd a t) in *.
    assert (B' : Rabs (val a') <= x * (1 + u_f32)).
    { rewrite V, Rabs_mult. apply Rmult_le_compat; try apply Rabs_pos; auto.
      eapply Rle_trans; [apply Rabs_triang|]. rewrite Rabs_R1. lra. }
    destruct (IH a' Fs F2) as [F E].
    { fold S. apply Rle_trans with (T * ((1 + u_f32) * P)); auto. rewrite <- Rmult_assoc. apply Rmult_le_compat_r; [lra|]. rewrite ET. nra. }
    fold S in E. split; auto.
    replace (val (fold_left fadd ts a') - (val a + (val t + rsum val ts))) with
      ((val (fold_left fadd ts a') - (val a' + rsum val ts)) + (val a' - (val a + val t))) by ring.
    eapply Rle_trans; [apply Rabs_triang|].
    assert (D : Rabs (val a' - (val a + val t)) <= x * u_f32).
    { rewrite V. replace ((val a + val t) * (1 + d) - (val a + val t)) with ((val a + val t) * d) by ring. rewrite Rabs_mult.
      apply Rmult_le_compat; auto using Rabs_pos. }
    assert (E' : Rabs (val (fold_left fadd ts a') - (val a' + rsum val ts)) <= (P - 1) * (x * (1 + u_f32) + S)).
    { eapply Rle_trans; [exact E|]. apply Rmult_le_compat_l; lra. }
    rewrite ET. assert (0 <= S * (u_f32 * P)) by (apply Rmult_le_pos; [auto|apply Rmult_le_pos; lra]). nra.
Qed.

Lemma fold_map_add {X} (f : X -> f32) l a : fold_left (fun acc c => fadd acc (f c)) l a = fold_left fadd (map f l) a.
Proof. revert a. induction l as [|c l IH]; intros a; cbn; auto. Qed.

(** The conditions on one buffer for the error bound: a normal scale and a moderate zero point. *)
Definition accurate (c : contribution) : Prop := normal_scale (c_scale c) /\ (Z.abs (c_zp c) <= 2 ^ 19)%Z.
(** the exact value an element stands for *)
Definition c_exact (c : contribution) (i : nat) : R := IZR (c_int c i) * val (c_scale c).

Lemma c_value_rel outm c i : contribution_ok outm c -> accurate c ->
  finite (c_value c i) /\ exists d, Rabs d <= u_f32 /\ val (c_value c i) = c_exact c i * (1 + d).
Proof.
  intros ((Hq & _) & _) [Hs Hz]. pose proof (code_at_lt (c_type c) (c_bytes c) i Hq) as Hc.
  destruct (dequant_value_ok (c_scale c) (c_zp c) (code_at (c_type c) (c_bytes c) i) Hs ltac:(lia)) as [F V].
  change (dequant_value (c_scale c) (c_zp c) (code_at (c_type c) (c_bytes c) i)) with (c_value c i) in F, V.
  split; auto. rewrite V. apply product_rel. auto.
Qed.

(** k buffers: the accumulated element is within (1 + 2^-24)^(k+1) - 1 of the exact sum of the old element and of the k dequantized values,
    relative to the sum of the magnitudes, as long as that sum of magnitudes stays clear of overflow. *)
Theorem C55_accumulated_error cs outm r :
  let n := numel DT_F32 (length outm) in
  Forall (contribution_ok outm) cs -> Forall accurate cs -> chain add_step cs outm r ->
  exists o, r = Ok o /\ length o = length outm /\
    forall i, accumulates n cs i -> finite (f32_at outm i) ->
      let mass := Rabs (val (f32_at outm i)) + rsum (fun c => Rabs (c_exact c i)) cs in
      let grow := (1 + u_f32) ^ (length cs + 1) in
      mass * grow <= bpow radix2 127 ->
      finite (f32_at o i) /\
      Rabs (val (f32_at o i) - (val (f32_at outm i) + rsum (fun c => c_exact c i) cs)) <= (grow - 1) * mass.
Proof.
  intros n Hok Hac C. destruct (C55_accumulated_bits cs outm r Hok C) as (o & -> & L & B & _). exists o. split; auto. split; auto.
  intros i Hi Fa mass grow HM. rewrite B by exact Hi. rewrite fold_map_add. set (ts := map (fun c => c_value c i) cs). set (a := f32_at outm i) in *.
  assert (REL : Forall (fun c => finite (c_value c i) /\ exists d, Rabs d <= u_f32 /\ val (c_value c i) = c_exact c i * (1 + d)) cs).
  { rewrite Forall_forall in *. intros c Hc. eapply c_value_rel; eauto. }
  assert (U : 0 < u_f32) by (unfold u_f32; lra).
  assert (Ft : Forall finite ts).
  { apply Forall_map. eapply Forall_impl; [|exact REL]. intros c [F _]. exact F. }
  assert (L1 : rsum (fun t => Rabs (val t)) ts <= (1 + u_f32) * rsum (fun c => Rabs (c_exact c i)) cs).
  { unfold ts. rewrite rsum_map, <- rsum_scal. apply rsum_le. eapply Forall_impl; [|exact REL]. cbv beta. intros c [_ (d & Hd & ->)].
    rewrite Rabs_mult, Rmult_comm. apply Rmult_le_compat_r; [apply Rabs_pos|]. eapply Rle_trans; [apply Rabs_triang|]. rewrite Rabs_R1. lra. }
  assert (L2 : Rabs (rsum val ts - rsum (fun c => c_exact c i) cs) <= u_f32 * rsum (fun c => Rabs (c_exact c i)) cs).
  { unfold ts. rewrite rsum_map, <- rsum_scal. apply rsum_diff. eapply Forall_impl; [|exact REL]. cbv beta. intros c [_ (d & Hd & ->)].
    replace (c_exact c i * (1 + d) - c_exact c i) with (d * c_exact c i) by ring. rewrite Rabs_mult. apply Rmult_le_compat_r; [apply Rabs_pos|auto]. }
  assert (Lt : length ts = length cs) by (apply map_length).
  set (P := (1 + u_f32) ^ length cs). assert (EG : grow = (1 + u_f32) * P) by (unfold grow, P; rewrite Nat.add_1_r; reflexivity).
  assert (P1 : 1 <= P) by (apply pow_R1_Rle; lra).
  set (A := Rabs (val a)) in *. assert (A0 : 0 <= A) by apply Rabs_pos.
  set (X := rsum (fun c => Rabs (c_exact c i)) cs) in *. assert (X0 : 0 <= X) by (apply rsum_ge0; intros; apply Rabs_pos).
  set (T := rsum (fun t => Rabs (val t)) ts) in *.
  destruct (fsum_error ts a Fa Ft) as [F E].
  { fold A T. rewrite Lt. fold P. eapply Rle_trans; [|exact HM]. rewrite EG, <- Rmult_assoc. apply Rmult_le_compat_r; [lra|]. unfold mass. fold A X. nra. }
  split; auto. fold A T in E. rewrite Lt in E. fold P in E.
  replace (val (fold_left fadd ts a) - (val a + rsum (fun c => c_exact c i) cs)) with
    ((val (fold_left fadd ts a) - (val a + rsum val ts)) + (rsum val ts - rsum (fun c => c_exact c i) cs)) by ring.
  eapply Rle_trans; [apply Rabs_triang|].
  assert (E' : (P - 1) * (A + T) <= (P - 1) * (A + (1 + u_f32) * X)) by (apply Rmult_le_compat_l; lra).
  rewrite EG. unfold mass. fold A X. assert (0 <= A * (u_f32 * P)) by (apply Rmult_le_pos; [auto|apply Rmult_le_pos; lra]). nra.
Qed.

(** ** Exact sums *)
Lemma fmt32_scaled m e : (Z.abs m <= 2 ^ 24)%Z -> (-149 <= e)%Z -> fmt32 (IZR m * bpow radix2 e).
Proof.
  intros Hm He. destruct (Z.eq_dec (Z.abs m) (2 ^ 24)) as [E|N].
  - assert (G : fmt32 (bpow radix2 24 * bpow radix2 e)).
    { rewrite <- bpow_plus. apply generic_format_bpow. unfold fexp32, FLT_exp. lia. }
    destruct (Z.abs_spec m) as [[_ A]|[_ A]].
    + replace m with (2 ^ 24)%Z by lia. exact G.
    + replace m with (- 2 ^ 24)%Z by lia. rewrite opp_IZR, Ropp_mult_distr_l_reverse. apply generic_format_opp. exact G.
  - apply (fmt32_F2R m e); lia.
Qed.
Lemma scaled_small m e : (Z.abs m <= 2 ^ 24)%Z -> (e <= 100)%Z -> Rabs (IZR m * bpow radix2 e) < max32.
Proof.
  intros Hm He. rewrite Rabs_mult, (Rabs_pos_eq (bpow _ _)) by apply bpow_ge_0.
  apply Rle_lt_trans with (bpow radix2 24 * bpow radix2 100).
  - apply Rmult_le_compat; auto using Rabs_pos, bpow_ge_0; [|apply bpow_le; auto]. rewrite <- abs_IZR. apply (IZR_le _ (2 ^ 24)). auto.
  - rewrite <- bpow_plus. unfold max32. apply bpow_lt. lia.
Qed.
Lemma zsum_cons {X} (f : X -> Z) a l : zsum f (a :: l) = (f a + zsum f l)%Z.
Proof. reflexivity. Qed.
Lemma zsum_ge0 {X} (f : X -> Z) l : (forall x, 0 <= f x)%Z -> (0 <= zsum f l)%Z.
Proof. intros H. induction l as [|a l IH]; [apply Z.le_refl|]. rewrite zsum_cons. specialize (H a). lia. Qed.
Lemma zsum_perm {X} (f : X -> Z) l l' : Permutation l l' -> zsum f l = zsum f l'.
Proof. induction 1; rewrite ?zsum_cons in *; lia. Qed.

Lemma exact_fold {X} (f : X -> f32) (k : X -> Z) e l : (-149 <= e <= 100)%Z ->
  forall a m, finite a -> val a = IZR m * bpow radix2 e -> Forall (fun x => finite (f x) /\ val (f x) = IZR (k x) * bpow radix2 e) l ->
  (Z.abs m + zsum (fun x => Z.abs (k x)) l <= 2 ^ 24)%Z ->
  finite (fold_left (fun acc x => fadd acc (f x)) l a) /\ val (fold_left (fun acc x => fadd acc (f x)) l a) = IZR (m + zsum k l) * bpow radix2 e.
Proof.
  intros He. induction l as [|x l IH]; intros a m Fa Va Hl Hs.
  - cbn [fold_left]. unfold zsum. cbn [fold_right]. rewrite Z.add_0_r. auto.
  - inversion Hl as [|? ? [Fx Vx] Hl']; subst. rewrite zsum_cons in Hs |- *. cbn [fold_left].
    pose proof (zsum_ge0 (fun x => Z.abs (k x)) l (fun x => Z.abs_nonneg _)) as Z0.
    assert (E : val a + val (f x) = IZR (m + k x) * bpow radix2 e) by (rewrite Va, Vx, plus_IZR; ring).
    assert (EF : RN32 (val a + val (f x)) = IZR (m + k x) * bpow radix2 e) by (rewrite E; apply RN32_fmt, fmt32_scaled; lia).
    destruct (fadd_ok a (f x) Fa Fx) as [Fs Vs].
    { rewrite EF. apply scaled_small; lia. }
    rewrite EF in Vs. destruct (IH (fadd a (f x)) (m + k x)%Z Fs Vs Hl') as [F V]; [lia|]. split; auto. rewrite V. f_equal. f_equal. lia.
Qed.

(** If the old element and all scales are integer multiples of one power of two, and the integers involved add up to at most 2^24 in
    magnitude, nothing is rounded: the accumulated element is the exact sum. *)
Theorem C55_exact_sum cs outm r e (mant : contribution -> Z) :
  let n := numel DT_F32 (length outm) in
  (-149 <= e <= 100)%Z ->
  Forall (contribution_ok outm) cs -> Forall (fun c => (Z.abs (c_zp c) <= 2 ^ 19)%Z /\ val (c_scale c) = IZR (mant c) * bpow radix2 e) cs ->
  chain add_step cs outm r ->
  exists o, r = Ok o /\ length o = length outm /\
    forall i old, accumulates n cs i -> finite (f32_at outm i) -> val (f32_at outm i) = IZR old * bpow radix2 e ->
      (Z.abs old + zsum (fun c => Z.abs (c_int c i * mant c)) cs <= 2 ^ 24)%Z ->
      finite (f32_at o i) /\ val (f32_at o i) = IZR (old + zsum (fun c => c_int c i * mant c)%Z cs) * bpow radix2 e.
Proof.
  intros n He Hok Hm C. destruct (C55_accumulated_bits cs outm r Hok C) as (o & -> & L & B & _). exists o. split; auto. split; auto.
  intros i old Hi Fa Va Hs. rewrite B by exact Hi. apply (exact_fold (fun c => c_value c i) (fun c => c_int c i * mant c)%Z); auto.
  assert (B1 : Forall (fun c => Z.abs (c_int c i * mant c) <= 2 ^ 24)%Z cs).
  { pose proof (Z.abs_nonneg old). assert (G : (zsum (fun c => Z.abs (c_int c i * mant c)) cs <= 2 ^ 24)%Z) by lia. clear - G.
    induction cs as [|c cs IH]; constructor; rewrite zsum_cons in G;
    pose proof (zsum_ge0 (fun c => Z.abs (c_int c i * mant c)) cs (fun x => Z.abs_nonneg _)) as Z0; pose proof (Z.abs_nonneg (c_int c i * mant c)); [lia|]. apply IH. lia. }
  rewrite Forall_forall in *. intros c Hc. destruct (Hok c Hc) as ((Hq & _) & _ & Fsc). destruct (Hm c Hc) as [Hz Es]. specialize (B1 c Hc).
  pose proof (code_at_lt (c_type c) (c_bytes c) i Hq) as Hcode.
  destruct (f32_of_Z_exact (c_int c i)) as [F V]; [unfold c_int; lia|].
  assert (E : val (f32_of_Z (c_int c i)) * val (c_scale c) = IZR (c_int c i * mant c) * bpow radix2 e) by (rewrite V, Es, mult_IZR; ring).
  assert (EF : RN32 (val (f32_of_Z (c_int c i)) * val (c_scale c)) = IZR (c_int c i * mant c) * bpow radix2 e) by (rewrite E; apply RN32_fmt, fmt32_scaled; lia).
  destruct (fmul_ok (f32_of_Z (c_int c i)) (c_scale c) F Fsc) as [Fm Vm]; [rewrite EF; apply scaled_small; lia|].
  split; [exact Fm|]. unfold c_value. rewrite Vm. exact EF.
Qed.

(** Then the order of accumulation does not matter, nor who performs it. *)
Corollary C55_exact_sum_any_order cs cs' outm r r' e (mant : contribution -> Z) :
  let n := numel DT_F32 (length outm) in
  (-149 <= e <= 100)%Z -> Permutation cs cs' ->
  Forall (contribution_ok outm) cs -> Forall (fun c => (Z.abs (c_zp c) <= 2 ^ 19)%Z /\ val (c_scale c) = IZR (mant c) * bpow radix2 e) cs ->
  chain add_step cs outm r -> chain add_step cs' outm r' ->
  exists o o', r = Ok o /\ r' = Ok o' /\
    forall i old, accumulates n cs i -> finite (f32_at outm i) -> val (f32_at outm i) = IZR old * bpow radix2 e ->
      (Z.abs old + zsum (fun c => Z.abs (c_int c i * mant c)) cs <= 2 ^ 24)%Z ->
      val (f32_at o i) = val (f32_at o' i) /\ (val (f32_at o i) <> 0 -> f32_at o i = f32_at o' i).
Proof.
  intros n He HP Hok Hm C C'.
  assert (Hok' : Forall (contribution_ok outm) cs') by (eapply Permutation_Forall; eauto).
  assert (Hm' : Forall (fun c => (Z.abs (c_zp c) <= 2 ^ 19)%Z /\ val (c_scale c) = IZR (mant c) * bpow radix2 e) cs') by (eapply Permutation_Forall; eauto).
  destruct (C55_exact_sum cs outm r e mant He Hok Hm C) as (o & -> & _ & H). destruct (C55_exact_sum cs' outm r' e mant He Hok' Hm' C') as (o' & -> & _ & H').
  exists o, o'. split; auto. split; auto. intros i old Hi Fa Va Hs.
  destruct (H i old Hi Fa Va Hs) as [F V]. destruct (H' i old) as [F' V']; auto.
  - destruct Hi as [Hi Hu]. split; auto. destruct Hu as [Hu|Hu]; auto. right. eapply Permutation_Forall; eauto.
  - rewrite <- (zsum_perm _ _ _ HP). auto.
  - rewrite <- (zsum_perm _ _ _ HP) in V'. assert (E : val (f32_at o i) = val (f32_at o' i)) by congruence. split; auto. intros N. apply val_inj; auto.
Qed.

(** ** End to end: every peer quantizes its own data, the buffers are accumulated *)
(** One peer: its data, how it quantizes it, the buffer it quantizes into, what follows that buffer in memory (one readable byte at least),
    and how the receiver adds it. *)
Record peer := {
  p_data_type : dtype; p_data : mem; p_arch : arch; p_threads : nat; p_qaddr : Z; p_type : dtype; p_scale : f32; p_zp : Z; p_mode : round_mode_t;
  p_thr : f32; p_buffer : mem; p_extra : mem; p_rarch : arch; p_rthreads : nat; p_oaddr : Z }.
(** quantize, then dequantize(add) into the receiver's buffer *)
Definition peer_step (p : peer) (o : mem) (r : res mem) : Prop :=
  exists q, returns (p_data p) (p_buffer p) (quantize_call (p_arch p) (p_threads p) (p_qaddr p) (p_data_type p) (p_type p) (p_scale p) (p_zp p) (p_mode p) (p_thr p) (p_data p) (p_buffer p)) q /\
  match q with
  | Ok b => returns (b ++ p_extra p) o (dequantize_call (p_rarch p) (p_rthreads p) (p_oaddr p) (p_type p) DT_F32 (p_scale p) (p_zp p) RO_ADD (length b) o) r
  | Abort => r = Abort
  | UB => r = UB
  end.
Definition peer_ok (outm : mem) (p : peer) : Prop :=
  let n := numel DT_F32 (length outm) in
  buffers_ok (p_threads p) (p_data_type p) (p_type p) (p_data p) (p_buffer p) /\ numel (p_data_type p) (length (p_data p)) = n /\
  sizes_ok (length outm) n (p_rthreads p) /\ Forall is_byte (p_extra p) /\ p_extra p <> [] /\
  normal_scale (p_scale p) /\ 0 < val (p_scale p) /\ (0 <= p_zp p <= code_max (p_type p))%Z /\ (p_mode p = RM_STOCHASTIC -> threshold (p_thr p)).
Definition p_x (p : peer) (i : nat) : R := val (elem_at (p_data_type p) (p_data p) i).
(** the values of the peer lie in the range its parameters can represent, give or take half a step *)
Definition peer_fits (n : nat) (p : peer) : Prop :=
  forall i, (i < n)%nat -> finite (elem_at (p_data_type p) (p_data p) i) /\
    IZR (0 - p_zp p) - / 2 - / 8192 <= p_x p i / val (p_scale p) <= IZR (code_max (p_type p) - p_zp p) + / 2 + / 8192.
(** worst error of one code: half a step for nearest rounding, a step for stochastic rounding *)
Definition p_error (p : peer) : R := val (p_scale p) * (match p_mode p with RM_NEAREST => / 2 | RM_STOCHASTIC => 1 end + bpow radix2 (-12)).

Lemma peer_quantizable scale x d zp : quant_type d -> normal_scale scale -> (0 <= zp <= code_max d)%Z -> finite x ->
  IZR (0 - zp) - / 2 - / 8192 <= val x / val scale <= IZR (code_max d - zp) + / 2 + / 8192 -> quantizable scale x.
Proof.
  intros Hq Hsn Z F FIT. split; auto. pose proof (scaled_rel scale (val x) Hsn) as SR. set (t := val x / val scale) in *.
  pose proof (code_max_range d Hq) as Hm.
  assert (B1 : (Rabs (IZR (0 - zp)) <= IZR 255)) by (apply abs_IZR_le; lia). apply Rabs_le_inv in B1.
  assert (B2 : (Rabs (IZR (code_max d - zp)) <= IZR 255)) by (apply abs_IZR_le; lia). apply Rabs_le_inv in B2.
  assert (Tt : Rabs t <= 256) by (apply Rabs_le; lra). destruct tiny_small as [_ T2]. set (y := scaled _ _) in *.
  assert (D : Rabs (y - t) <= 1) by (unfold u32r in SR; lra). apply Rabs_le_inv in Tt. apply Rabs_le_inv in D.
  apply Rle_lt_trans with 300; [apply Rabs_le; lra|]. change (bpow radix2 30) with 1073741824. lra.
Qed.

(** what one peer contributes *)
Lemma peer_contributes outm p r : peer_ok outm p -> peer_fits (numel DT_F32 (length outm)) p -> peer_step p outm r ->
  exists c, add_step c outm r /\ contribution_ok outm c /\ accurate c /\ c_type c = p_type p /\
    forall i, (i < numel DT_F32 (length outm))%nat -> Rabs (c_exact c i - p_x p i) <= p_error p.
Proof.
  intros (HB & Hn & HS & He & Hne & Hsn & Hp & Hz & Ht) HF (q & HQ & HD). pose proof HB as (Hfp & Hq & _). pose proof (code_max_range _ Hq) as Hm.
  set (n := numel DT_F32 (length outm)) in *.
  assert (Hz22 : (Z.abs (p_zp p) <= 2 ^ 22)%Z) by lia.
  destruct (quantize_near_rm (p_arch p) _ (p_qaddr p) _ _ _ _ _ _ _ _ q HB (normal_good _ Hsn) Hz22 Ht) as (b & -> & HLp & Hby & HC); auto.
  { rewrite Hn. intros i Hi. destruct (HF i Hi). eapply peer_quantizable; eauto. }
  rewrite Hn in HC.
  destruct (packed_buffers _ (p_rthreads p) _ DT_F32 _ _ _ b (p_extra p) outm HB (or_introl eq_refl) HLp Hby He Hne (eq_sym Hn) HS) as [HB' HCe]. rewrite Hn in HCe.
  exists {| c_arch := p_rarch p; c_threads := p_rthreads p; c_oaddr := p_oaddr p; c_type := p_type p; c_scale := p_scale p; c_zp := p_zp p; c_bytes := b ++ p_extra p; c_size := length b |}.
  split; [exact HD|]. split; [repeat split; cbn [c_arch c_threads c_type c_scale c_zp c_bytes c_size]; auto; try apply HB'; try lia; try apply Hsn|].
  split; [split; cbn [c_scale c_zp]; auto; lia|]. split; auto.
  intros i Hi. unfold c_exact, c_int. cbn [c_type c_bytes c_zp c_scale]. rewrite HCe by auto. destruct (HC i Hi) as (k & -> & K). destruct (HF i Hi) as [Fx Hx].
  assert (HK : / 2 <= code_error (p_mode p) <= 1) by (destruct (p_mode p); cbn; lra).
  destruct (steps_near (p_type p) (p_scale p) (p_zp p) (p_x p i) k (/ 8192) (code_error (p_mode p)) Hq Hsn Hp Hz ltac:(lra) HK K Hx) as [_ M].
  set (m := (clamp 0 (code_max (p_type p)) (k + p_zp p) - p_zp p)%Z) in *.
  replace (IZR m * val (p_scale p) - p_x p i) with (val (p_scale p) * (IZR m - p_x p i / val (p_scale p))) by (field; lra).
  rewrite Rabs_mult, (Rabs_pos_eq (val (p_scale p))) by lra. unfold p_error. apply Rmult_le_compat_l; [lra|].
  change (bpow radix2 (-12)) with (/ 4096). destruct (p_mode p); cbn [code_error] in M; lra.
Qed.

Lemma peers_contribute n ps : forall outm r, n = numel DT_F32 (length outm) ->
  Forall (peer_ok outm) ps -> Forall (peer_fits n) ps -> chain peer_step ps outm r ->
  exists cs, chain add_step cs outm r /\ Forall (contribution_ok outm) cs /\ Forall accurate cs /\
    Forall2 (fun c p => c_type c = p_type p /\ forall i, (i < n)%nat -> Rabs (c_exact c i - p_x p i) <= p_error p) cs ps.
Proof.
  intros outm r En Hok Hf C. revert Hok Hf En. induction C as [o|p ps o o' r S C IH|p ps o r S N]; intros Hok Hf En.
  - exists []. repeat split; constructor.
  - inversion Hok as [|? ? K1 K2]; inversion Hf as [|? ? F1 F2]; subst.
    destruct (peer_contributes o p (Ok o') K1 F1 S) as (c & A & CO & AC & T & X).
    assert (L : length o' = length o).
    { destruct CO as (HB & Hz & Hs). destruct (C08_dequantize_add_f32 _ _ _ _ _ _ _ _ _ _ HB Hz Hs A) as (o1 & E & L & _). congruence. }
    destruct IH as (cs & Ch & Co & Ac & F).
    + eapply Forall_impl; [|exact K2]. intros a. unfold peer_ok. rewrite L. auto.
    + auto.
    + rewrite L. reflexivity.
    + exists (c :: cs). split; [eapply chain_next; eauto|]. split; [constructor; auto|]. 2:split; constructor; auto.
      eapply Forall_impl; [|exact Co]. intros a. apply contribution_ok_len. auto.
  - inversion Hok as [|? ? K1 K2]; inversion Hf as [|? ? F1 F2]; subst.
    destruct (peer_contributes o p r K1 F1 S) as (c & A & (HB & Hz & Hs) & _).
    destruct (C08_dequantize_add_f32 _ _ _ _ _ _ _ _ _ _ HB Hz Hs A) as (o1 & E & _). destruct (N o1 E).
Qed.

(** k peers: the receiver's element is within the sum of the peers' code errors of the exact sum of its old value and the peers' original
    values, plus the f32 rounding of k additions and k products. *)
Theorem C55_all_reduce_error ps outm r :
  let n := numel DT_F32 (length outm) in
  Forall (peer_ok outm) ps -> Forall (peer_fits n) ps -> chain peer_step ps outm r ->
  exists o, r = Ok o /\ length o = length outm /\
    forall i, (i < n)%nat -> ((i < 4 * (n / 4))%nat \/ Forall (fun p => p_type p <> DT_UINT2) ps) -> finite (f32_at outm i) ->
      let mass := Rabs (val (f32_at outm i)) + rsum (fun p => Rabs (p_x p i) + p_error p) ps in
      let grow := (1 + u_f32) ^ (length ps + 1) in
      mass * grow <= bpow radix2 127 ->
      finite (f32_at o i) /\
      Rabs (val (f32_at o i) - (val (f32_at outm i) + rsum (fun p => p_x p i) ps)) <= rsum p_error ps + (grow - 1) * mass.
Proof.
  intros n Hok Hf C. destruct (peers_contribute n ps outm r eq_refl Hok Hf C) as (cs & Ch & Co & Ac & F2).
  destruct (C55_accumulated_error cs outm r Co Ac Ch) as (o & -> & L & H). exists o. split; auto. split; auto.
  intros i Hi Hu Fa mass grow HM. fold n in H.
  assert (EL : length cs = length ps) by (clear - F2; induction F2; cbn [length]; congruence).
  assert (S1 : rsum (fun c => Rabs (c_exact c i)) cs <= rsum (fun p => Rabs (p_x p i) + p_error p) ps).
  { clear - F2 Hi. induction F2 as [|c p cs ps [_ X] F2 IH]; [apply Rle_refl|]. rewrite !rsum_cons. specialize (X i Hi).
    pose proof (Rabs_triang (c_exact c i - p_x p i) (p_x p i)) as T. replace (c_exact c i - p_x p i + p_x p i) with (c_exact c i) in T by ring. lra. }
  assert (S2 : Rabs (rsum (fun c => c_exact c i) cs - rsum (fun p => p_x p i) ps) <= rsum p_error ps).
  { clear - F2 Hi. induction F2 as [|c p cs ps [_ X] F2 IH]; [unfold rsum; cbn [fold_right]; rewrite Rminus_0_r, Rabs_R0; lra|]. rewrite !rsum_cons. specialize (X i Hi).
    replace (c_exact c i + rsum (fun c => c_exact c i) cs - (p_x p i + rsum (fun p => p_x p i) ps)) with
      ((c_exact c i - p_x p i) + (rsum (fun c => c_exact c i) cs - rsum (fun p => p_x p i) ps)) by ring.
    eapply Rle_trans; [apply Rabs_triang|]. lra. }
  assert (U : 0 < u_f32) by (unfold u_f32; lra).
  assert (G1 : 1 <= grow) by (apply pow_R1_Rle; lra).
  destruct (H i) as [F E]; auto.
  - split; auto. destruct Hu as [Hu|Hu]; auto. right. clear - F2 Hu. induction F2 as [|c p cs ps [T _] F2 IH]; constructor; inversion Hu; subst; auto. rewrite T. auto.
  - rewrite EL. fold grow. eapply Rle_trans; [|exact HM]. apply Rmult_le_compat_r; [lra|]. unfold mass. lra.
  - rewrite EL in E. fold grow in E. split; auto.
    replace (val (f32_at o i) - (val (f32_at outm i) + rsum (fun p => p_x p i) ps)) with
      ((val (f32_at o i) - (val (f32_at outm i) + rsum (fun c => c_exact c i) cs)) + (rsum (fun c => c_exact c i) cs - rsum (fun p => p_x p i) ps)) by ring.
    eapply Rle_trans; [apply Rabs_triang|].
    assert ((grow - 1) * (Rabs (val (f32_at outm i)) + rsum (fun c => Rabs (c_exact c i)) cs) <= (grow - 1) * mass) by (apply Rmult_le_compat_l; unfold mass; lra). lra.
Qed.

(** Parameters computed from the peer's own data satisfy the hypotheses: zero inside the range of the data and a range between 2^-112 and 2^100. *)
Theorem C55_computed_parameters_fit a blocks p n lo hi :
  a <> SSE42 -> float_type (p_data_type p) -> quant_type (p_type p) -> finite_data (p_data_type p) (p_data p) n -> block_cover n blocks ->
  data_range (p_data_type p) (p_data p) n lo hi -> lo <= 0 <= hi -> bpow radix2 (-112) <= hi - lo <= bpow radix2 100 ->
  compute_quant_config_from_data a (p_data_type p) (p_type p) (p_data p) blocks = Ok (p_scale p, p_zp p) ->
  peer_fits n p /\ normal_scale (p_scale p) /\ 0 < val (p_scale p) /\ (0 <= p_zp p <= code_max (p_type p))%Z.
Proof.
  intros Ha Hfp Hq HD HBl HR H0 HB EC. pose proof (bpow_gt_0 radix2 (-112)) as P0. assert (H : lo < hi) by lra.
  assert (HB' : bpow radix2 (-118) <= hi - lo <= bpow radix2 100) by (assert (bpow radix2 (-118) <= bpow radix2 (-112)) by (apply bpow_le; lia); lra).
  destruct (C21_documented_parameters a _ _ _ n blocks lo hi Ha Hfp Hq HD HBl HR H) as (s & E & Fs & Vs).
  rewrite EC in E. injection E as Es Ez. rewrite <- Es in *. 
  assert (I1 : in32 lo) by (destruct HR as ((i & Hi & <-) & _); apply in32_val, HD; auto).
  assert (I2 : in32 hi) by (destruct HR as (_ & (i & Hi & <-) & _); apply in32_val, HD; auto).
  destruct (config_scale_rel (p_type p) lo hi Hq I1 I2 HB') as (e & Hee & Er & Bs1 & Bs2).
  destruct (config_zp_near (p_type p) lo hi Hq I1 I2 H H0) as (T & Z & N). pose proof (bpow_gt_0 radix2 (-126)) as P1.
  split; [|split; [split; [exact Fs|rewrite Vs, Rabs_pos_eq; lra]|split; [lra|rewrite Ez; exact Z]]].
  intros i Hi. split; [apply HD; auto|]. unfold p_x. rewrite Vs, Ez. apply config_fits; auto. destruct HR as (_ & _ & HR). apply (HR i Hi).
Qed.
