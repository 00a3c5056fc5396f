(** PropsConfig.v -- C20, C21, C22, C24: compute_quant_config_from_data. *)
From Coq Require Import ZArith List Lia Bool Reals Lra.
From Flocq Require Import Core BinarySingleNaN Binary Bits.
From Verif Require Import Base Floats Dtypes ExecFacts Spec ApiSpec FloatFacts FloatFacts2 QuantFacts QuantLanes MinMax MinMaxFacts ConfigSpec F64Facts ConfigFacts.
Import ListNotations.
Local Open Scope nat_scope.

(** ** The fold over the blocks *)
Lemma dbl_max_ok : finite64 dbl_max /\ forall x, finite x -> (val x <= val64 dbl_max)%R.
Proof.
  split; [reflexivity|]. intros x F. apply Rle_trans with (1 := flt_max_bound x F). rewrite flt_max_val.
  apply Rle_trans with (bpow radix2 128); [pose proof (bpow_gt_0 radix2 (128 - 24)); lra|].
  unfold val64, dbl_max. vm_compute b64_of_bits. cbn [B2R]. unfold F2R. cbn [Fnum Fexp cond_Zopp].
  apply Rle_trans with (bpow radix2 971); [apply bpow_le; lia|]. pose proof (bpow_gt_0 radix2 971).
  set (b := bpow radix2 971) in *. clearbody b. lra.
Qed.
Lemma dbl_lowest_ok : finite64 dbl_lowest /\ forall x, finite x -> (val64 dbl_lowest <= val x)%R.
Proof.
  split; [reflexivity|]. intros x F. apply Rle_trans with (2 := flt_lowest_bound x F). rewrite flt_lowest_val, flt_max_val.
  apply Rle_trans with (- bpow radix2 128)%R; [|pose proof (bpow_gt_0 radix2 (128 - 24)); lra].
  unfold val64, dbl_lowest. vm_compute b64_of_bits. cbn [B2R]. unfold F2R. cbn [Fnum Fexp cond_Zopp].
  apply Rle_trans with (- bpow radix2 971)%R; [|apply Ropp_le_contravar, bpow_le; lia]. pose proof (bpow_gt_0 radix2 971).
  set (b := bpow radix2 971) in *. clearbody b. rewrite opp_IZR. lra.
Qed.

Lemma fold_range_ok l : Forall (fun m => finite (fst m) /\ finite (snd m)) l -> l <> [] ->
  let r := fold_range l in finite64 (fst r) /\ finite64 (snd r) /\
    (exists m, In m l /\ val (fst m) = val64 (fst r)) /\ (forall m, In m l -> (val64 (fst r) <= val (fst m))%R) /\
    (exists m, In m l /\ val (snd m) = val64 (snd r)) /\ (forall m, In m l -> (val (snd m) <= val64 (snd r))%R).
Proof.
  intros HF Hne. cbv zeta. unfold fold_range.
  assert (G : forall l (r : f64 * f64), Forall (fun m => finite (fst m) /\ finite (snd m)) l -> finite64 (fst r) -> finite64 (snd r) ->
    let r' := fold_left (fun r m => (dmin (fst r) (f64_of_f32 (fst m)), dmax (snd r) (f64_of_f32 (snd m)))) l r in
    finite64 (fst r') /\ finite64 (snd r') /\
    (val64 (fst r') = val64 (fst r) \/ exists m, In m l /\ val (fst m) = val64 (fst r')) /\
    (val64 (fst r') <= val64 (fst r))%R /\ (forall m, In m l -> (val64 (fst r') <= val (fst m))%R) /\
    (val64 (snd r') = val64 (snd r) \/ exists m, In m l /\ val (snd m) = val64 (snd r')) /\
    (val64 (snd r) <= val64 (snd r'))%R /\ (forall m, In m l -> (val (snd m) <= val64 (snd r'))%R)).
  { clear. induction l as [|m l IH]; intros r HF F1 F2; cbn [fold_left].
    - repeat split; auto; try lra; intros m [].
    - inversion HF as [|? ? [Fm1 Fm2] HF']; subst. destruct (f64_of_f32_ok _ Fm1) as [G1 V1]. destruct (f64_of_f32_ok _ Fm2) as [G2 V2].
      destruct (dmin_ok _ _ F1 G1) as [D1 E1]. destruct (dmax_ok _ _ F2 G2) as [D2 E2]. rewrite V1 in E1. rewrite V2 in E2.
      destruct (IH (dmin (fst r) (f64_of_f32 (fst m)), dmax (snd r) (f64_of_f32 (snd m))) HF' D1 D2) as (A1 & A2 & A3 & A4 & A5 & A6 & A7 & A8).
      cbn [fst snd] in *. rewrite E1 in A3, A4. rewrite E2 in A6, A7.
      pose proof (Rmin_l (val64 (fst r)) (val (fst m))). pose proof (Rmin_r (val64 (fst r)) (val (fst m))).
      pose proof (Rmax_l (val64 (snd r)) (val (snd m))). pose proof (Rmax_r (val64 (snd r)) (val (snd m))).
      repeat split; auto; try lra.
      + destruct A3 as [A3|(k & Hk & A3)]; [|right; exists k; cbn; auto]. rewrite A3. unfold Rmin. destruct Rle_dec; auto. right. exists m. cbn; auto.
      + intros k [->|Hk]; [lra|auto].
      + destruct A6 as [A6|(k & Hk & A6)]; [|right; exists k; cbn; auto]. rewrite A6. unfold Rmax. destruct Rle_dec; auto. right. exists m. cbn; auto.
      + intros k [->|Hk]; [lra|auto]. }
  destruct (G l (dbl_max, dbl_lowest) HF (proj1 dbl_max_ok) (proj1 dbl_lowest_ok)) as (A1 & A2 & A3 & A4 & A5 & A6 & A7 & A8).
  cbn [fst snd] in *. destruct l as [|m0 l]; [congruence|]. rewrite Forall_forall in HF. destruct (HF m0 ltac:(cbn; auto)) as [F1 F2].
  set (r := fold_left _ (m0 :: l) _) in *. clearbody r.
  repeat split; auto.
  - destruct A3 as [A3|A3]; auto. exists m0. split; [cbn; auto|]. apply Rle_antisym; [|apply A5; cbn; auto]. rewrite A3. apply dbl_max_ok; auto.
  - destruct A6 as [A6|A6]; auto. exists m0. split; [cbn; auto|]. apply Rle_antisym; [apply A8; cbn; auto|]. rewrite A6. apply dbl_lowest_ok; auto.
Qed.

(** ** One block *)
Lemma elem_at_slice d m start len j : d = DT_F32 \/ d = DT_BF16 -> j < len ->
  elem_at d (slice (stride d * start) (stride d * len) m) j = elem_at d m (start + j).
Proof.
  assert (S : forall a l off le (m : mem), a + l <= le -> slice a l (slice off le m) = slice (off + a) l m) by (intros; apply sub_slice; auto).
  intros [->| ->] Hj; cbn [elem_at stride]; unfold f32_at, bf16_at; rewrite S by lia; rewrite <- Nat.mul_add_distr_l; reflexivity.
Qed.

(** element [t] of the buffer is looked at when the blocks are [blocks] *)
Definition seen (a : arch) (d : dtype) (blocks : list (nat * nat)) (t : nat) : Prop :=
  exists b, In b blocks /\ fst b <= t < snd b /\ scanned a d (snd b - fst b) (t - fst b).

Lemma sequence_ok {A B} (f : A -> res B) l (P : A -> B -> Prop) : (forall a, In a l -> exists b, f a = Ok b /\ P a b) ->
  exists bs, sequence (map f l) = Ok bs /\ Forall2 P l bs.
Proof.
  induction l as [|a l IH]; intros H; cbn [map sequence].
  - exists []. auto.
  - destruct (H a ltac:(cbn; auto)) as (b & E & Hb). destruct IH as (bs & E' & HF); [intros; apply H; cbn; auto|].
    exists (b :: bs). rewrite E. cbn [bind]. rewrite E'. cbn [bind]. auto.
Qed.
Lemma Forall2_In_l {A B} (P : A -> B -> Prop) l m a : Forall2 P l m -> In a l -> exists b, In b m /\ P a b.
Proof. induction 1 as [|x y l m H HF IH]; intros I; [destruct I|]. destruct I as [->|I]; [exists y; cbn; auto|]. destruct (IH I) as (b & ? & ?). exists b; cbn; auto. Qed.
Lemma Forall2_In_r {A B} (P : A -> B -> Prop) l m b : Forall2 P l m -> In b m -> exists a, In a l /\ P a b.
Proof. induction 1 as [|x y l m H HF IH]; intros I; [destruct I|]. destruct I as [->|I]; [exists x; cbn; auto|]. destruct (IH I) as (a & ? & ?). exists a; cbn; auto. Qed.

Lemma block_ok a d inm n b : d = DT_F32 \/ d = DT_BF16 -> finite_data d inm n -> fst b < snd b <= n ->
  exists r, block_range a d inm b = Ok r /\
    (let P t := fst b <= t < snd b /\ scanned a d (snd b - fst b) (t - fst b) in
     extreme_of true P (elem_at d inm) (fst r) /\ extreme_of false P (elem_at d inm) (snd r)).
Proof.
  intros Hd (Hby & HL & HF) Hb. destruct b as [st en]. cbn [fst snd] in *. unfold block_range.
  destruct (Nat.eqb_spec (en - st) 0) as [E|_]; [lia|].
  destruct (find_min_max_ok a d (slice (stride d * st) (stride d * (en - st)) inm) (en - st) Hd) as (mn & mx & E & M1 & M2).
  - apply Forall_forall. intros y Hy. rewrite Forall_forall in Hby. apply Hby. unfold slice in Hy.
    apply In_nth with (d := 0%Z) in Hy. destruct Hy as (k & Hk & <-). rewrite firstn_length, skipn_length in Hk.
    rewrite nth_firstn_lt, nth_skipn' by lia. apply nth_In. lia.
  - rewrite slice_length; auto. rewrite HL. nia.
  - lia.
  - intros i Hi. rewrite elem_at_slice by auto. apply HF. lia.
  - exists (mn, mx). split; auto. cbn [fst snd].
    assert (T : forall s m, extreme_of s (fun t => t < en - st /\ scanned a d (en - st) t) (elem_at d (slice (stride d * st) (stride d * (en - st)) inm)) m ->
      extreme_of s (fun t => st <= t < en /\ scanned a d (en - st) (t - st)) (elem_at d inm) m).
    { intros s m (F & (t & [Ht1 Ht2] & V) & M). split; auto. split.
      - exists (st + t). rewrite elem_at_slice in V by auto. replace (st + t - st) with t by lia. split; [split; [lia|auto]|auto].
      - intros u [Hu1 Hu2]. specialize (M (u - st) ltac:(split; auto; lia)). rewrite elem_at_slice in M by (auto; lia).
        replace (st + (u - st)) with u in M by lia. exact M. }
    split; apply T; auto.
Qed.

(** ** The whole call: range over the elements that are looked at, then the formulas *)
Lemma in32_val x : finite x -> in32 (val x).
Proof. intros F. split; [apply val_fmt|]. apply abs_B2R_lt_emax. Qed.

Theorem config_range a d inm n blocks : float_type d -> finite_data d inm n -> 0 < n -> block_cover n blocks ->
  exists rs lo hi, sequence (map (block_range a d inm) blocks) = Ok rs /\
    let r := fold_range rs in finite64 (fst r) /\ finite64 (snd r) /\ val64 (fst r) = lo /\ val64 (snd r) = hi /\ in32 lo /\ in32 hi /\
    (exists t, seen a d blocks t /\ val (elem_at d inm t) = lo) /\ (exists t, seen a d blocks t /\ val (elem_at d inm t) = hi) /\
    (forall t, seen a d blocks t -> (lo <= val (elem_at d inm t) <= hi)%R).
Proof.
  intros Hd HD Hn [HB HC].
  destruct (sequence_ok (block_range a d inm) blocks (fun b r => fst b < snd b <= n /\
     let P t := fst b <= t < snd b /\ scanned a d (snd b - fst b) (t - fst b) in
     extreme_of true P (elem_at d inm) (fst r) /\ extreme_of false P (elem_at d inm) (snd r))) as (rs & E & HF).
  { intros b Hb. destruct (block_ok a d inm n b Hd HD (HB b Hb)) as (r & E & M). exists r. split; auto. }
  assert (Fin : Forall (fun m => finite (fst m) /\ finite (snd m)) rs).
  { apply Forall_forall. intros r Hr. destruct (Forall2_In_r _ _ _ _ HF Hr) as (b & _ & _ & (F1 & _) & (F2 & _)). auto. }
  assert (Ne : rs <> []).
  { intros ->. inversion HF; subst. destruct (HC 0 Hn) as (b & [] & _). }
  destruct (fold_range_ok rs Fin Ne) as (F1 & F2 & (m1 & I1 & V1) & L1 & (m2 & I2 & V2) & L2).
  exists rs, (val64 (fst (fold_range rs))), (val64 (snd (fold_range rs))). split; auto. cbv zeta.
  rewrite Forall_forall in Fin.
  split; auto. split; auto. split; auto. split; auto. split; [rewrite <- V1; apply in32_val, Fin; auto|]. split; [rewrite <- V2; apply in32_val, Fin; auto|].
  split; [|split].
  - destruct (Forall2_In_r _ _ _ _ HF I1) as (b & Hb & Hb' & (_ & (t & [Ht Hs] & V) & _) & _). exists t. split; [exists b; auto|]. rewrite V. auto.
  - destruct (Forall2_In_r _ _ _ _ HF I2) as (b & Hb & Hb' & _ & (_ & (t & [Ht Hs] & V) & _)). exists t. split; [exists b; auto|]. rewrite V. auto.
  - intros t (b & Hb & Ht & Hs). destruct (Forall2_In_l _ _ _ _ HF Hb) as (r & Hr & _ & (_ & _ & M1) & (_ & _ & M2)).
    specialize (M1 t (conj Ht Hs)). specialize (M2 t (conj Ht Hs)). specialize (L1 r Hr). specialize (L2 r Hr). unfold key in *. lra.
Qed.

(** the assertion of the public entry point holds *)
Lemma from_data_ok a d dq inm blocks s z : finite s -> (0 <= val s)%R -> compute_quant_config a d dq inm blocks = Ok (s, z) ->
  compute_quant_config_from_data a d dq inm blocks = Ok (s, z).
Proof.
  intros F P E. unfold compute_quant_config_from_data. rewrite E. cbn [bind fst]. rewrite finite_nan by auto.
  rewrite fge_ok by (auto; reflexivity). rewrite Rle_bool_true by (rewrite (proj2 f_zero_ok); auto). reflexivity.
Qed.

Lemma mid_ok dq : quant_type dq -> Z.shiftr (code_max dq + 0) 1 = mid_code dq /\ (0 <= mid_code dq <= code_max dq)%Z.
Proof. intros [->|[->| ->]]; cbn; lia. Qed.

Theorem config_full a d dq inm n blocks : float_type d -> quant_type dq -> finite_data d inm n -> 0 < n -> block_cover n blocks ->
  exists lo hi, in32 lo /\ in32 hi /\
    (exists t, seen a d blocks t /\ val (elem_at d inm t) = lo) /\ (exists t, seen a d blocks t /\ val (elem_at d inm t) = hi) /\
    (forall t, seen a d blocks t -> (lo <= val (elem_at d inm t) <= hi)%R) /\
    ((lo = hi /\ compute_quant_config_from_data a d dq inm blocks = Ok (f_one, mid_code dq)) \/
     ((lo < hi)%R /\ exists s, compute_quant_config_from_data a d dq inm blocks = Ok (s, config_zp dq lo hi) /\
        finite s /\ val s = config_scale dq lo hi /\ Bsign 24 128 s = false /\ (0 <= val s)%R)).
Proof.
  intros Hd Hq HD Hn HB. destruct (config_range a d inm n blocks Hd HD Hn HB) as (rs & lo & hi & E & F1 & F2 & V1 & V2 & I1 & I2 & X1 & X2 & X3).
  exists lo, hi. split; auto. split; auto. split; auto. split; auto. split; auto.
  assert (L : (lo <= hi)%R) by (destruct X1 as (t & Ht & V); specialize (X3 t Ht); lra).
  destruct (Rle_lt_or_eq_dec lo hi L) as [L'|L'].
  - right. split; auto. destruct (params_ok dq _ _ lo hi Hq F1 F2 V1 V2 I1 I2 L') as (s & P & Fs & Vs & Ss & Ps). exists s.
    split; auto. apply from_data_ok; auto. unfold compute_quant_config. rewrite E. cbn [bind]. exact P.
  - left. split; auto. apply from_data_ok; [reflexivity|rewrite (proj2 f_one_ok); lra|].
    unfold compute_quant_config. rewrite E. cbn [bind]. unfold params_of_range.
    assert (ET : compute_type_max dq = Ok (code_max dq)) by (destruct Hq as [->|[->| ->]]; reflexivity).
    assert (ES : is_signed dq = false) by (destruct Hq as [->|[->| ->]]; reflexivity).
    rewrite ET, ES. cbn [bind]. rewrite deq_ok by auto. rewrite V1, V2, Req_bool_true by auto. rewrite (proj1 (mid_ok dq Hq)). reflexivity.
Qed.

Lemma seen_lt a d n blocks t : block_cover n blocks -> seen a d blocks t -> t < n.
Proof. intros [HB _] (b & Hb & Ht & _). specialize (HB b Hb). lia. Qed.
Lemma seen_all a d n blocks t : a <> SSE42 -> block_cover n blocks -> t < n -> seen a d blocks t.
Proof.
  intros Ha [_ HC] Ht. destruct (HC t Ht) as (b & Hb & Hb'). exists b. split; auto. split; auto.
  unfold scanned. destruct a; auto. congruence.
Qed.
Lemma seen_range a d inm n blocks lo hi : a <> SSE42 -> block_cover n blocks ->
  (exists t, seen a d blocks t /\ val (elem_at d inm t) = lo) -> (exists t, seen a d blocks t /\ val (elem_at d inm t) = hi) ->
  (forall t, seen a d blocks t -> (lo <= val (elem_at d inm t) <= hi)%R) -> data_range d inm n lo hi.
Proof.
  intros Ha HB (t1 & H1 & V1) (t2 & H2 & V2) H3. split; [|split].
  - exists t1. split; auto. eapply seen_lt; eauto.
  - exists t2. split; auto. eapply seen_lt; eauto.
  - intros i Hi. apply H3. eapply seen_all; eauto.
Qed.
Lemma data_range_unique d m n lo hi lo' hi' : data_range d m n lo hi -> data_range d m n lo' hi' -> lo = lo' /\ hi = hi'.
Proof.
  intros ((i & Hi & Vi) & (j & Hj & Vj) & H) ((i' & Hi' & Vi') & (j' & Hj' & Vj') & H').
  pose proof (H i' Hi'). pose proof (H j' Hj'). pose proof (H' i Hi). pose proof (H' j Hj). lra.
Qed.

(** ** C20.  On every CPU except those using the SSE4.2 kernels the scan of a non-empty finite buffer finds its smallest and largest element. *)
Theorem C20_min_max a d inm n : a <> SSE42 -> float_type d -> finite_data d inm n -> 0 < n ->
  exists mn mx, find_min_max a d inm n = Ok (mn, mx) /\ finite mn /\ finite mx /\ data_range d inm n (val mn) (val mx).
Proof.
  intros Ha Hd (Hby & HL & HF) Hn. destruct (find_min_max_ok a d inm n Hd Hby HL Hn HF) as (mn & mx & E & (F1 & (t1 & [T1 _] & V1) & M1) & (F2 & (t2 & [T2 _] & V2) & M2)).
  exists mn, mx. split; auto. split; auto. split; auto. split; [eauto|]. split; [eauto|].
  assert (S : forall i, scanned a d n i) by (intros i; unfold scanned; destruct a; auto; congruence).
  intros i Hi. specialize (M1 i (conj Hi (S i))). specialize (M2 i (conj Hi (S i))). unfold key in *. lra.
Qed.

(** On every CPU: no out-of-bounds read, and the two results are elements of the data, so never outside the true range.  The SSE4.2 kernels
    miss every fourth float of the vector part, and all but three of eight bf16 values. *)
Theorem C20_sse42_scans_subset d inm n : float_type d -> finite_data d inm n -> 0 < n ->
  let looked_at i := match d with DT_BF16 => 32 * (n / 32) <= i \/ i mod 8 < 3 | _ => 16 * (n / 16) <= i \/ i mod 4 <> 3 end in
  exists mn mx, find_min_max SSE42 d inm n = Ok (mn, mx) /\ finite mn /\ finite mx /\
    (exists i, i < n /\ looked_at i /\ val (elem_at d inm i) = val mn) /\ (exists i, i < n /\ looked_at i /\ val (elem_at d inm i) = val mx) /\
    forall i, i < n -> looked_at i -> (val mn <= val (elem_at d inm i) <= val mx)%R.
Proof.
  intros Hd (Hby & HL & HF) Hn looked. destruct (find_min_max_ok SSE42 d inm n Hd Hby HL Hn HF) as (mn & mx & E & (F1 & (t1 & [T1 S1] & V1) & M1) & (F2 & (t2 & [T2 S2] & V2) & M2)).
  assert (S : forall i, scanned SSE42 d n i <-> looked i) by (intros i; unfold scanned, looked; destruct Hd as [->| ->]; tauto).
  exists mn, mx. split; auto. split; auto. split; auto. split; [exists t1; rewrite <- S; auto|]. split; [exists t2; rewrite <- S; auto|].
  intros i Hi Li. apply S in Li. specialize (M1 i (conj Hi Li)). specialize (M2 i (conj Hi Li)). unfold key in *. lra.
Qed.

(** ** C21.  On every CPU, for every cut into blocks: a finite nonnegative scale and a zero point within the code range; no abort, no UB. *)
Theorem C21_sane_parameters a d dq inm n blocks : float_type d -> quant_type dq -> finite_data d inm n -> 0 < n -> block_cover n blocks ->
  exists s z, compute_quant_config_from_data a d dq inm blocks = Ok (s, z) /\ finite s /\ (0 <= val s)%R /\ (0 <= z <= code_max dq)%Z.
Proof.
  intros Hd Hq HD Hn HB. destruct (config_full a d dq inm n blocks Hd Hq HD Hn HB) as (lo & hi & _ & _ & _ & _ & _ & [(_ & E)|(_ & s & E & F & _ & _ & P)]).
  - exists f_one, (mid_code dq). split; auto. split; [reflexivity|]. split; [rewrite (proj2 f_one_ok); lra|apply mid_ok; auto].
  - exists s, (config_zp dq lo hi). split; auto. split; auto. split; auto. unfold config_zp, clamp. destruct (code_max_cases dq Hq) as [->|[->| ->]]; lia.
Qed.
(** ... and they are the documented ones, for the true range of the data. *)
Theorem C21_documented_parameters a d dq inm n blocks lo hi : a <> SSE42 -> float_type d -> quant_type dq -> finite_data d inm n -> block_cover n blocks ->
  data_range d inm n lo hi -> (lo < hi)%R ->
  exists s, compute_quant_config_from_data a d dq inm blocks = Ok (s, config_zp dq lo hi) /\ finite s /\ val s = config_scale dq lo hi.
Proof.
  intros Ha Hd Hq HD HB HR L. assert (Hn : 0 < n) by (destruct HR as ((i & Hi & _) & _); lia).
  destruct (config_full a d dq inm n blocks Hd Hq HD Hn HB) as (lo' & hi' & _ & _ & X1 & X2 & X3 & R).
  destruct (data_range_unique _ _ _ _ _ _ _ HR (seen_range a d inm n blocks lo' hi' Ha HB X1 X2 X3)) as [<- <-].
  destruct R as [(E & _)|(_ & s & E & F & V & _)]; [lra|]. exists s. auto.
Qed.

(** ** C22.  The parameters depend neither on how the pool cuts the data into non-empty blocks nor on the CPU (SSE4.2 excepted). *)
Theorem C22_block_independent a a' d dq inm n blocks blocks' : a <> SSE42 -> a' <> SSE42 -> float_type d -> quant_type dq ->
  finite_data d inm n -> 0 < n -> block_cover n blocks -> block_cover n blocks' ->
  compute_quant_config_from_data a d dq inm blocks = compute_quant_config_from_data a' d dq inm blocks'.
Proof.
  intros Ha Ha' Hd Hq HD Hn HB HB'.
  destruct (config_full a d dq inm n blocks Hd Hq HD Hn HB) as (lo & hi & _ & _ & X1 & X2 & X3 & R).
  destruct (config_full a' d dq inm n blocks' Hd Hq HD Hn HB') as (lo' & hi' & _ & _ & X1' & X2' & X3' & R').
  destruct (data_range_unique _ _ _ _ _ _ _ (seen_range a d inm n blocks lo hi Ha HB X1 X2 X3) (seen_range a' d inm n blocks' lo' hi' Ha' HB' X1' X2' X3')) as [<- <-].
  destruct R as [(E & ->)|(L & s & -> & F & V & S & _)], R' as [(E' & ->)|(L' & s' & -> & F' & V' & S' & _)]; auto; try lra.
  f_equal. f_equal. apply val_sign_inj; auto; congruence.
Qed.

(** ** C24.  Constant data: scale 1 and the middle code, whatever the constant, on every CPU. *)
Theorem C24_constant a d dq inm n blocks c : float_type d -> quant_type dq -> finite_data d inm n -> 0 < n -> block_cover n blocks ->
  (forall i, i < n -> val (elem_at d inm i) = c) ->
  compute_quant_config_from_data a d dq inm blocks = Ok (f_one, mid_code dq).
Proof.
  intros Hd Hq HD Hn HB HC. destruct (config_full a d dq inm n blocks Hd Hq HD Hn HB) as (lo & hi & _ & _ & (t1 & S1 & V1) & (t2 & S2 & V2) & _ & R).
  apply (seen_lt a d n) in S1; auto. apply (seen_lt a d n) in S2; auto. rewrite HC in V1, V2 by auto.
  destruct R as [(_ & E)|(L & _)]; [auto|lra].
Qed.
(** Empty data: if the pool schedules no block the call aborts; if it schedules (only) empty blocks it returns the constant-data parameters. *)
Theorem C24_empty_no_block a d dq inm : quant_type dq -> compute_quant_config_from_data a d dq inm [] = Abort.
Proof. intros [->|[->| ->]]; vm_compute; reflexivity. Qed.
Theorem C24_empty_block a d dq inm blocks : quant_type dq -> blocks <> [] -> (forall b, In b blocks -> snd b <= fst b) ->
  compute_quant_config_from_data a d dq inm blocks = Ok (f_one, mid_code dq).
Proof.
  intros Hq Hne Hb.
  assert (E : sequence (map (block_range a d inm) blocks) = Ok (map (fun _ => (f_zero, f_zero)) blocks)).
  { clear Hne. induction blocks as [|b blocks IH]; auto. cbn [map sequence]. rewrite IH by (intros; apply Hb; cbn; auto).
    specialize (Hb b ltac:(cbn; auto)). destruct b as [st en]. cbn [fst snd] in Hb. unfold block_range at 1.
    destruct (Nat.eqb_spec (en - st) 0); [reflexivity|lia]. }
  apply from_data_ok; [reflexivity|rewrite (proj2 f_one_ok); lra|]. unfold compute_quant_config. rewrite E. cbn [bind].
  set (rs := map (fun _ => (f_zero, f_zero)) blocks).
  assert (A : forall m, In m rs -> m = (f_zero, f_zero)) by (intros m Hm; apply in_map_iff in Hm; destruct Hm as (? & <- & _); auto).
  destruct (fold_range_ok rs) as (F1 & F2 & (m1 & I1 & V1) & _ & (m2 & I2 & V2) & _).
  - apply Forall_forall. intros m Hm. rewrite (A m Hm). split; reflexivity.
  - unfold rs. destruct blocks; [congruence|discriminate].
  - rewrite (A m1 I1) in V1. rewrite (A m2 I2) in V2. cbn [fst snd] in V1, V2. rewrite (proj2 f_zero_ok) in V1, V2. unfold params_of_range.
    assert (ET : compute_type_max dq = Ok (code_max dq)) by (destruct Hq as [->|[->| ->]]; reflexivity).
    assert (ES : is_signed dq = false) by (destruct Hq as [->|[->| ->]]; reflexivity).
    rewrite ET, ES. cbn [bind]. rewrite deq_ok by auto. rewrite <- V1, <- V2, Req_bool_true by auto. rewrite (proj1 (mid_ok dq Hq)). reflexivity.
Qed.
(** A floating-point destination type aborts. *)
Theorem C24_wrong_type_aborts a d dq inm n blocks : float_type d -> float_type dq -> finite_data d inm n -> 0 < n -> block_cover n blocks ->
  compute_quant_config_from_data a d dq inm blocks = Abort.
Proof.
  intros Hd Hq HD Hn HB. destruct (config_range a d inm n blocks Hd HD Hn HB) as (rs & lo & hi & E & _).
  unfold compute_quant_config_from_data, compute_quant_config. rewrite E. cbn [bind].
  destruct Hq as [->| ->]; reflexivity.
Qed.
