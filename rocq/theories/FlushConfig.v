(** FlushConfig.v -- compute_quant_config_from_data of Flush.v returns what the IEEE version returns, if the data has a range of at least 2^-50
    (or is constant and not denormal). *)
From Coq Require Import ZArith List Lia Bool Reals Lra Psatz.
From Flocq Require Import Core BinarySingleNaN Binary Bits.
From Verif Require Import Base Floats Simd Dtypes ExecFacts Spec ApiSpec FloatFacts FloatFacts2 FloatFacts3 QuantFacts QuantLanes MinMax MinMaxFacts ConfigSpec F64Facts ConfigFacts
  PropsConfig Flush FlushFacts FlushFacts2 FlushFacts3.
From Verif Require FlushScan.
Import FlushScan.
Import ListNotations.
Local Open Scope R_scope.

(** ** binary64 operations whose results are kept *)
Definition minn64 : R := bpow radix2 (-1022).
Lemma minn64_pos : 0 < minn64. Proof. apply bpow_gt_0. Qed.
Lemma minn64_eq : minn64 = IZR 4503599627370496 * bpow radix2 (-1074).
Proof. unfold minn64. replace (-1022)%Z with (52 + -1074)%Z by reflexivity. rewrite bpow_plus. reflexivity. Qed.
Lemma bounded_exp64 mm e : SpecFloat.bounded 53 1024 mm e = true -> e = Z.max (Zdigits radix2 (Zpos mm) + e - 53) (-1074).
Proof.
  unfold SpecFloat.bounded. intros H. apply andb_prop in H. destruct H as [H _]. unfold SpecFloat.canonical_mantissa in H. apply Zeq_bool_eq in H.
  rewrite Zpos_digits2_pos in H. unfold SpecFloat.fexp, SpecFloat.emin in H. lia.
Qed.
Lemma sub64_true x : subnormal64 x = true -> finite64 x /\ val64 x <> 0 /\ Rabs (val64 x) < minn64.
Proof.
  destruct x as [s|s|s pl H|s mm e H]; cbn [subnormal64]; try discriminate. intros L. apply Z.ltb_lt in L. split; [reflexivity|].
  pose proof (bounded_exp64 mm e H) as C. unfold val64. cbn [B2R]. split.
  - destruct s; cbn; intros E; apply eq_0_F2R in E; lia.
  - rewrite <- F2R_Zabs, abs_cond_Zopp. cbn [Z.abs].
    assert (e = -1074)%Z as ->.
    { assert (Zdigits radix2 (Zpos mm) <= 52)%Z by (apply Zdigits_le_Zpower; cbn [Z.abs]; exact L). lia. }
    rewrite minn64_eq. unfold F2R. cbn [Fnum Fexp].
    apply Rmult_lt_compat_r; [apply bpow_gt_0|]. apply IZR_lt. exact L.
Qed.
Definition normalish64 (e : R) : Prop := e = 0 \/ minn64 <= Rabs e.
Lemma fl64_id x : (finite64 x -> normalish64 (val64 x)) -> fl64 x = x.
Proof.
  intros H. unfold fl64. destruct (subnormal64 x) eqn:E; auto. apply sub64_true in E. destruct E as (F & N & L). destruct (H F); [tauto|lra].
Qed.
Lemma fin64_id m x : fl64 x = x -> fin64 m x = x.
Proof. unfold fin64. intros ->. destruct daz; reflexivity. Qed.
Definition fits64 (md : mode) (e : R) (r : f64) : Prop :=
  if Rlt_bool (Rabs (round radix2 (SpecFloat.fexp 53 1024) (round_mode md) e)) (bpow radix2 1024)
  then val64 r = round radix2 (SpecFloat.fexp 53 1024) (round_mode md) e /\ finite64 r
  else subnormal64 r = false /\ is_zero64 r = false.
Lemma zero_is64 x : is_zero64 x = true -> val64 x = 0.
Proof. destruct x; cbn [is_zero64]; try discriminate. reflexivity. Qed.
Lemma is_zero_val64 x : finite64 x -> val64 x = 0 -> is_zero64 x = true.
Proof.
  destruct x as [s|s|s pl H|s mm e H]; cbn; try discriminate; auto. intros _ E. unfold val64 in E. cbn in E.
  apply eq_0_F2R in E. destruct s; cbn in E; lia.
Qed.
#[local] Instance valid64 : Valid_exp (SpecFloat.fexp 53 1024).
Proof. apply BinarySingleNaN.fexp_correct. reflexivity. Qed.
Lemma round_big64 md e : minn64 <= Rabs e -> minn64 <= Rabs (round radix2 (SpecFloat.fexp 53 1024) (round_mode md) e).
Proof.
  intros H. apply abs_round_ge_generic; auto with typeclass_instances. apply (fmt64_bpow (-1022)). lia.
Qed.
Lemma fout64_keep m e rz r : fits64 mode_ZR e rz -> fits64 mode_NE e r -> normalish64 e -> fout64 m rz r = r.
Proof.
  intros Hz Hr N. unfold fout64.
  assert (S1 : subnormal64 r = false).
  { unfold fits64 in Hr. destruct Rlt_bool; [|tauto]. destruct Hr as [V F]. destruct (subnormal64 r) eqn:E; auto. apply sub64_true in E. destruct E as (_ & E1 & E2).
    destruct N as [->|N]; [rewrite round_0 in V by auto with typeclass_instances; tauto|]. apply (round_big64 mode_NE) in N. rewrite V in E2. lra. }
  destruct (ftz m); [reflexivity|unfold fl64; rewrite S1; reflexivity|].
  destruct N as [->|N].
  - unfold fits64 in Hr. rewrite round_0, Rabs_R0, Rlt_bool_true in Hr by (auto with typeclass_instances; apply bpow_gt_0). destruct Hr as [V F].
    destruct (subnormal64 rz || is_zero64 rz); auto. apply is_zero_val64 in V; auto. destruct r; try discriminate. reflexivity.
  - assert (subnormal64 rz = false /\ is_zero64 rz = false) as [-> ->]; [|reflexivity].
    unfold fits64 in Hz. destruct Rlt_bool; [|tauto]. destruct Hz as [V F]. apply (round_big64 mode_ZR) in N. pose proof minn64_pos. split.
    + destruct (subnormal64 rz) eqn:E; auto. apply sub64_true in E. rewrite V in E. lra.
    + destruct (is_zero64 rz) eqn:E; auto. apply zero_is64 in E. rewrite <- V, E, Rabs_R0 in N. lra.
Qed.
Lemma overflow_fits64 md s r : B2FF 53 1024 r = binary_overflow 53 1024 md s -> subnormal64 r = false /\ is_zero64 r = false.
Proof.
  unfold binary_overflow, BinarySingleNaN.binary_overflow. change (Z.to_pos (2 ^ 53 - 1)) with 9007199254740991%positive.
  destruct (overflow_to_inf md s); destruct r; cbn [B2FF SF2FF]; try discriminate; auto.
  intros E. injection E as _ E _. cbn [subnormal64 is_zero64]. rewrite E. auto.
Qed.
Lemma dsub_fits md a b : finite64 a -> finite64 b -> fits64 md (val64 a - val64 b) (b64_minus md a b).
Proof.
  intros Fa Fb. unfold b64_minus. match goal with |- fits64 _ _ (Bminus _ _ ?p ?q ?n _ _ _) => pose proof (Bminus_correct 53 1024 p q n md a b Fa Fb) as C end.
  cbv zeta in C. unfold fits64, val64, finite64. destruct Rlt_bool; [destruct C as (C1 & C2 & _); split; auto|].
  destruct C as [C _]. eapply overflow_fits64. exact C.
Qed.
Lemma ddiv_fits md a b : finite64 a -> val64 b <> 0 -> fits64 md (val64 a / val64 b) (b64_div md a b).
Proof.
  intros Fa Fb. unfold b64_div. match goal with |- fits64 _ _ (Bdiv _ _ ?p ?q ?n _ _ _) => pose proof (Bdiv_correct 53 1024 p q n md a b Fb) as C end.
  cbv zeta in C. unfold fits64, val64, finite64. destruct Rlt_bool; [destruct C as (C1 & C2 & _); split; auto|].
  - rewrite C2. exact Fa.
  - eapply overflow_fits64. exact C.
Qed.
Lemma dsub_keep m a b : fl64 a = a -> fl64 b = b -> finite64 a -> finite64 b -> normalish64 (val64 a - val64 b) -> dsub_z m a b = dsub a b.
Proof.
  intros Ea Eb Fa Fb H. unfold dsub_z, op64, dsub. rewrite !fin64_id by auto. apply fout64_keep with (val64 a - val64 b); auto using dsub_fits.
Qed.
Lemma ddiv_keep m a b : fl64 a = a -> fl64 b = b -> finite64 a -> val64 b <> 0 -> normalish64 (val64 a / val64 b) -> ddiv_z m a b = ddiv a b.
Proof.
  intros Ea Eb Fa Fb H. unfold ddiv_z, op64, ddiv. rewrite !fin64_id by auto. apply fout64_keep with (val64 a / val64 b); auto using ddiv_fits.
Qed.
Lemma dmin_keep m a b : fl64 a = a -> fl64 b = b -> dmin_z m a b = dmin a b.
Proof. intros Ea Eb. unfold dmin_z, dlt_z. rewrite !fin64_id by auto. reflexivity. Qed.
Lemma dmax_keep m a b : fl64 a = a -> fl64 b = b -> dmax_z m a b = dmax a b.
Proof. intros Ea Eb. unfold dmax_z, dlt_z. rewrite !fin64_id by auto. reflexivity. Qed.
Lemma above_n64 e r : (-1022 <= e)%Z -> above e r -> normalish64 r.
Proof. intros He [H|H]; [left; auto|right]. apply Rle_trans with (bpow radix2 e); auto. apply bpow_le. exact He. Qed.
Lemma fmt32_above r : fmt32 r -> above (-149) r.
Proof.
  intros F. apply FLT_format_generic in F; [|reflexivity]. destruct F as [[mm e] E _ He]. cbn [Fnum Fexp] in *.
  replace r with (IZR (mm * 2 ^ (e + 149)) * bpow radix2 (-149)); [apply grid_above|].
  rewrite E. unfold F2R. cbn [Fnum Fexp]. rewrite mult_IZR, Rmult_assoc. f_equal.
  change 2%Z with (radix_val radix2). rewrite IZR_Zpower by lia. rewrite <- bpow_plus. f_equal. lia.
Qed.
Lemma from32_fl x : finite x -> fl64 (f64_of_f32 x) = f64_of_f32 x.
Proof.
  intros F. apply fl64_id. intros _. destruct (f64_of_f32_ok x F) as [_ ->]. apply (above_n64 (-149)); [lia|]. apply fmt32_above, val_fmt.
Qed.
Lemma fofZ64_fl z : (Z.abs z <= 2 ^ 53)%Z -> fl64 (f64_of_Z z) = f64_of_Z z.
Proof.
  intros H. apply fl64_id. intros _. destruct (f64_of_Z_ok z H) as [_ ->]. apply (above_n64 0); [lia|].
  replace (IZR z) with (IZR z * bpow radix2 0) by (cbn; lra). apply grid_above.
Qed.
Lemma dmin_sel a b : dmin a b = a \/ dmin a b = b. Proof. unfold dmin. destruct dlt; auto. Qed.
Lemma dmax_sel a b : dmax a b = a \/ dmax a b = b. Proof. unfold dmax. destruct dlt; auto. Qed.

(** ** The fold *)
Definition fin_pair (m : fmode) (p : f32 * f32) : f32 * f32 := (fin32 m (fst p), fin32 m (snd p)).
Lemma fold_range_keep m l : Forall (fun p => finite (fst p) /\ finite (snd p)) l -> fold_range_z m l = fold_range (map (fin_pair m) l).
Proof.
  unfold fold_range_z, fold_range. assert (G : fl64 (fst (dbl_max, dbl_lowest)) = fst (dbl_max, dbl_lowest) /\ fl64 (snd (dbl_max, dbl_lowest)) = snd (dbl_max, dbl_lowest)) by (split; reflexivity).
  revert G. generalize (dbl_max, dbl_lowest). induction l as [|p l IH]; intros r [G1 G2] H; [reflexivity|].
  inversion H as [|? ? [F1 F2] H']; subst. cbn [fold_left map fin_pair fst snd]. unfold f64_of_f32_z.
  pose proof (from32_fl _ (fin_finite m _ F1)) as E1. pose proof (from32_fl _ (fin_finite m _ F2)) as E2.
  rewrite dmin_keep, dmax_keep by auto. apply IH; auto. cbn [fst snd]. split.
  - destruct (dmin_sel (fst r) (f64_of_f32 (fin32 m (fst p)))) as [->| ->]; auto.
  - destruct (dmax_sel (snd r) (f64_of_f32 (fin32 m (snd p)))) as [->| ->]; auto.
Qed.

(** ** One block, the whole range *)
Lemma block_z_ok md a d inm n b : d = DT_F32 \/ d = DT_BF16 -> finite_data d inm n -> (fst b < snd b <= n)%nat ->
  exists r, block_range_z md a d inm b = Ok r /\
    (let P t := (fst b <= t < snd b)%nat /\ scanned a d (snd b - fst b) (t - fst b) in
     extreme_of true P (elem_at d inm) (fst r) /\ extreme_of false P (elem_at d inm) (snd r)).
Proof.
  intros Hd (Hby & HL & HF) Hb. destruct b as [st en]. cbn [fst snd] in *. unfold block_range_z.
  destruct (Nat.eqb_spec (en - st) 0) as [E|_]; [lia|].
  destruct (find_min_max_z_ok md a d (slice (stride d * st) (stride d * (en - st)) inm) (en - st) Hd) as (mn & mx & E & M1 & M2).
  - apply Forall_forall. intros y Hy. rewrite Forall_forall in Hby. apply Hby. unfold slice in Hy.
    apply In_nth with (d := 0%Z) in Hy. destruct Hy as (k & Hk & <-). rewrite firstn_length, skipn_length in Hk.
    rewrite nth_firstn_lt, nth_skipn' by lia. apply nth_In. lia.
  - rewrite slice_length; auto. rewrite HL. nia.
  - lia.
  - intros i Hi. rewrite elem_at_slice by auto. apply HF. lia.
  - exists (mn, mx). split; auto. cbn [fst snd].
    assert (T : forall s m, extreme_of s (fun t => (t < en - st)%nat /\ scanned a d (en - st) t) (elem_at d (slice (stride d * st) (stride d * (en - st)) inm)) m ->
      extreme_of s (fun t => (st <= t < en)%nat /\ scanned a d (en - st) (t - st)) (elem_at d inm) m).
    { intros s m (F & (t & [Ht1 Ht2] & V) & M). split; auto. split.
      - exists (st + t)%nat. rewrite elem_at_slice in V by auto. replace (st + t - st)%nat with t by lia. split; [split; [lia|auto]|auto].
      - intros u [Hu1 Hu2]. specialize (M (u - st)%nat ltac:(split; auto; lia)). rewrite elem_at_slice in M by (auto; lia).
        replace (st + (u - st))%nat with u in M by lia. exact M. }
    split; apply T; auto.
Qed.
Definition rflushed (r r' : R) : Prop := r' = r \/ r' = 0 /\ coll r = 0.
Theorem config_range_z mb mc a d inm n blocks : float_type d -> finite_data d inm n -> (0 < n)%nat -> block_cover n blocks ->
  exists rs, sequence (map (fun b => block_range_z (mb b) a d inm b) blocks) = Ok rs /\
    let r := fold_range_z mc rs in finite64 (fst r) /\ finite64 (snd r) /\ in32 (val64 (fst r)) /\ in32 (val64 (snd r)) /\
    (exists t, seen a d blocks t /\ rflushed (val (elem_at d inm t)) (val64 (fst r))) /\
    (exists t, seen a d blocks t /\ rflushed (val (elem_at d inm t)) (val64 (snd r))) /\
    (forall t, seen a d blocks t -> (coll (val64 (fst r)) <= coll (val (elem_at d inm t)) <= coll (val64 (snd r)))%R).
Proof.
  intros Hd HD Hn [HB HC].
  destruct (sequence_ok (fun b => block_range_z (mb b) a d inm b) blocks (fun b r => (fst b < snd b <= n)%nat /\
     let P t := (fst b <= t < snd b)%nat /\ scanned a d (snd b - fst b) (t - fst b) in
     extreme_of true P (elem_at d inm) (fst r) /\ extreme_of false P (elem_at d inm) (snd r))) as (rs & E & HF).
  { intros b Hb. destruct (block_z_ok (mb b) a d inm n b Hd HD (HB b Hb)) as (r & E & M). exists r. split; auto. }
  assert (Fin : Forall (fun m => finite (fst m) /\ finite (snd m)) rs).
  { apply Forall_forall. intros r Hr. destruct (Forall2_In_r _ _ _ _ HF Hr) as (b & _ & _ & (F1 & _) & (F2 & _)). auto. }
  assert (Ne : rs <> []).
  { intros ->. inversion HF; subst. destruct (HC 0%nat Hn) as (b & [] & _). }
  exists rs. split; auto. cbv zeta. rewrite fold_range_keep by auto.
  assert (Fin' : Forall (fun m => finite (fst m) /\ finite (snd m)) (map (fin_pair mc) rs)).
  { rewrite Forall_forall in *. intros p Hp. apply in_map_iff in Hp. destruct Hp as (q & <- & Hq). destruct (Fin q Hq). split; apply fin_finite; auto. }
  assert (Ne' : map (fin_pair mc) rs <> []) by (destruct rs; [congruence|discriminate]).
  destruct (fold_range_ok (map (fin_pair mc) rs) Fin' Ne') as (F1 & F2 & (m1 & I1 & V1) & L1 & (m2 & I2 & V2) & L2).
  rewrite Forall_forall in Fin, Fin'.
  split; auto. split; auto. split; [rewrite <- V1; apply in32_val, Fin'; auto|]. split; [rewrite <- V2; apply in32_val, Fin'; auto|].
  assert (FT : forall x y, finite y -> flushed x y -> rflushed (val x) (val (fin32 mc y))).
  { intros x y Fy H. apply (flushed_trans x y (fin32 mc y) H). apply flushed_fin. exact Fy. }
  split; [|split].
  - rewrite <- V1. apply in_map_iff in I1. destruct I1 as (q & <- & Hq).
    destruct (Forall2_In_r _ _ _ _ HF Hq) as (b & Hb & Hb' & (Fq & (t & [Ht Hs] & V) & _) & _). exists t. split; [exists b; auto|]. apply FT; auto.
  - rewrite <- V2. apply in_map_iff in I2. destruct I2 as (q & <- & Hq).
    destruct (Forall2_In_r _ _ _ _ HF Hq) as (b & Hb & Hb' & _ & (Fq & (t & [Ht Hs] & V) & _)). exists t. split; [exists b; auto|]. apply FT; auto.
  - intros t (b & Hb & Ht & Hs). destruct (Forall2_In_l _ _ _ _ HF Hb) as (r & Hr & _ & (G1 & _ & M1) & (G2 & _ & M2)).
    specialize (M1 t (conj Ht Hs)). specialize (M2 t (conj Ht Hs)). unfold key in M1, M2.
    specialize (L1 (fin_pair mc r) (in_map _ _ _ Hr)). specialize (L2 (fin_pair mc r) (in_map _ _ _ Hr)). 
    change (fst (fin_pair mc r)) with (fin32 mc (fst r)) in L1. change (snd (fin_pair mc r)) with (fin32 mc (snd r)) in L2.
    apply coll_le in L1. apply coll_le in L2. rewrite coll_fin in L1, L2 by auto. lra.
Qed.

(** ** Absorption: a number below the smallest normal float disappears in a binary64 sum with a float of at least 2^-51 *)
Lemma absorb_pos h e : fmt64 h -> bpow radix2 (-51) <= h -> Rabs e < minn -> RN64 (h + e) = h.
Proof.
  intros Fh Hh He. pose proof (bpow_gt_0 radix2 (-51)) as P. pose proof (bpow_gt_0 radix2 (-126)) as P'. fold minn in P'.
  apply Rabs_def2 in He.
  assert (M : 2 * minn < bpow radix2 (-105)).
  { unfold minn. change 2 with (bpow radix2 1). rewrite <- bpow_plus. apply bpow_lt. lia. }
  assert (V : Valid_exp (FLT_exp (-1074) 53)) by (apply FLT_exp_valid; reflexivity).
  assert (UL : forall x, bpow radix2 (-52) <= x -> bpow radix2 (-105) <= ulp radix2 (FLT_exp (-1074) 53) x).
  { intros x Hx. pose proof (bpow_gt_0 radix2 (-52)). rewrite ulp_neq_0 by lra. apply bpow_le. unfold cexp.
    assert (-51 <= mag radix2 x)%Z by (apply mag_ge_bpow; rewrite Rabs_pos_eq by lra; exact Hx). unfold FLT_exp. lia. }
  assert (F52 : fmt64 (bpow radix2 (-52))) by (apply fmt64_bpow; lia).
  assert (L52 : bpow radix2 (-52) < h) by (apply Rlt_le_trans with (2 := Hh); apply bpow_lt; lia).
  assert (Pr : bpow radix2 (-52) <= pred radix2 (FLT_exp (-1074) 53) h) by (apply pred_ge_gt; auto).
  pose proof (succ_pred radix2 (FLT_exp (-1074) 53) h Fh) as SP.
  rewrite succ_eq_pos in SP by (pose proof (bpow_gt_0 radix2 (-52)); lra).
  pose proof (UL _ Pr) as U1. pose proof (UL h ltac:(lra)) as U2.
  apply Rle_antisym.
  - apply round_N_le_midp; auto. rewrite succ_eq_pos by lra. lra.
  - apply round_N_ge_midp; auto. lra.
Qed.
Lemma absorb h e : fmt64 h -> bpow radix2 (-51) <= Rabs h -> Rabs e < minn -> RN64 (h + e) = h.
Proof.
  intros Fh Hh He. destruct (Rle_or_lt 0 h) as [H|H].
  - rewrite Rabs_pos_eq in Hh by auto. apply absorb_pos; auto.
  - rewrite Rabs_left in Hh by auto. replace (h + e) with (- (- h + - e)) by ring. rewrite RN64_opp, absorb_pos; [ring| |auto|rewrite Rabs_Ropp; auto].
    apply generic_format_opp. exact Fh.
Qed.

(** ** The documented parameters do not see what is below the smallest normal float *)
Lemma coll_cases a b : coll a = coll b -> a = b \/ Rabs a < minn /\ Rabs b < minn.
Proof.
  unfold coll. pose proof minn_pos. destruct (Rlt_bool_spec (Rabs a) minn) as [A|A], (Rlt_bool_spec (Rabs b) minn) as [B|B]; auto; intros E; exfalso.
  - subst b. rewrite Rabs_R0 in B. lra.
  - subst a. rewrite Rabs_R0 in A. lra.
Qed.
Lemma minn_51 : 2 * minn < bpow radix2 (-51).
Proof. unfold minn. change 2 with (bpow radix2 1). rewrite <- bpow_plus. apply bpow_lt. lia. Qed.
Lemma half_50 : bpow radix2 (-50) = 2 * bpow radix2 (-51).
Proof. change 2 with (bpow radix2 1). rewrite <- bpow_plus. reflexivity. Qed.
Lemma diff_coll lo hi lo' hi' : in32 lo -> in32 hi -> in32 lo' -> in32 hi' -> coll lo' = coll lo -> coll hi' = coll hi ->
  bpow radix2 (-50) <= hi - lo -> RN64 (hi' - lo') = RN64 (hi - lo).
Proof.
  intros [Fl _] [Fh _] [Fl' _] [Fh' _] El Eh H. apply fmt32_64 in Fl, Fh, Fl', Fh'. pose proof minn_51. pose proof half_50.
  destruct (coll_cases _ _ El) as [->|[A B]], (coll_cases _ _ Eh) as [->|[C D]]; auto.
  - (* hi tiny *) unfold Rminus. rewrite (Rplus_comm hi'), (Rplus_comm hi). apply generic_format_opp in Fl. apply Rabs_def2 in D as D'.
    assert (bpow radix2 (-51) <= Rabs (- lo)) by (rewrite Rabs_pos_eq; lra). rewrite !absorb; auto.
  - apply Rabs_def2 in B as B'. unfold Rminus. assert (bpow radix2 (-51) <= Rabs hi) by (rewrite Rabs_pos_eq; lra).
    rewrite !absorb; auto; rewrite Rabs_Ropp; auto.
  - exfalso. apply Rabs_def2 in B, D. lra.
Qed.
Lemma step_coll dq lo hi lo' hi' : in32 lo -> in32 hi -> in32 lo' -> in32 hi' -> coll lo' = coll lo -> coll hi' = coll hi ->
  bpow radix2 (-50) <= hi - lo -> config_step dq lo' hi' = config_step dq lo hi.
Proof. intros. unfold config_step. rewrite (diff_coll lo hi lo' hi'); auto. Qed.
Lemma step_large dq lo hi : quant_type dq -> in32 lo -> in32 hi -> bpow radix2 (-52) <= hi - lo -> bpow radix2 (-60) <= config_step dq lo hi.
Proof.
  intros Hq Hl Hh H. pose proof (code_max_R dq Hq) as Q. pose proof (bpow_gt_0 radix2 (-52)) as P. unfold config_step.
  assert (D : bpow radix2 (-52) <= RN64 (hi - lo)) by (rewrite <- (RN64_fmt (bpow radix2 (-52))) by (apply fmt64_bpow; lia); apply RN64_le; auto).
  rewrite <- (RN64_fmt (bpow radix2 (-60))) by (apply fmt64_bpow; lia). apply RN64_le.
  apply Rmult_le_reg_r with (IZR (code_max dq)); [lra|]. unfold Rdiv. rewrite Rmult_assoc, Rinv_l, Rmult_1_r by lra. apply Rle_trans with (2 := D).
  replace (bpow radix2 (-52)) with (bpow radix2 (-60) * 256).
  - pose proof (bpow_gt_0 radix2 (-60)). apply Rmult_le_compat_l; lra.
  - change 256 with (bpow radix2 8). rewrite <- bpow_plus. reflexivity.
Qed.
Lemma rha_small r : Rabs r <= bpow radix2 (-2) -> round_half_away r = 0%Z.
Proof.
  intros H. change (bpow radix2 (-2)) with (/ 4) in H. apply Rabs_le_inv in H. pose proof (rha_error r) as E. apply Rabs_le_inv in E.
  assert (-1 < round_half_away r)%Z by (apply lt_IZR; lra). assert (round_half_away r < 1)%Z by (apply lt_IZR; lra). lia.
Qed.
Lemma zp_tiny dq lo hi : bpow radix2 (-60) <= config_step dq lo hi -> Rabs lo < minn ->
  round_half_away (RN64 (0 - RN64 (lo / config_step dq lo hi))) = 0%Z.
Proof.
  intros S L. pose proof (bpow_gt_0 radix2 (-60)) as P. set (st := config_step dq lo hi) in *. clearbody st.
  assert (Q : Rabs (lo / st) <= bpow radix2 (-66)).
  { unfold Rdiv. rewrite Rabs_mult, Rabs_inv, (Rabs_pos_eq st) by lra. apply Rmult_le_reg_r with st; [lra|]. rewrite Rmult_assoc, Rinv_l, Rmult_1_r by lra.
    apply Rle_trans with minn; [lra|]. replace minn with (bpow radix2 (-66) * bpow radix2 (-60)) by (unfold minn; rewrite <- bpow_plus; reflexivity).
    apply Rmult_le_compat_l; [apply bpow_ge_0|lra]. }
  apply rha_small. apply Rle_trans with (bpow radix2 (-66)); [|apply bpow_le; lia].
  apply RN64_abs_le; [lia|]. rewrite Rminus_0_l, Rabs_Ropp. apply RN64_abs_le; [lia|auto].
Qed.
Lemma zp_coll dq lo hi lo' hi' : quant_type dq -> in32 lo -> in32 hi -> in32 lo' -> in32 hi' -> coll lo' = coll lo -> coll hi' = coll hi ->
  bpow radix2 (-50) <= hi - lo -> config_zp dq lo' hi' = config_zp dq lo hi.
Proof.
  intros Hq Hl Hh Hl' Hh' El Eh H. unfold config_zp. pose proof (step_coll dq lo hi lo' hi' Hl Hh Hl' Hh' El Eh H) as ES.
  assert (SL : bpow radix2 (-60) <= config_step dq lo hi).
  { apply step_large; auto. apply Rle_trans with (2 := H). apply bpow_le. lia. }
  destruct (coll_cases _ _ El) as [->|[A B]]; [rewrite ES; reflexivity|]. f_equal. rewrite !zp_tiny; auto. rewrite ES. exact SL.
Qed.

(** ** params_of_range_z *)
Lemma dround_z_id m x : fin64 m x = x -> dround (fin64 m x) = dround x.
Proof. intros ->. reflexivity. Qed.
Lemma in32_above r : in32 r -> above (-149) r.
Proof. intros [F _]. apply fmt32_above, F. Qed.
Lemma f64_int_fl z : (Z.abs z <= 2 ^ 53)%Z -> fl64 (f64_of_Z z) = f64_of_Z z. Proof. apply fofZ64_fl. Qed.
Lemma params_keep m dq rmin rmax : quant_type dq -> finite64 rmin -> finite64 rmax ->
  in32 (val64 rmin) -> in32 (val64 rmax) -> (bpow radix2 (-52) <= val64 rmax - val64 rmin) ->
  params_of_range_z m dq rmin rmax = params_of_range dq rmin rmax.
Proof.
  intros Hq F1 F2 Hl Hh HD. set (lo := val64 rmin) in *. set (hi := val64 rmax) in *.
  assert (V1 : val64 rmin = lo) by reflexivity. assert (V2 : val64 rmax = hi) by reflexivity. clearbody lo hi.
  assert (H : lo < hi) by (pose proof (bpow_gt_0 radix2 (-52)); lra).
  pose proof (code_max_R dq Hq) as Q. destruct (step_bounds dq lo hi Hq Hl Hh H) as (_ & _ & _ & B1 & B2).
  destruct (diff_bounds lo hi Hl Hh H) as (_ & _ & _ & D1 & D2). pose proof (zp_arg_bound dq lo hi Hq Hl Hh H) as Z1.
  pose proof (step_large dq lo hi Hq Hl Hh HD) as SL.
  pose proof (bpow_gt_0 radix2 (-157)) as P. pose proof (bpow_gt_0 radix2 (-149)) as P'. pose proof (bpow_gt_0 radix2 (-60)) as P3.
  assert (ET : compute_type_max dq = Ok (code_max dq)) by (destruct Hq as [->|[->| ->]]; reflexivity).
  assert (ES : is_signed dq = false) by (destruct Hq as [->|[->| ->]]; reflexivity).
  unfold params_of_range, params_of_range_z. rewrite ET. cbn [bind]. rewrite ES.
  assert (K1 : fl64 rmin = rmin).
  { apply fl64_id. intros _. rewrite V1. apply (above_n64 (-149)); [lia|]. apply in32_above; auto. }
  assert (K2 : fl64 rmax = rmax).
  { apply fl64_id. intros _. rewrite V2. apply (above_n64 (-149)); [lia|]. apply in32_above; auto. }
  unfold deq_z. rewrite !fin64_id by auto. destruct (deq rmax rmin); [reflexivity|].
  assert (ZB : (0 <= code_max dq <= 255)%Z) by (split; apply le_IZR; lra).
  destruct (f64_of_Z_ok 0 ltac:(lia)) as [G0 W0]. destruct (f64_of_Z_ok (code_max dq) ltac:(lia)) as [G1 W1].
  pose proof (fofZ64_fl 0 ltac:(lia)) as I0. pose proof (fofZ64_fl (code_max dq) ltac:(lia)) as I1.
  destruct (dsub_ok rmax rmin F2 F1) as [X1 Y1].
  { rewrite V1, V2. rewrite Rabs_pos_eq by lra. apply Rle_lt_trans with (1 := D2). unfold max64. apply bpow_lt. lia. }
  rewrite V1, V2 in Y1.
  assert (BN : forall r, bpow radix2 (-1022) <= r -> normalish64 r).
  { intros r Hr. right. rewrite Rabs_pos_eq; auto. pose proof (bpow_gt_0 radix2 (-1022)). lra. }
  assert (B149 : forall e, (-1022 <= e)%Z -> bpow radix2 (-1022) <= bpow radix2 e) by (intros; apply bpow_le; auto).
  rewrite (dsub_keep m rmax rmin) by (auto; rewrite V1, V2; apply BN; apply Rle_trans with (bpow radix2 (-52)); auto; apply B149; lia).
  assert (K3 : fl64 (dsub rmax rmin) = dsub rmax rmin).
  { apply fl64_id. intros _. rewrite Y1. apply BN. apply Rle_trans with (2 := D1). apply B149. lia. }
  assert (QF : RN64 (IZR (code_max dq) - 0) = IZR (code_max dq)) by (rewrite Rminus_0_r; apply RN64_fmt; rewrite <- W1; apply val64_fmt).
  assert (B1' : bpow radix2 (-1022) <= 1) by (apply (bpow_le radix2 (-1022) 0); lia).
  rewrite (dsub_keep m (f64_of_Z (code_max dq)) (f64_of_Z 0)) by (auto; rewrite W0, W1; apply BN; lra).
  destruct (dsub_ok (f64_of_Z (code_max dq)) (f64_of_Z 0) G1 G0) as [X2 Y2].
  { rewrite W0, W1, QF. rewrite Rabs_pos_eq by lra. apply Rle_lt_trans with 255; [lra|]. apply Rlt_trans with (bpow radix2 8); [cbn; lra|]. apply bpow_lt. lia. }
  rewrite W0, W1, QF in Y2.
  assert (K4 : fl64 (dsub (f64_of_Z (code_max dq)) (f64_of_Z 0)) = dsub (f64_of_Z (code_max dq)) (f64_of_Z 0)).
  { apply fl64_id. intros _. rewrite Y2. apply BN. lra. }
  rewrite (ddiv_keep m (dsub rmax rmin) (dsub (f64_of_Z (code_max dq)) (f64_of_Z 0))); auto.
  2: { rewrite Y2. lra. }
  2: { rewrite Y1, Y2. apply BN. apply Rle_trans with (bpow radix2 (-149) / 256).
       - apply Rle_trans with (bpow radix2 (-157)); [apply B149; lia|]. right. unfold Rdiv. change (/ 256) with (bpow radix2 (-8)). rewrite <- bpow_plus. reflexivity.
       - unfold Rdiv. apply Rmult_le_compat; try lra. apply Rinv_le; lra. }
  destruct (ddiv_ok (dsub rmax rmin) (dsub (f64_of_Z (code_max dq)) (f64_of_Z 0)) X1) as [X3 Y3].
  { rewrite Y2. lra. }
  { rewrite Y1, Y2. fold (config_step dq lo hi). rewrite Rabs_pos_eq by lra. apply Rle_lt_trans with (1 := B2).
    apply Rle_lt_trans with (bpow radix2 128); [|apply bpow_lt; lia]. change 128%Z with (2 + 126)%Z. rewrite bpow_plus.
    change (bpow radix2 2) with 4. pose proof (bpow_gt_0 radix2 126). lra. }
  rewrite Y1, Y2 in Y3. fold (config_step dq lo hi) in Y3.
  set (sc := ddiv (dsub rmax rmin) (dsub (f64_of_Z (code_max dq)) (f64_of_Z 0))) in *.
  assert (K5 : fl64 sc = sc).
  { apply fl64_id. intros _. rewrite Y3. apply BN. apply Rle_trans with (2 := SL). apply B149. lia. }
  assert (Z2 : Rabs (RN64 (lo / config_step dq lo hi)) <= bpow radix2 33) by (apply RN64_abs_le; [lia|auto]).
  assert (NQ : above (-300) (lo / config_step dq lo hi)).
  { destruct (in32_above lo Hl) as [->|A]; [left; unfold Rdiv; ring|right].
    unfold Rdiv. rewrite Rabs_mult, Rabs_inv, (Rabs_pos_eq (config_step dq lo hi)) by lra.
    apply Rmult_le_reg_r with (config_step dq lo hi); [lra|]. rewrite Rmult_assoc, Rinv_l, Rmult_1_r by lra. apply Rle_trans with (2 := A).
    apply Rle_trans with (bpow radix2 (-300) * bpow radix2 128).
    - apply Rmult_le_compat_l; [apply bpow_ge_0|]. apply Rle_trans with (1 := B2). change 128%Z with (2 + 126)%Z. rewrite (bpow_plus radix2 2 126).
      change (bpow radix2 2) with 4. pose proof (bpow_gt_0 radix2 126). lra.
    - rewrite <- bpow_plus. apply bpow_le. lia. }
  rewrite (ddiv_keep m rmin sc); auto.
  2: { rewrite Y3. lra. }
  2: { rewrite V1, Y3. apply (above_n64 (-300)); auto. lia. }
  destruct (ddiv_ok rmin sc F1) as [X4 Y4].
  { rewrite Y3. lra. }
  { rewrite V1, Y3. apply Rle_lt_trans with (1 := Z2). apply bpow_lt. lia. }
  rewrite V1, Y3 in Y4.
  assert (NQ' : above (-300) (RN64 (lo / config_step dq lo hi))).
  { destruct NQ as [->|A]; [left; apply RN64_0|right]. apply abs_round_ge_generic; auto with typeclass_instances. apply fmt64_bpow. lia. }
  assert (K6 : fl64 (ddiv rmin sc) = ddiv rmin sc).
  { apply fl64_id. intros _. rewrite Y4. apply (above_n64 (-300)); auto. lia. }
  rewrite (dsub_keep m (f64_of_Z 0) (ddiv rmin sc)); auto.
  2: { rewrite W0, Y4, Rminus_0_l. destruct NQ' as [->|A]; [left; ring|right]. rewrite Rabs_Ropp. apply Rle_trans with (2 := A). apply B149. lia. }
  assert (Z3 : Rabs (RN64 (0 - RN64 (lo / config_step dq lo hi))) <= bpow radix2 33).
  { apply RN64_abs_le; [lia|]. rewrite Rminus_0_l, Rabs_Ropp. exact Z2. }
  destruct (dsub_ok (f64_of_Z 0) (ddiv rmin sc) G0 X4) as [X5 Y5].
  { rewrite W0, Y4. apply Rle_lt_trans with (1 := Z3). apply bpow_lt. lia. }
  rewrite W0, Y4 in Y5. destruct (dround_ok _ X5) as [X6 Y6]. rewrite Y5 in Y6.
  set (w := RN64 (0 - RN64 (lo / config_step dq lo hi))) in *.
  assert (R1 : (- 2 ^ 33 <= round_half_away w <= 2 ^ 33)%Z).
  { apply Rabs_le_inv in Z3. change (bpow radix2 33) with (IZR (2 ^ 33)) in Z3. rewrite <- opp_IZR in Z3. split.
    - rewrite <- (rha_IZR (- 2 ^ 33)). apply rha_le. apply Z3.
    - rewrite <- (rha_IZR (2 ^ 33)). apply rha_le. apply Z3. }
  rewrite (f64_to_i64_ok _ (round_half_away w) X6 Y6) by (unfold in_i64; lia). cbn [bind].
  assert (I2 : fl64 (f64_of_Z (round_half_away w)) = f64_of_Z (round_half_away w)) by (apply fofZ64_fl; lia).
  rewrite dmin_keep by auto. rewrite (dmax_keep m (dmin (f64_of_Z (round_half_away w)) (f64_of_Z (code_max dq))) (f64_of_Z 0)); auto.
  2: { destruct (dmin_sel (f64_of_Z (round_half_away w)) (f64_of_Z (code_max dq))) as [->| ->]; auto. }
  assert (K7 : f32_of_f64_z m sc = f32_of_f64 sc).
  { unfold f32_of_f64_z. rewrite fin64_id by auto.
    assert (SB : bpow radix2 (-60) <= RN32 (config_step dq lo hi) <= 3 * bpow radix2 126).
    { assert (F : fmt32 (3 * bpow radix2 126)) by (apply generic_format_FLT; exists (Float radix2 3 126); auto; cbn; lia).
      split.
      - rewrite <- (RN32_fmt (bpow radix2 (-60))) by (apply fmt32_bpow; lia). apply RN32_le. exact SL.
      - rewrite <- (RN32_fmt _ F). apply RN32_le; auto. }
    destruct (f32_of_f64_ok sc X3) as (X7 & Y7 & S7).
    { rewrite Y3, Rabs_pos_eq by lra. apply Rle_lt_trans with (1 := proj2 SB). unfold max32. change 128%Z with (2 + 126)%Z. rewrite bpow_plus.
      change (bpow radix2 2) with 4. pose proof (bpow_gt_0 radix2 126). lra. }
    rewrite Y3 in Y7. assert (SN : bpow radix2 (-60) <= val (f32_of_f64 sc)) by (rewrite Y7; apply SB).
    set (r := f32_of_f64 sc) in *. assert (N1 : subnormal32 r = false).
    { destruct (subnormal32 r) eqn:E; auto. apply sub_true in E. destruct E as (_ & _ & L). rewrite Rabs_pos_eq in L by lra.
      assert (minn <= bpow radix2 (-60)) by (unfold minn; apply bpow_le; lia). lra. }
    assert (N2 : is_zero32 r = false).
    { destruct r; try reflexivity. exfalso. unfold val in SN. cbn [B2R] in SN. lra. }
    unfold fout32, fl32. rewrite N1, N2. destruct (ftz m); reflexivity. }
  rewrite K7. reflexivity.
Qed.

(** ** The whole call *)
Lemma rflushed_coll r r' : rflushed r r' -> coll r' = coll r.
Proof. intros [->|[-> ->]]; [reflexivity|apply coll_0]. Qed.
Definition visible_range (lo hi : R) : Prop := lo = hi /\ (lo = 0 \/ minn <= Rabs lo) \/ bpow radix2 (-50) <= hi - lo.
Theorem config_flush mb mc a d dq inm n blocks lo hi : a <> SSE42 -> float_type d -> quant_type dq -> finite_data d inm n -> block_cover n blocks ->
  data_range d inm n lo hi -> visible_range lo hi ->
  compute_quant_config_from_data_z mb mc a d dq inm blocks = compute_quant_config_from_data a d dq inm blocks.
Proof.
  intros Ha Hd Hq HD HB HR HV. assert (Hn : (0 < n)%nat) by (destruct HR as ((i & Hi & _) & _); lia).
  destruct (config_full a d dq inm n blocks Hd Hq HD Hn HB) as (lo0 & hi0 & I1 & I2 & X1 & X2 & X3 & RES).
  destruct (data_range_unique _ _ _ _ _ _ _ HR (seen_range a d inm n blocks lo0 hi0 Ha HB X1 X2 X3)) as [<- <-].
  destruct (config_range_z mb mc a d inm n blocks Hd HD Hn HB) as (rs & E & F1 & F2 & J1 & J2 & (t1 & S1 & Y1) & (t2 & S2 & Y2) & Y3).
  set (r := fold_range_z mc rs) in *.
  assert (C1 : coll (val64 (fst r)) = coll lo).
  { apply Rle_antisym.
    - destruct X1 as (t & St & V). rewrite <- V. apply (Y3 t St).
    - rewrite (rflushed_coll _ _ Y1). apply coll_le. apply (X3 t1 S1). }
  assert (C2 : coll (val64 (snd r)) = coll hi).
  { apply Rle_antisym.
    - rewrite (rflushed_coll _ _ Y2). apply coll_le. apply (X3 t2 S2).
    - destruct X2 as (t & St & V). rewrite <- V. apply (Y3 t St). }
  unfold compute_quant_config_from_data_z, compute_quant_config_z. rewrite E. cbn [bind]. fold r.
  destruct HV as [[EQ Z]|HV].
  - subst hi. destruct RES as [[_ RES]|[L _]]; [|lra]. rewrite RES. clear RES.
    assert (EV : val64 (snd r) = val64 (fst r)).
    { assert (T : forall t r', seen a d blocks t -> rflushed (val (elem_at d inm t)) r' -> r' = lo).
      { intros t r' St [->|[-> Z']]; [specialize (X3 t St); lra|]. assert (ET : val (elem_at d inm t) = lo) by (specialize (X3 t St); lra).
        rewrite ET in Z'. destruct Z as [Z|Z]; [auto|]. unfold coll in Z'. rewrite Rlt_bool_false in Z' by lra. auto. }
      rewrite (T t1 _ S1 Y1), (T t2 _ S2 Y2). reflexivity. }
    assert (K1 : fl64 (fst r) = fst r) by (apply fl64_id; intros _; apply (above_n64 (-149)); [lia|]; apply in32_above; auto).
    assert (K2 : fl64 (snd r) = snd r) by (apply fl64_id; intros _; apply (above_n64 (-149)); [lia|]; apply in32_above; auto).
    unfold params_of_range_z.
    assert (ET : compute_type_max dq = Ok (code_max dq)) by (destruct Hq as [->|[->| ->]]; reflexivity).
    assert (ES : is_signed dq = false) by (destruct Hq as [->|[->| ->]]; reflexivity).
    rewrite ET, ES. cbn [bind]. unfold deq_z. rewrite !fin64_id by auto. rewrite deq_ok by auto. rewrite EV, Req_bool_true by auto.
    rewrite (proj1 (mid_ok dq Hq)). cbn [bind fst].
    assert (A1 : fis_nan f_one = false) by reflexivity. rewrite A1.
    assert (A2 : fge_z mc f_one f_zero = true) by (unfold fge_z, fin32; destruct (daz mc); vm_compute; reflexivity). rewrite A2. reflexivity.
  - pose proof (bpow_gt_0 radix2 (-50)) as P. destruct RES as [[L _]|[_ (s & -> & Fs & Vs & Ss & Ps)]]; [lra|].
    assert (L' : bpow radix2 (-52) <= val64 (snd r) - val64 (fst r)).
    { pose proof minn_51 as M. pose proof half_50 as Hf. assert (Q : bpow radix2 (-51) = 2 * bpow radix2 (-52)) by (change 2 with (bpow radix2 1); rewrite <- bpow_plus; reflexivity).
      assert (M' : 2 * minn < bpow radix2 (-52)) by (unfold minn; change 2 with (bpow radix2 1); rewrite <- bpow_plus; apply bpow_lt; lia).
      destruct (coll_cases _ _ C1) as [->|[A B]], (coll_cases _ _ C2) as [->|[C D]];
        repeat match goal with X : Rabs _ < minn |- _ => apply Rabs_def2 in X end; lra. }
    rewrite params_keep by auto. assert (L2 : val64 (fst r) < val64 (snd r)) by (pose proof (bpow_gt_0 radix2 (-52)); lra).
    destruct (params_ok dq (fst r) (snd r) _ _ Hq F1 F2 eq_refl eq_refl J1 J2 L2) as (s' & -> & Fs' & Vs' & Ss' & Ps').
    assert (SC : config_step dq (val64 (fst r)) (val64 (snd r)) = config_step dq lo hi) by (apply step_coll; auto).
    assert (ZC : config_zp dq (val64 (fst r)) (val64 (snd r)) = config_zp dq lo hi) by (apply zp_coll; auto).
    assert (s' = s) as ->.
    { apply val_sign_inj; auto; [|congruence]. rewrite Vs, Vs'. unfold config_scale. rewrite SC. reflexivity. }
    rewrite ZC. cbn [bind fst].
    assert (SL : bpow radix2 (-60) <= val s).
    { rewrite Vs. unfold config_scale. rewrite <- (RN32_fmt (bpow radix2 (-60))) by (apply fmt32_bpow; lia). apply RN32_le. apply step_large; auto.
      apply Rle_trans with (2 := HV). apply bpow_le. lia. }
    assert (Kf : fl32 s = s).
    { apply fl_id. intros _. right. rewrite Rabs_pos_eq by auto. apply Rle_trans with (2 := SL). apply bpow_le. lia. }
    assert (A1 : fis_nan s = false) by (apply finite_nan; auto). rewrite A1.
    assert (A2 : fge_z mc s f_zero = true).
    { unfold fge_z, fin32. rewrite Kf. replace (if daz mc then s else s) with s by (destruct (daz mc); reflexivity).
      replace (if daz mc then fl32 f_zero else f_zero) with f_zero by (destruct (daz mc); reflexivity).
      rewrite fge_ok by (auto; reflexivity). rewrite Rle_bool_true by (rewrite (proj2 f_zero_ok); auto). reflexivity. }
    rewrite A2. reflexivity.
Qed.
