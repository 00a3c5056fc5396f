(** PropsConfigAny.v -- C20, C21, C22 for arbitrary data: infinities and NaNs included. *)
From Coq Require Import ZArith List Lia Bool Reals Lra.
From Flocq Require Import Core BinarySingleNaN Binary Bits.
From Verif Require Import Base Floats Dtypes ExecFacts Spec ApiSpec FloatFacts FloatFacts2 QuantFacts QuantLanes MinMax MinMaxFacts ConfigSpec F64Facts ConfigFacts PropsConfig MinMaxAny.
Import ListNotations.
Local Open Scope nat_scope.

Definition d_inf (s : bool) : f64 := B754_infinity 53 1024 s.

(** ** The fold over the block results, for arbitrary floats *)
Lemma f64_cases y : (finite y /\ finite64 (f64_of_f32 y) /\ val64 (f64_of_f32 y) = val y) \/ (exists s, y = f_inf s /\ f64_of_f32 y = d_inf s) \/
  (fis_nan y = true /\ is_nan 53 1024 (f64_of_f32 y) = true).
Proof.
  destruct y as [s|s|s p H|s m e H].
  - left. split; [reflexivity|]. apply f64_of_f32_ok. reflexivity.
  - right. left. exists s. split; reflexivity.
  - right. right. split; reflexivity.
  - left. split; [reflexivity|]. apply f64_of_f32_ok. reflexivity.
Qed.
Lemma dlt_nan_l x y : is_nan 53 1024 x = true -> dlt x y = false.
Proof. destruct x; try discriminate. intros _. destruct y; reflexivity. Qed.
Lemma dlt_nan_r x y : is_nan 53 1024 y = true -> dlt x y = false.
Proof. destruct y; try discriminate. intros _. destruct x; reflexivity. Qed.

Lemma fold_dmin l : forall r0, finite64 r0 \/ r0 = d_inf true ->
  let r := fold_left (fun r y => dmin r (f64_of_f32 y)) l r0 in
  (r = d_inf true /\ (r0 = d_inf true \/ In (f_inf true) l)) \/
  (finite64 r0 /\ finite64 r /\ ~ In (f_inf true) l /\ (val64 r <= val64 r0)%R /\ (forall y, In y l -> finite y -> (val64 r <= val y)%R) /\
   (r = r0 \/ exists y, In y l /\ finite y /\ r = f64_of_f32 y)).
Proof.
  induction l as [|y l IH]; intros r0 H0; cbn [fold_left].
  - destruct H0 as [F| ->]; [|left; auto]. right. split; auto. split; auto. split; [intros []|]. split; [lra|]. split; [intros y []|auto].
  - assert (H1 : finite64 (dmin r0 (f64_of_f32 y)) \/ dmin r0 (f64_of_f32 y) = d_inf true).
    { unfold dmin. destruct dlt eqn:E; [|exact H0]. destruct (f64_cases y) as [(_ & F & _)|[(s & _ & Es)|(_ & N)]]; auto.
      - rewrite Es in *. destruct s; auto. exfalso. clear - E H0. destruct H0 as [F| ->]; [|discriminate]. destruct r0; discriminate.
      - rewrite dlt_nan_l in E by auto. discriminate. }
    specialize (IH _ H1). cbv zeta in *. set (r := fold_left _ l _) in *. clearbody r.
    destruct H0 as [F0| ->].
    + destruct (f64_cases y) as [(Fy & F & V)|[(s & Ey & Es)|(Ny & N)]].
      * destruct (dmin_ok _ _ F0 F) as [G W]. rewrite V in W.
        destruct IH as [(-> & [E|I])|(A1 & A2 & A3 & A4 & A5 & A6)].
        -- rewrite E in G. discriminate.
        -- left. split; auto. right. right. auto.
        -- right. rewrite W in A4. pose proof (Rmin_l (val64 r0) (val y)). pose proof (Rmin_r (val64 r0) (val y)).
           split; auto. split; auto. split; [intros [->|I]; [discriminate|auto]|]. split; [lra|].
           split; [intros z [<-|Hz] Fz; [lra|auto]|].
           destruct A6 as [->|(z & Iz & Fz & Ez)]; [|right; exists z; cbn; auto]. unfold dmin. destruct dlt; [right; exists y; cbn; auto|auto].
      * rewrite Es in *. destruct s.
        -- assert (E : dmin r0 (d_inf true) = d_inf true) by (unfold dmin; clear - F0; destruct r0; try discriminate; reflexivity).
           rewrite E in *. destruct IH as [(-> & _)|(A & _)]; [|discriminate]. left. split; auto. right. left. auto.
        -- assert (E : dmin r0 (d_inf false) = r0) by (unfold dmin; clear - F0; destruct r0; try discriminate; reflexivity).
           rewrite E in *. destruct IH as [(-> & [->|I])|(A1 & A2 & A3 & A4 & A5 & A6)]; [discriminate|left; cbn; auto|].
           right. split; auto. split; auto. split; [intros [->|I]; [discriminate|auto]|]. split; auto. split; [intros z [<-|Hz] Fz; [subst; discriminate|auto]|].
           destruct A6 as [->|(z & Iz & Fz & Ez)]; [auto|right; exists z; cbn; auto].
      * assert (E : dmin r0 (f64_of_f32 y) = r0) by (unfold dmin; rewrite dlt_nan_l by auto; auto).
        rewrite E in *. destruct IH as [(-> & [->|I])|(A1 & A2 & A3 & A4 & A5 & A6)]; [discriminate|left; cbn; auto|].
        right. split; auto. split; auto. split; [intros [->|I]; [discriminate|auto]|]. split; auto.
        split; [intros z [<-|Hz] Fz; [apply finite_num in Fz; unfold num in Fz; congruence|auto]|].
        destruct A6 as [->|(z & Iz & Fz & Ez)]; [auto|right; exists z; cbn; auto].
    + assert (E : dmin (d_inf true) (f64_of_f32 y) = d_inf true).
      { unfold dmin. destruct dlt eqn:E; auto. destruct (f64_of_f32 y) as [s|s|s p H|s m e H]; try discriminate E. destruct s; auto. discriminate E. }
      rewrite E in *. destruct IH as [(-> & _)|(A & _)]; [|discriminate]. left; auto.
Qed.
Lemma fold_dmax l : forall r0, finite64 r0 \/ r0 = d_inf false ->
  let r := fold_left (fun r y => dmax r (f64_of_f32 y)) l r0 in
  (r = d_inf false /\ (r0 = d_inf false \/ In (f_inf false) l)) \/
  (finite64 r0 /\ finite64 r /\ ~ In (f_inf false) l /\ (val64 r0 <= val64 r)%R /\ (forall y, In y l -> finite y -> (val y <= val64 r)%R) /\
   (r = r0 \/ exists y, In y l /\ finite y /\ r = f64_of_f32 y)).
Proof.
  induction l as [|y l IH]; intros r0 H0; cbn [fold_left].
  - destruct H0 as [F| ->]; [|left; auto]. right. split; auto. split; auto. split; [intros []|]. split; [lra|]. split; [intros y []|auto].
  - assert (H1 : finite64 (dmax r0 (f64_of_f32 y)) \/ dmax r0 (f64_of_f32 y) = d_inf false).
    { unfold dmax. destruct dlt eqn:E; [|exact H0]. destruct (f64_cases y) as [(_ & F & _)|[(s & _ & Es)|(_ & N)]]; auto.
      - rewrite Es in *. destruct s; auto. exfalso. clear - E H0. destruct H0 as [F| ->]; [|discriminate]. destruct r0; discriminate.
      - rewrite dlt_nan_r in E by auto. discriminate. }
    specialize (IH _ H1). cbv zeta in *. set (r := fold_left _ l _) in *. clearbody r.
    destruct H0 as [F0| ->].
    + destruct (f64_cases y) as [(Fy & F & V)|[(s & Ey & Es)|(Ny & N)]].
      * destruct (dmax_ok _ _ F0 F) as [G W]. rewrite V in W.
        destruct IH as [(-> & [E|I])|(A1 & A2 & A3 & A4 & A5 & A6)].
        -- rewrite E in G. discriminate.
        -- left. split; auto. right. right. auto.
        -- right. rewrite W in A4. pose proof (Rmax_l (val64 r0) (val y)). pose proof (Rmax_r (val64 r0) (val y)).
           split; auto. split; auto. split; [intros [->|I]; [discriminate|auto]|]. split; [lra|].
           split; [intros z [<-|Hz] Fz; [lra|auto]|].
           destruct A6 as [->|(z & Iz & Fz & Ez)]; [|right; exists z; cbn; auto]. unfold dmax. destruct dlt; [right; exists y; cbn; auto|auto].
      * rewrite Es in *. destruct s.
        -- assert (E : dmax r0 (d_inf true) = r0) by (unfold dmax; clear - F0; destruct r0; try discriminate; reflexivity).
           rewrite E in *. destruct IH as [(-> & [->|I])|(A1 & A2 & A3 & A4 & A5 & A6)]; [discriminate|left; cbn; auto|].
           right. split; auto. split; auto. split; [intros [->|I]; [discriminate|auto]|]. split; auto. split; [intros z [<-|Hz] Fz; [subst; discriminate|auto]|].
           destruct A6 as [->|(z & Iz & Fz & Ez)]; [auto|right; exists z; cbn; auto].
        -- assert (E : dmax r0 (d_inf false) = d_inf false) by (unfold dmax; clear - F0; destruct r0; try discriminate; reflexivity).
           rewrite E in *. destruct IH as [(-> & _)|(A & _)]; [|discriminate]. left. split; auto. right. left. auto.
      * assert (E : dmax r0 (f64_of_f32 y) = r0) by (unfold dmax; rewrite dlt_nan_r by auto; auto).
        rewrite E in *. destruct IH as [(-> & [->|I])|(A1 & A2 & A3 & A4 & A5 & A6)]; [discriminate|left; cbn; auto|].
        right. split; auto. split; auto. split; [intros [->|I]; [discriminate|auto]|]. split; auto.
        split; [intros z [<-|Hz] Fz; [apply finite_num in Fz; unfold num in Fz; congruence|auto]|].
        destruct A6 as [->|(z & Iz & Fz & Ez)]; [auto|right; exists z; cbn; auto].
    + assert (E : dmax (d_inf false) (f64_of_f32 y) = d_inf false).
      { unfold dmax. destruct dlt eqn:E; auto. destruct (f64_of_f32 y) as [s|s|s p H|s m e H]; try discriminate E. destruct s; auto. discriminate E. }
      rewrite E in *. destruct IH as [(-> & _)|(A & _)]; [|discriminate]. left; auto.
Qed.
Lemma fold_range_split l : fold_range l =
  (fold_left (fun r y => dmin r (f64_of_f32 y)) (map fst l) dbl_max, fold_left (fun r y => dmax r (f64_of_f32 y)) (map snd l) dbl_lowest).
Proof.
  unfold fold_range. generalize dbl_max as a, dbl_lowest as b. induction l as [|m l IH]; intros a b; cbn [fold_left map]; [reflexivity|apply IH].
Qed.

(** ** The formulas on infinite and reversed ranges *)
Lemma params_minus dq r : quant_type dq -> finite64 r \/ r = d_inf false -> params_of_range dq (d_inf true) r = UB.
Proof.
  intros Hq Hr. assert (E : deq r (d_inf true) = false /\ dsub r (d_inf true) = d_inf false).
  { destruct Hr as [F| ->]; [|split; reflexivity]. destruct r; try discriminate; split; reflexivity. }
  destruct E as [E1 E2]. unfold params_of_range. rewrite E1, E2. destruct Hq as [->|[->| ->]]; vm_compute; reflexivity.
Qed.
Lemma params_plus dq r : quant_type dq -> finite64 r -> params_of_range dq r (d_inf false) = Ok (f_inf false, 0%Z).
Proof.
  intros Hq F. assert (E : deq (d_inf false) r = false /\ dsub (d_inf false) r = d_inf false /\ exists s, ddiv r (d_inf false) = B754_zero 53 1024 s).
  { destruct r as [s|s|s p H|s m e H]; try discriminate; split; try reflexivity; split; try reflexivity; eexists; reflexivity. }
  destruct E as (E1 & E2 & s & E3). unfold params_of_range. rewrite E1, E2.
  assert (ET : compute_type_max dq = Ok (code_max dq)) by (destruct Hq as [->|[->| ->]]; reflexivity).
  assert (ES : is_signed dq = false) by (destruct Hq as [->|[->| ->]]; reflexivity).
  assert (E4 : ddiv (d_inf false) (dsub (f64_of_Z (code_max dq)) (f64_of_Z 0)) = d_inf false) by (destruct Hq as [->|[->| ->]]; vm_compute; reflexivity).
  rewrite ET, ES. cbn [bind]. rewrite E4, E3. destruct Hq as [->|[->| ->]]; destruct s; vm_compute; reflexivity.
Qed.
(** the assertion of context::compute_quant_config_from_data on the result of the formulas *)
Definition asserted (r : res (f32 * Z)) : res (f32 * Z) := p <- r ;; (_ <- assert (negb (fis_nan (fst p)) && fge (fst p) f_zero) ;; Ok p).
Lemma params_reversed dq : quant_type dq -> asserted (params_of_range dq dbl_max dbl_lowest) = Abort /\
  asserted (params_of_range dq (f64_of_f32 flt_max) (f64_of_f32 flt_lowest)) = Abort /\
  asserted (params_of_range dq dbl_max (f64_of_f32 flt_lowest)) = Abort /\ asserted (params_of_range dq (f64_of_f32 flt_max) dbl_lowest) = Abort.
Proof. intros [->|[->| ->]]; repeat split; vm_compute; reflexivity. Qed.
Lemma params_equal dq r r' : quant_type dq -> finite64 r -> finite64 r' -> val64 r = val64 r' -> asserted (params_of_range dq r r') = Ok (f_one, mid_code dq).
Proof.
  intros Hq F F' V. unfold params_of_range.
  assert (ET : compute_type_max dq = Ok (code_max dq)) by (destruct Hq as [->|[->| ->]]; reflexivity).
  assert (ES : is_signed dq = false) by (destruct Hq as [->|[->| ->]]; reflexivity).
  rewrite ET, ES. cbn [bind]. rewrite deq_ok by auto. rewrite V, Req_bool_true by auto. rewrite (proj1 (mid_ok dq Hq)). reflexivity.
Qed.
Lemma params_finite dq r r' lo hi : quant_type dq -> finite64 r -> finite64 r' -> val64 r = lo -> val64 r' = hi -> in32 lo -> in32 hi -> (lo < hi)%R ->
  exists s, asserted (params_of_range dq r r') = Ok (s, config_zp dq lo hi) /\ finite s /\ val s = config_scale dq lo hi /\ Bsign 24 128 s = false /\ (0 <= val s)%R.
Proof.
  intros Hq F F' V V' I I' L. destruct (params_ok dq r r' lo hi Hq F F' V V' I I' L) as (s & E & Fs & Vs & Ss & Ps).
  exists s. split; auto. unfold asserted. rewrite E. cbn [bind fst]. rewrite finite_nan by auto.
  rewrite fge_ok by (auto; reflexivity). rewrite Rle_bool_true by (rewrite (proj2 f_zero_ok); auto). reflexivity.
Qed.

Definition outcome (dq : dtype) (rs : list (f32 * f32)) : res (f32 * Z) := asserted (params_of_range dq (fst (fold_range rs)) (snd (fold_range rs))).

Lemma xval_low y : num y -> (xval y <= - xmax)%R -> y = f_inf true.
Proof.
  intros N H. pose proof (bpow_gt_0 radix2 128) as P. fold xmax in P. destruct (num_cases y N) as [F|[->| ->]]; auto.
  - rewrite xval_finite in H by auto. pose proof (val_lt y). lra.
  - cbn in H. lra.
Qed.
Lemma xval_high y : num y -> (xmax <= xval y)%R -> y = f_inf false.
Proof.
  intros N H. pose proof (bpow_gt_0 radix2 128) as P. fold xmax in P. destruct (num_cases y N) as [F|[->| ->]]; auto.
  - rewrite xval_finite in H by auto. pose proof (val_lt y). lra.
  - cbn in H. lra.
Qed.

Lemma range_cases rs :
  ((fst (fold_range rs) = d_inf true /\ exists m, In m rs /\ fst m = f_inf true) \/
   (finite64 (fst (fold_range rs)) /\ (forall m, In m rs -> fst m <> f_inf true) /\
    (forall m, In m rs -> finite (fst m) -> (val64 (fst (fold_range rs)) <= val (fst m))%R) /\
    (fst (fold_range rs) = dbl_max \/ exists m, In m rs /\ finite (fst m) /\ fst (fold_range rs) = f64_of_f32 (fst m)))) /\
  ((snd (fold_range rs) = d_inf false /\ exists m, In m rs /\ snd m = f_inf false) \/
   (finite64 (snd (fold_range rs)) /\ (forall m, In m rs -> snd m <> f_inf false) /\
    (forall m, In m rs -> finite (snd m) -> (val (snd m) <= val64 (snd (fold_range rs)))%R) /\
    (snd (fold_range rs) = dbl_lowest \/ exists m, In m rs /\ finite (snd m) /\ snd (fold_range rs) = f64_of_f32 (snd m)))).
Proof.
  rewrite fold_range_split. cbn [fst snd]. split.
  - destruct (fold_dmin (map fst rs) dbl_max (or_introl (proj1 dbl_max_ok))) as [(E & [H|H])|(_ & A1 & A2 & _ & A3 & A4)]; [discriminate| |].
    + left. split; auto. apply in_map_iff in H. destruct H as (m & Em & Hm). eauto.
    + right. split; auto. split; [intros m Hm Em; apply A2; rewrite <- Em; apply in_map; auto|]. split; [intros m Hm; apply A3; apply in_map; auto|].
      destruct A4 as [A4|(y & Hy & Fy & E)]; auto. right. apply in_map_iff in Hy. destruct Hy as (m & <- & Hm). eauto.
  - destruct (fold_dmax (map snd rs) dbl_lowest (or_introl (proj1 dbl_lowest_ok))) as [(E & [H|H])|(_ & A1 & A2 & _ & A3 & A4)]; [discriminate| |].
    + left. split; auto. apply in_map_iff in H. destruct H as (m & Em & Hm). eauto.
    + right. split; auto. split; [intros m Hm Em; apply A2; rewrite <- Em; apply in_map; auto|]. split; [intros m Hm; apply A3; apply in_map; auto|].
      destruct A4 as [A4|(y & Hy & Fy & E)]; auto. right. apply in_map_iff in Hy. destruct Hy as (m & <- & Hm). eauto.
Qed.

Lemma outcome_minus dq rs : quant_type dq -> (exists m, In m rs /\ fst m = f_inf true) -> outcome dq rs = UB.
Proof.
  intros Hq (m & Hm & Em). destruct (range_cases rs) as [[(E & _)|(_ & N & _)] R]; [|destruct (N m Hm Em)].
  unfold outcome. rewrite E, params_minus; auto. destruct R as [(-> & _)|(F & _)]; auto.
Qed.
Lemma outcome_plus dq rs : quant_type dq -> (exists m, In m rs /\ snd m = f_inf false) -> (forall m, In m rs -> fst m <> f_inf true) ->
  outcome dq rs = Ok (f_inf false, 0%Z).
Proof.
  intros Hq (m & Hm & Em) HN. destruct (range_cases rs) as [R1 [(E & _)|(_ & N & _)]]; [|destruct (N m Hm Em)].
  destruct R1 as [(_ & (m1 & H1 & E1))|(F & _)]; [destruct (HN m1 H1 E1)|].
  unfold outcome. rewrite E, params_plus by auto. reflexivity.
Qed.

(** [S] is the set of elements taken into account (none of them a NaN); each block result is the best of its elements and the initial values *)
Definition from_set (S : nat -> Prop) (X : nat -> f32) (rs : list (f32 * f32)) : Prop :=
  rs <> [] /\ (forall t, S t -> num (X t)) /\
  (forall m, In m rs -> num (fst m) /\ num (snd m) /\ (fst m = flt_max \/ exists t, S t /\ fst m = X t) /\ (snd m = flt_lowest \/ exists t, S t /\ snd m = X t)) /\
  (forall t, S t -> exists m, In m rs /\ (xval (fst m) <= xval (X t) <= xval (snd m))%R).

Lemma set_minus S X rs dq : quant_type dq -> from_set S X rs -> (exists t, S t /\ X t = f_inf true) -> outcome dq rs = UB.
Proof.
  intros Hq (Hne & HN & HM & HC) (t & Ht & Et). apply outcome_minus; auto. destruct (HC t Ht) as (m & Hm & B). exists m. split; auto.
  apply xval_low; [apply HM; auto|]. rewrite Et in B. unfold f_inf at 1 2 in B. cbn [xval] in B. lra.
Qed.
Lemma set_plus S X rs dq : quant_type dq -> from_set S X rs -> (exists t, S t /\ X t = f_inf false) -> (forall t, S t -> X t <> f_inf true) ->
  outcome dq rs = Ok (f_inf false, 0%Z).
Proof.
  intros Hq (Hne & HN & HM & HC) (t & Ht & Et) HI. apply outcome_plus; auto.
  - destruct (HC t Ht) as (m & Hm & B). exists m. split; auto. apply xval_high; [apply HM; auto|]. rewrite Et in B. unfold f_inf at 1 2 in B. cbn [xval] in B. lra.
  - intros m Hm E. destruct (HM m Hm) as (_ & _ & [E'|(u & Hu & E')] & _); [rewrite E' in E; discriminate|]. apply (HI u Hu). congruence.
Qed.
Lemma set_empty S X rs dq : quant_type dq -> from_set S X rs -> (forall t, ~ S t) -> outcome dq rs = Abort.
Proof.
  intros Hq (Hne & HN & HM & HC) HE.
  assert (A : forall m, In m rs -> fst m = flt_max /\ snd m = flt_lowest).
  { intros m Hm. destruct (HM m Hm) as (_ & _ & [E|(t & Ht & _)] & [E'|(t' & Ht' & _)]); auto; exfalso; eapply HE; eauto. }
  destruct (range_cases rs) as [[(_ & (m & Hm & E))|(_ & _ & _ & C1)] [(_ & (m' & Hm' & E'))|(_ & _ & _ & C2)]];
    try (destruct (A _ Hm) as [X1 _]; rewrite X1 in E; discriminate); try (destruct (A _ Hm') as [_ X1]; rewrite X1 in E'; discriminate).
  destruct (params_reversed dq Hq) as (P1 & P2 & P3 & P4). unfold outcome.
  destruct C1 as [->|(m & Hm & _ & ->)], C2 as [->|(m' & Hm' & _ & ->)]; rewrite ?(proj1 (A _ Hm)), ?(proj2 (A _ Hm')); auto.
Qed.
Lemma set_finite S X rs dq : quant_type dq -> from_set S X rs -> (exists t, S t) -> (forall t, S t -> finite (X t)) ->
  exists lo hi, (exists t, S t /\ val (X t) = lo) /\ (exists t, S t /\ val (X t) = hi) /\ (forall t, S t -> (lo <= val (X t) <= hi)%R) /\
    (lo = hi /\ outcome dq rs = Ok (f_one, mid_code dq) \/
     (lo < hi)%R /\ exists s, outcome dq rs = Ok (s, config_zp dq lo hi) /\ finite s /\ val s = config_scale dq lo hi /\ Bsign 24 128 s = false /\ (0 <= val s)%R).
Proof.
  intros Hq (Hne & HN & HM & HC) (t0 & Ht0) HF.
  assert (A : forall m, In m rs -> finite (fst m) /\ finite (snd m)).
  { intros m Hm. destruct (HM m Hm) as (_ & _ & [E|(t & Ht & E)] & [E'|(t' & Ht' & E')]); rewrite E, E'; split; try reflexivity; auto. }
  destruct (range_cases rs) as [[(_ & (m & Hm & E))|(F1 & _ & L1 & C1)] [(_ & (m' & Hm' & E'))|(F2 & _ & L2 & C2)]];
    try (destruct (A _ Hm) as [X1 _]; rewrite E in X1; discriminate); try (destruct (A _ Hm') as [_ X1]; rewrite E' in X1; discriminate).
  unfold outcome. set (r1 := fst (fold_range rs)) in *. set (r2 := snd (fold_range rs)) in *. clearbody r1 r2.
  assert (B : forall t, S t -> (val64 r1 <= val (X t) <= val64 r2)%R).
  { intros t Ht. destruct (HC t Ht) as (m & Hm & B). destruct (A m Hm) as [G1 G2]. rewrite !xval_finite in B by auto.
    specialize (L1 m Hm G1). specialize (L2 m Hm G2). lra. }
  assert (D1 : exists t, S t /\ val (X t) = val64 r1).
  { destruct C1 as [->|(m & Hm & G & ->)].
    - exists t0. split; auto. apply Rle_antisym; [apply dbl_max_ok; auto|apply B; auto].
    - destruct (f64_of_f32_ok _ G) as [_ V]. rewrite V in *. destruct (HM m Hm) as (_ & _ & [E|(t & Ht & E)] & _); [|exists t; rewrite E; auto].
      exists t0. split; auto. apply Rle_antisym; [rewrite E; apply flt_max_bound; auto|apply B; auto]. }
  assert (D2 : exists t, S t /\ val (X t) = val64 r2).
  { destruct C2 as [->|(m & Hm & G & ->)].
    - exists t0. split; auto. apply Rle_antisym; [apply B; auto|apply dbl_lowest_ok; auto].
    - destruct (f64_of_f32_ok _ G) as [_ V]. rewrite V in *. destruct (HM m Hm) as (_ & _ & _ & [E|(t & Ht & E)]); [|exists t; rewrite E; auto].
      exists t0. split; auto. apply Rle_antisym; [apply B; auto|rewrite E; apply flt_lowest_bound; auto]. }
  exists (val64 r1), (val64 r2). split; auto. split; auto. split; auto.
  assert (L : (val64 r1 <= val64 r2)%R) by (specialize (B t0 Ht0); lra).
  assert (I1 : in32 (val64 r1)) by (destruct D1 as (t & Ht & <-); apply in32_val; auto).
  assert (I2 : in32 (val64 r2)) by (destruct D2 as (t & Ht & <-); apply in32_val; auto).
  destruct (Rle_lt_or_eq_dec _ _ L) as [L'|L'].
  - right. split; auto. apply params_finite; auto.
  - left. split; auto. apply params_equal; auto.
Qed.

Lemma outcome_unique S X rs rs' dq : quant_type dq -> from_set S X rs -> from_set S X rs' -> outcome dq rs = outcome dq rs'.
Proof.
  intros Hq H H'. destruct (Classical_Prop.classic (exists t, S t /\ X t = f_inf true)) as [C|C].
  { rewrite (set_minus S X rs), (set_minus S X rs'); auto. }
  assert (C' : forall t, S t -> X t <> f_inf true) by (intros t Ht E; apply C; eauto).
  destruct (Classical_Prop.classic (exists t, S t /\ X t = f_inf false)) as [D|D].
  { rewrite (set_plus S X rs), (set_plus S X rs'); auto. }
  destruct (Classical_Prop.classic (exists t, S t)) as [E|E].
  - assert (F : forall t, S t -> finite (X t)).
    { intros t Ht. destruct H as (_ & HN & _). destruct (num_cases _ (HN t Ht)) as [F|[F|F]]; auto; exfalso; [apply D|apply C]; eauto. }
    destruct (set_finite S X rs dq Hq H E F) as (lo & hi & X1 & X2 & X3 & R). destruct (set_finite S X rs' dq Hq H' E F) as (lo' & hi' & X1' & X2' & X3' & R').
    assert (lo = lo' /\ hi = hi') as [<- <-].
    { destruct X1 as (t1 & S1 & V1), X2 as (t2 & S2 & V2), X1' as (t1' & S1' & V1'), X2' as (t2' & S2' & V2').
      pose proof (X3 _ S1'). pose proof (X3 _ S2'). pose proof (X3' _ S1). pose proof (X3' _ S2). lra. }
    destruct R as [(L & ->)|(L & s & -> & F1 & V1 & S1 & _)], R' as [(L' & ->)|(L' & s' & -> & F2 & V2 & S2 & _)]; auto; try lra.
    f_equal. f_equal. apply val_sign_inj; auto; congruence.
  - assert (E' : forall t, ~ S t) by (intros t Ht; apply E; eauto). rewrite (set_empty S X rs), (set_empty S X rs'); auto.
Qed.

(** ** The blocks *)
(** A buffer of [n] floats of type [d], of any content. *)
Definition raw_data (d : dtype) (m : mem) (n : nat) : Prop := Forall is_byte m /\ length m = stride d * n.
(** The content tests a caller can make: *)
Definition is_nan_at (d : dtype) (m : mem) (i : nat) : Prop := fis_nan (elem_at d m i) = true.
Definition plus_inf_at (d : dtype) (m : mem) (i : nat) : Prop := elem_at d m i = B754_infinity 24 128 false.
Definition minus_inf_at (d : dtype) (m : mem) (i : nat) : Prop := elem_at d m i = B754_infinity 24 128 true.
Definition nan_free (d : dtype) (m : mem) (n : nat) : Prop := forall i, i < n -> fis_nan (elem_at d m i) = false.

Lemma from_data_outcome a d dq inm blocks rs : sequence (map (block_range a d inm) blocks) = Ok rs ->
  compute_quant_config_from_data a d dq inm blocks = outcome dq rs.
Proof. intros E. unfold compute_quant_config_from_data, compute_quant_config. rewrite E. reflexivity. Qed.

Lemma block_scan a d inm n b : d = DT_F32 \/ d = DT_BF16 -> raw_data d inm n -> fst b < snd b <= n ->
  let x := slice (stride d * fst b) (stride d * (snd b - fst b)) inm in
  block_range a d inm b = find_min_max a d x (snd b - fst b) /\ Forall is_byte x /\ length x = stride d * (snd b - fst b) /\
  forall j, j < snd b - fst b -> elem_at d x j = elem_at d inm (fst b + j).
Proof.
  intros Hd (Hby & HL) Hb. destruct b as [st en]. cbn [fst snd] in *. unfold block_range.
  destruct (Nat.eqb_spec (en - st) 0) as [E|_]; [lia|]. split; auto. split; [|split].
  - apply Forall_forall. intros y Hy. rewrite Forall_forall in Hby. apply Hby. unfold slice in Hy.
    apply In_nth with (d := 0%Z) in Hy. destruct Hy as (k & Hk & <-). rewrite firstn_length, skipn_length in Hk.
    rewrite nth_firstn_lt, nth_skipn' by lia. apply nth_In. lia.
  - rewrite slice_length; auto. rewrite HL. nia.
  - intros j Hj. apply elem_at_slice; auto.
Qed.

Lemma blocks_any a d inm n blocks : float_type d -> raw_data d inm n -> block_cover n blocks ->
  exists rs, sequence (map (block_range a d inm) blocks) = Ok rs /\
    forall m, In m rs ->
      ((exists t, t < n /\ is_nan_at d inm t) /\ fis_nan (fst m) = true /\ fis_nan (snd m) = true \/
       num (fst m) /\ num (snd m) /\ (fst m = flt_max /\ snd m = flt_lowest \/ (xval (fst m) <= xval (snd m))%R) /\
       (fst m = flt_max \/ exists t, t < n /\ fst m = elem_at d inm t) /\ (snd m = flt_lowest \/ exists t, t < n /\ snd m = elem_at d inm t)).
Proof.
  intros Hd HD [HB HC].
  destruct (sequence_ok (block_range a d inm) blocks (fun b m =>
      ((exists t, t < n /\ is_nan_at d inm t) /\ fis_nan (fst m) = true /\ fis_nan (snd m) = true \/
       num (fst m) /\ num (snd m) /\ (fst m = flt_max /\ snd m = flt_lowest \/ (xval (fst m) <= xval (snd m))%R) /\
       (fst m = flt_max \/ exists t, t < n /\ fst m = elem_at d inm t) /\ (snd m = flt_lowest \/ exists t, t < n /\ snd m = elem_at d inm t)))) as (rs & E & HF).
  - intros b Hb. specialize (HB b Hb). destruct (block_scan a d inm n b Hd HD HB) as (E & B1 & B2 & B3).
    destruct (scan_any a d _ _ Hd B1 B2) as (mn & mx & E' & R). exists (mn, mx). rewrite E. split; auto. cbn [fst snd].
    destruct R as [((t & Ht & N) & R)|(N1 & N2 & O & S1 & S2)]; [left|right].
    + split; auto. exists (fst b + t). split; [lia|]. unfold is_nan_at. rewrite <- B3; auto.
    + split; auto. split; auto. split; auto. split; [destruct S1 as [S1|(t & Ht & S1)]|destruct S2 as [S2|(t & Ht & S2)]]; auto;
        right; exists (fst b + t); (split; [lia|]); rewrite <- B3; auto.
  - exists rs. split; auto. intros m Hm. destruct (Forall2_In_r _ _ _ _ HF Hm) as (b & _ & H). exact H.
Qed.

Lemma blocks_set a d inm n blocks (S : nat -> Prop) : float_type d -> raw_data d inm n -> 0 < n -> block_cover n blocks ->
  (forall t, S t -> t < n /\ num (elem_at d inm t)) ->
  (forall b, In b blocks -> exists mn mx, block_range a d inm b = Ok (mn, mx) /\ num mn /\ num mx /\
     (mn = flt_max \/ exists t, S t /\ mn = elem_at d inm t) /\ (mx = flt_lowest \/ exists t, S t /\ mx = elem_at d inm t) /\
     forall t, fst b <= t < snd b -> S t -> (xval mn <= xval (elem_at d inm t) <= xval mx)%R) ->
  exists rs, sequence (map (block_range a d inm) blocks) = Ok rs /\ from_set S (elem_at d inm) rs.
Proof.
  intros Hd HD Hn [HB HC] HS H.
  destruct (sequence_ok (block_range a d inm) blocks (fun b m => num (fst m) /\ num (snd m) /\
     (fst m = flt_max \/ exists t, S t /\ fst m = elem_at d inm t) /\ (snd m = flt_lowest \/ exists t, S t /\ snd m = elem_at d inm t) /\
     forall t, fst b <= t < snd b -> S t -> (xval (fst m) <= xval (elem_at d inm t) <= xval (snd m))%R)) as (rs & E & HF).
  { intros b Hb. destruct (H b Hb) as (mn & mx & E & R). exists (mn, mx). split; auto. }
  exists rs. split; auto. split; [|split; [|split]].
  - intros ->. inversion HF; subst. destruct (HC 0 Hn) as (b & [] & _).
  - intros t Ht. apply HS; auto.
  - intros m Hm. destruct (Forall2_In_r _ _ _ _ HF Hm) as (b & _ & M1 & M2 & M3 & M4 & _). auto.
  - intros t Ht. destruct (HS t Ht) as [Lt _]. destruct (HC t Lt) as (b & Hb & Bt). destruct (Forall2_In_l _ _ _ _ HF Hb) as (m & Hm & _ & _ & _ & _ & M).
    exists m. split; auto.
Qed.

(** NaN-free data: everything counts (SSE4.2 excepted) *)
Lemma blocks_num a d inm n blocks : a <> SSE42 -> float_type d -> raw_data d inm n -> nan_free d inm n -> 0 < n -> block_cover n blocks ->
  exists rs, sequence (map (block_range a d inm) blocks) = Ok rs /\ from_set (fun t => t < n) (elem_at d inm) rs.
Proof.
  intros Ha Hd HD HN Hn HB. apply blocks_set with n; auto; [intros t Ht; split; auto; apply HN; auto|].
  intros b Hb. destruct HB as [HB HC]. specialize (HB b Hb). destruct (block_scan a d inm n b Hd HD HB) as (E & B1 & B2 & B3).
  destruct (scan_num a d _ _ Hd B1 B2) as (mn & mx & E' & N1 & N2 & S1 & S2 & _ & _ & M).
  { intros t Ht. rewrite B3 by auto. apply HN. lia. }
  exists mn, mx. rewrite E. split; auto. split; auto. split; auto.
  split; [destruct S1 as [S1|(t & [Ht _] & S1)]; auto; right; exists (fst b + t); split; [lia|]; rewrite <- B3; auto|].
  split; [destruct S2 as [S2|(t & [Ht _] & S2)]; auto; right; exists (fst b + t); split; [lia|]; rewrite <- B3; auto|].
  intros t Ht _. specialize (M (t - fst b) ltac:(lia)). rewrite B3 in M by lia. replace (fst b + (t - fst b)) with t in M by lia. apply M.
  unfold scanned. destruct a; auto. congruence.
Qed.
(** Scalar scan: the elements that are not NaN count *)
Lemma blocks_scalar a d inm n blocks : vscan_of a d = None -> float_type d -> raw_data d inm n -> 0 < n -> block_cover n blocks ->
  exists rs, sequence (map (block_range a d inm) blocks) = Ok rs /\ from_set (fun t => t < n /\ num (elem_at d inm t)) (elem_at d inm) rs.
Proof.
  intros Ha Hd HD Hn HB. apply blocks_set with n; auto.
  intros b Hb. destruct HB as [HB HC]. specialize (HB b Hb). destruct (block_scan a d inm n b Hd HD HB) as (E & B1 & B2 & B3).
  destruct (scan_skips_nan a d _ _ Hd B1 B2 Ha) as (mn & mx & E' & N1 & N2 & S1 & S2 & _ & _ & M).
  exists mn, mx. rewrite E. split; auto. split; auto. split; auto.
  split; [destruct S1 as [S1|(t & Ht & S1)]; auto; right; exists (fst b + t); rewrite B3 in S1 by auto; rewrite <- S1; split; auto; split; auto; lia|].
  split; [destruct S2 as [S2|(t & Ht & S2)]; auto; right; exists (fst b + t); rewrite B3 in S2 by auto; rewrite <- S2; split; auto; split; auto; lia|].
  intros t Ht [_ Nt]. specialize (M (t - fst b) ltac:(lia)). rewrite B3 in M by lia. replace (fst b + (t - fst b)) with t in M by lia. auto.
Qed.

Lemma nan_dec d m n : (exists i, i < n /\ is_nan_at d m i) \/ nan_free d m n.
Proof.
  induction n as [|n IH]; [right; intros i Hi; lia|]. destruct IH as [(i & Hi & N)|F]; [left; exists i; split; auto|].
  destruct (fis_nan (elem_at d m n)) eqn:E; [left; exists n; split; auto|]. right. intros i Hi. destruct (Nat.eq_dec i n) as [->|]; auto. apply F. lia.
Qed.

(** ** C20 for data of any content *)
(** The scan always returns (it never reads outside the buffer, never aborts), on every CPU.  Either both results are NaN -- then the data contains a
    NaN -- or neither is; then each is an element or the initial value (FLT_MAX, -FLT_MAX), and the maximum does not compare below the minimum
    unless both are the initial values. *)
Theorem C20_any_data a d inm n : float_type d -> raw_data d inm n ->
  exists mn mx, find_min_max a d inm n = Ok (mn, mx) /\
    ((exists i, i < n /\ is_nan_at d inm i) /\ fis_nan mn = true /\ fis_nan mx = true \/
     (fis_nan mn = false /\ fis_nan mx = false) /\ (mn = flt_max /\ mx = flt_lowest \/ flt mx mn = false) /\
     (mn = flt_max \/ exists i, i < n /\ mn = elem_at d inm i) /\ (mx = flt_lowest \/ exists i, i < n /\ mx = elem_at d inm i)).
Proof.
  intros Hd [Hby HL]. destruct (scan_any a d inm n Hd Hby HL) as (mn & mx & E & [R|(N1 & N2 & O & S)]); exists mn, mx; split; auto.
  right. split; auto. split; auto. destruct O as [O|O]; auto. right. rewrite xflt by auto. apply Rlt_bool_false. lra.
Qed.
(** Data without NaN but possibly with infinities, on every CPU except SSE4.2: no element compares below the minimum or above the maximum; the minimum is an
    element or FLT_MAX (when no element is below it), the maximum an element or -FLT_MAX. *)
Theorem C20_infinities a d inm n : a <> SSE42 -> float_type d -> raw_data d inm n -> nan_free d inm n ->
  exists mn mx, find_min_max a d inm n = Ok (mn, mx) /\ fis_nan mn = false /\ fis_nan mx = false /\
    (forall i, i < n -> flt (elem_at d inm i) mn = false /\ flt mx (elem_at d inm i) = false) /\
    ((exists i, i < n /\ mn = elem_at d inm i) \/ mn = flt_max) /\ ((exists i, i < n /\ mx = elem_at d inm i) \/ mx = flt_lowest).
Proof.
  intros Ha Hd [Hby HL] HN. destruct (scan_num a d inm n Hd Hby HL HN) as (mn & mx & E & N1 & N2 & S1 & S2 & _ & _ & M).
  assert (SC : forall i, scanned a d n i) by (intros i; unfold scanned; destruct a; auto; congruence).
  exists mn, mx. split; auto. split; auto. split; auto. split; [|split].
  - intros i Hi. specialize (M i Hi (SC i)). specialize (HN i Hi). rewrite !xflt by auto. rewrite !Rlt_bool_false by lra. auto.
  - destruct S1 as [S1|(t & [Ht _] & S1)]; eauto.
  - destruct S2 as [S2|(t & [Ht _] & S2)]; eauto.
Qed.
(** Where there is no vector scan (the generic kernels; bfloat16 on NEON) NaNs are skipped. *)
Theorem C20_scalar_skips_nan a d inm n : a = GENERIC \/ a = NEON /\ d = DT_BF16 -> float_type d -> raw_data d inm n ->
  exists mn mx, find_min_max a d inm n = Ok (mn, mx) /\ fis_nan mn = false /\ fis_nan mx = false /\
    (forall i, i < n -> fis_nan (elem_at d inm i) = false -> flt (elem_at d inm i) mn = false /\ flt mx (elem_at d inm i) = false) /\
    ((exists i, i < n /\ mn = elem_at d inm i) \/ mn = flt_max) /\ ((exists i, i < n /\ mx = elem_at d inm i) \/ mx = flt_lowest).
Proof.
  intros Ha Hd [Hby HL]. assert (EK : vscan_of a d = None) by (destruct Ha as [->|[-> ->]]; [destruct Hd as [->| ->]|]; reflexivity).
  destruct (scan_skips_nan a d inm n Hd Hby HL EK) as (mn & mx & E & N1 & N2 & S1 & S2 & _ & _ & M).
  exists mn, mx. split; auto. split; auto. split; auto. split; [|split].
  - intros i Hi N. specialize (M i Hi N). rewrite !xflt by auto. rewrite !Rlt_bool_false by lra. auto.
  - destruct S1 as [S1|(t & Ht & S1)]; eauto.
  - destruct S2 as [S2|(t & Ht & S2)]; eauto.
Qed.

(** ** C21 for data of any content *)
(** -infinity in NaN-free data: a NaN is converted to an integer. *)
Theorem C21_minus_infinity a d dq inm n blocks : a <> SSE42 -> float_type d -> quant_type dq -> raw_data d inm n -> nan_free d inm n -> block_cover n blocks ->
  (exists i, i < n /\ minus_inf_at d inm i) -> compute_quant_config_from_data a d dq inm blocks = UB.
Proof.
  intros Ha Hd Hq HD HN HB (i & Hi & E). destruct (blocks_num a d inm n blocks Ha Hd HD HN ltac:(lia) HB) as (rs & ES & H).
  rewrite (from_data_outcome _ _ _ _ _ _ ES). apply (set_minus _ _ _ _ Hq H). exists i. auto.
Qed.
(** +infinity and no -infinity: the scale is +infinity and the zero point 0. *)
Theorem C21_plus_infinity a d dq inm n blocks : a <> SSE42 -> float_type d -> quant_type dq -> raw_data d inm n -> nan_free d inm n -> block_cover n blocks ->
  (exists i, i < n /\ plus_inf_at d inm i) -> (forall i, i < n -> ~ minus_inf_at d inm i) ->
  compute_quant_config_from_data a d dq inm blocks = Ok (B754_infinity 24 128 false, 0%Z).
Proof.
  intros Ha Hd Hq HD HN HB (i & Hi & E) HI. destruct (blocks_num a d inm n blocks Ha Hd HD HN ltac:(lia) HB) as (rs & ES & H).
  rewrite (from_data_outcome _ _ _ _ _ _ ES). apply (set_plus _ _ _ _ Hq H); [exists i; auto|]. intros t Ht. apply HI; auto.
Qed.
(** All NaN: the call aborts, on every CPU. *)
Lemma coh_abort dq rs : quant_type dq -> (forall m, In m rs -> fis_nan (fst m) = true /\ fis_nan (snd m) = true \/ fst m = flt_max /\ snd m = flt_lowest) ->
  outcome dq rs = Abort.
Proof.
  intros Hq A. assert (NF : forall m, In m rs -> (finite (fst m) -> fst m = flt_max) /\ (finite (snd m) -> snd m = flt_lowest) /\ fst m <> f_inf true /\ snd m <> f_inf false).
  { intros m Hm. destruct (A m Hm) as [(N1 & N2)|(-> & ->)]; [|repeat split; auto; discriminate].
    repeat split; intros F; try (apply finite_num in F; unfold num in F; congruence); rewrite F in *; discriminate. }
  destruct (range_cases rs) as [[(_ & (m & Hm & E))|(_ & _ & _ & C1)] [(_ & (m' & Hm' & E'))|(_ & _ & _ & C2)]];
    try (destruct (NF _ Hm) as (_ & _ & G & _); destruct (G E)); try (destruct (NF _ Hm') as (_ & _ & _ & G); destruct (G E')).
  destruct (params_reversed dq Hq) as (P1 & P2 & P3 & P4). unfold outcome.
  destruct C1 as [->|(m & Hm & F & ->)], C2 as [->|(m' & Hm' & F' & ->)]; auto.
  - destruct (NF _ Hm') as (_ & G & _). rewrite (G F'). auto.
  - destruct (NF _ Hm) as (G & _). rewrite (G F). auto.
  - destruct (NF _ Hm') as (_ & G' & _). destruct (NF _ Hm) as (G & _). rewrite (G F), (G' F'). auto.
Qed.
Theorem C21_all_nan a d dq inm n blocks : float_type d -> quant_type dq -> raw_data d inm n -> block_cover n blocks ->
  (forall i, i < n -> is_nan_at d inm i) -> compute_quant_config_from_data a d dq inm blocks = Abort.
Proof.
  intros Hd Hq HD HB HA. destruct (blocks_any a d inm n blocks Hd HD HB) as (rs & ES & H). rewrite (from_data_outcome _ _ _ _ _ _ ES).
  apply coh_abort; auto. intros m Hm. destruct (H m Hm) as [(_ & N)|(N1 & N2 & _ & S1 & S2)]; auto. right. split.
  - destruct S1 as [S1|(t & Ht & S1)]; auto. apply HA in Ht. unfold is_nan_at, num in *. congruence.
  - destruct S2 as [S2|(t & Ht & S2)]; auto. apply HA in Ht. unfold is_nan_at, num in *. congruence.
Qed.
(** The complete picture, on every CPU and for every cut into non-empty blocks: the call returns a scale that is not a NaN and not negative with a zero point
    in the code range, or it aborts (only if the data contains a NaN), or its behaviour is undefined (only if the data contains -infinity). *)
Theorem C21_any_data a d dq inm n blocks : float_type d -> quant_type dq -> raw_data d inm n -> 0 < n -> block_cover n blocks ->
  (exists s z, compute_quant_config_from_data a d dq inm blocks = Ok (s, z) /\ fge s f_zero = true /\ (0 <= z <= code_max dq)%Z) \/
  (compute_quant_config_from_data a d dq inm blocks = Abort /\ exists i, i < n /\ is_nan_at d inm i) \/
  (compute_quant_config_from_data a d dq inm blocks = UB /\ exists i, i < n /\ minus_inf_at d inm i).
Proof.
  intros Hd Hq HD Hn HB. destruct (blocks_any a d inm n blocks Hd HD HB) as (rs & ES & H). rewrite (from_data_outcome _ _ _ _ _ _ ES).
  pose proof (code_max_cases dq Hq) as CM.
  destruct (Classical_Prop.classic (exists m, In m rs /\ fst m = f_inf true)) as [C|C].
  { right. right. split; [apply outcome_minus; auto|]. destruct C as (m & Hm & E). destruct (H m Hm) as [(_ & N & _)|(_ & _ & _ & [S1|(t & Ht & S1)] & _)].
    - rewrite E in N. discriminate.
    - rewrite E in S1. discriminate.
    - exists t. split; auto. unfold minus_inf_at. rewrite <- S1. exact E. }
  assert (C' : forall m, In m rs -> fst m <> f_inf true) by (intros m Hm E; apply C; eauto).
  destruct (Classical_Prop.classic (exists m, In m rs /\ snd m = f_inf false)) as [D|D].
  { left. exists (f_inf false), 0%Z. split; [apply outcome_plus; auto|]. split; [reflexivity|]. destruct CM as [->|[->| ->]]; lia. }
  destruct (Classical_Prop.classic (exists m, In m rs /\ num (fst m) /\ (xval (fst m) <= xval (snd m))%R)) as [O|O].
  - left. destruct O as (m & Hm & N1 & O).
    assert (N2 : num (snd m)) by (destruct (H m Hm) as [(_ & N & _)|(_ & N & _)]; auto; unfold num in N1; congruence).
    pose proof (val_lt (fst m)) as B1. pose proof (val_lt (snd m)) as B2. pose proof (bpow_gt_0 radix2 128) as P. fold xmax in P.
    assert (F2 : finite (snd m)).
    { destruct (num_cases _ N2) as [F|[E|E]]; auto; exfalso; [apply D; eauto|]. apply (C' m Hm). apply xval_low; auto. rewrite E in O. apply O. }
    assert (F1 : finite (fst m)).
    { destruct (num_cases _ N1) as [F|[E|E]]; auto; exfalso; [|apply (C' m Hm E)]. rewrite E, (xval_finite (snd m) F2) in O. cbn [xval f_inf] in O. lra. }
    rewrite !xval_finite in O by auto.
    destruct (range_cases rs) as [[(_ & X)|(G1 & _ & L1 & C1)] [(_ & X')|(G2 & _ & L2 & C2)]]; try (destruct (C X)); try (destruct (D X')).
    pose proof (L1 m Hm F1) as M1. pose proof (L2 m Hm F2) as M2. unfold outcome.
    set (r1 := fst (fold_range rs)) in *. set (r2 := snd (fold_range rs)) in *. clearbody r1 r2.
    assert (I1 : in32 (val64 r1)).
    { destruct C1 as [->|(q & Hq' & Fq & ->)]; [|rewrite (proj2 (f64_of_f32_ok _ Fq)); apply in32_val; auto].
      replace (val64 dbl_max) with (val (fst m)); [apply in32_val; auto|]. apply Rle_antisym; auto. apply dbl_max_ok; auto. }
    assert (I2 : in32 (val64 r2)).
    { destruct C2 as [->|(q & Hq' & Fq & ->)]; [|rewrite (proj2 (f64_of_f32_ok _ Fq)); apply in32_val; auto].
      replace (val64 dbl_lowest) with (val (snd m)); [apply in32_val; auto|]. apply Rle_antisym; auto. apply dbl_lowest_ok; auto. }
    destruct (Rle_lt_or_eq_dec (val64 r1) (val64 r2)) as [L|L]; [lra| |].
    + destruct (params_finite dq r1 r2 _ _ Hq G1 G2 eq_refl eq_refl I1 I2 L) as (s & E & Fs & _ & _ & Ps).
      exists s, (config_zp dq (val64 r1) (val64 r2)). split; auto. split; [rewrite fge_ok by (auto; reflexivity); apply Rle_bool_true; rewrite (proj2 f_zero_ok); auto|].
      unfold config_zp, clamp. destruct CM as [->|[->| ->]]; lia.
    + exists f_one, (mid_code dq). split; [apply params_equal; auto|]. split; [reflexivity|]. apply mid_ok; auto.
  - right. left. split.
    + apply coh_abort; auto. intros m Hm. destruct (H m Hm) as [(_ & N)|(N1 & N2 & [X|X] & _)]; auto. exfalso. apply O. eauto.
    + destruct (nan_dec d inm n) as [N|N]; auto. exfalso.
      destruct HB as [HB HC]. destruct (HC 0 Hn) as (b & Hb & _). specialize (HB b Hb).
      destruct (block_scan a d inm n b Hd HD HB) as (E & B1 & B2 & B3).
      destruct (scan_num a d _ _ Hd B1 B2) as (mn & mx & E' & N1 & N2 & _ & _ & _ & _ & M).
      { intros t Ht. rewrite B3 by auto. apply N. lia. }
      specialize (M 0 ltac:(lia) (scanned_0 _ _ _)). apply O. exists (mn, mx). cbn [fst snd]. split; [|split; [auto|lra]].
      rewrite E' in E. clear - ES Hb E. revert rs ES. induction blocks as [|c l IH]; intros rs ES; [destruct Hb|]. cbn [map sequence] in ES.
      destruct Hb as [->|Hb].
      * rewrite E in ES. cbn [bind] in ES. destruct (sequence (map (block_range a d inm) l)); [|discriminate|discriminate]. injection ES as <-. left; auto.
      * destruct (block_range a d inm c); [|discriminate|discriminate]. cbn [bind] in ES. destruct (sequence (map (block_range a d inm) l)); [|discriminate|discriminate].
        injection ES as <-. right. apply IH; auto.
Qed.

(** ** C22 for data of any content *)
(** NaN-free data, infinities allowed: neither the cut into blocks nor the CPU matters (SSE4.2 excepted). *)
Theorem C22_nan_free a a' d dq inm n blocks blocks' : a <> SSE42 -> a' <> SSE42 -> float_type d -> quant_type dq ->
  raw_data d inm n -> nan_free d inm n -> 0 < n -> block_cover n blocks -> block_cover n blocks' ->
  compute_quant_config_from_data a d dq inm blocks = compute_quant_config_from_data a' d dq inm blocks'.
Proof.
  intros Ha Ha' Hd Hq HD HN Hn HB HB'. destruct (blocks_num a d inm n blocks Ha Hd HD HN Hn HB) as (rs & ES & H).
  destruct (blocks_num a' d inm n blocks' Ha' Hd HD HN Hn HB') as (rs' & ES' & H').
  rewrite (from_data_outcome _ _ _ _ _ _ ES), (from_data_outcome _ _ _ _ _ _ ES'). eapply outcome_unique; eauto.
Qed.
(** With the scalar scan (generic kernels; bfloat16 on NEON) the cut into blocks does not matter for any data at all. *)
Theorem C22_scalar_any_data a d dq inm n blocks blocks' : a = GENERIC \/ a = NEON /\ d = DT_BF16 -> float_type d -> quant_type dq ->
  raw_data d inm n -> 0 < n -> block_cover n blocks -> block_cover n blocks' ->
  compute_quant_config_from_data a d dq inm blocks = compute_quant_config_from_data a d dq inm blocks'.
Proof.
  intros Ha Hd Hq HD Hn HB HB'. assert (EK : vscan_of a d = None) by (destruct Ha as [->|[-> ->]]; [destruct Hd as [->| ->]|]; reflexivity).
  destruct (blocks_scalar a d inm n blocks EK Hd HD Hn HB) as (rs & ES & H). destruct (blocks_scalar a d inm n blocks' EK Hd HD Hn HB') as (rs' & ES' & H').
  rewrite (from_data_outcome _ _ _ _ _ _ ES), (from_data_outcome _ _ _ _ _ _ ES'). eapply outcome_unique; eauto.
Qed.
(** ... but with the vector scan a NaN makes the result depend on the cut: on AVX2, {-1, 1, ..., 1, NaN, 1, ...} (32 floats) scanned whole loses the -1,
    and cut in two halves (each too short for the vector loop) does not. *)
Theorem C22_nan_refuted :
  let m := flat_map (le_bytes 4) ([0xbf800000] ++ repeat 0x3f800000 7 ++ [0x7fc00000] ++ repeat 0x3f800000 23)%Z in
  compute_quant_config_from_data AVX2 DT_F32 DT_UINT8 m [(0, 32)] = Ok (f_one, 127%Z) /\
  compute_quant_config_from_data AVX2 DT_F32 DT_UINT8 m [(0, 16); (16, 32)] <> Ok (f_one, 127%Z).
Proof.
  intros m. split; [vm_compute; reflexivity|]. intros E.
  assert (G : (r <- compute_quant_config_from_data AVX2 DT_F32 DT_UINT8 m [(0, 16); (16, 32)] ;; Ok (snd r)) = Ok 127%Z) by (rewrite E; reflexivity).
  vm_compute in G. discriminate.
Qed.

(** ** C24: a floating-point destination type aborts whatever the data. *)
Theorem C24_wrong_type_any_data a d dq inm n blocks : float_type d -> float_type dq -> raw_data d inm n -> block_cover n blocks ->
  compute_quant_config_from_data a d dq inm blocks = Abort.
Proof.
  intros Hd Hq HD HB. destruct (blocks_any a d inm n blocks Hd HD HB) as (rs & E & _).
  unfold compute_quant_config_from_data, compute_quant_config. rewrite E. cbn [bind]. destruct Hq as [->| ->]; reflexivity.
Qed.
