(** MinMaxAny.v -- what the range scan computes on arbitrary data, infinities and NaNs included. *)
From Coq Require Import ZArith List Lia Bool Reals Lra.
From Flocq Require Import Core BinarySingleNaN Binary Bits.
From Verif Require Import Base Floats Simd Dtypes ExecFacts Spec ApiSpec FloatFacts QuantFacts QuantKernelFacts MinMax MinMaxFacts.
Import ListNotations.
Local Open Scope nat_scope.

Definition num (x : f32) : Prop := fis_nan x = false.
Definition f_inf (s : bool) : f32 := B754_infinity 24 128 s.
Definition xmax : R := bpow radix2 128.
(** The value of a float that is not a NaN, the infinities placed at +-2^128 (beyond every finite float). *)
Definition xval (x : f32) : R := match x with B754_infinity _ _ s => if s then (- xmax)%R else xmax | _ => val x end.

Lemma xval_finite x : finite x -> xval x = val x.
Proof. destruct x; cbn; auto; discriminate. Qed.
Lemma finite_num x : finite x -> num x.
Proof. apply finite_nan. Qed.
Lemma val_lt x : (- xmax < val x < xmax)%R.
Proof. pose proof (abs_B2R_lt_emax 24 128 x) as H. apply Rabs_def2 in H. unfold val, xmax. lra. Qed.
Lemma xval_range x : (- xmax <= xval x <= xmax)%R.
Proof. pose proof (val_lt x). pose proof (bpow_gt_0 radix2 128) as P. fold xmax in P. destruct x as [s|s|s p H0|s m e H0]; cbn [xval]; try lra. destruct s; lra. Qed.
Lemma num_cases x : num x -> finite x \/ x = f_inf false \/ x = f_inf true.
Proof. destruct x as [s|s|s p H|s m e H]; intros N; try discriminate; auto; try (left; reflexivity). right. destruct s; auto. Qed.

Lemma xcompare x y : num x -> num y -> b32_compare x y = Some (Rcompare (xval x) (xval y)).
Proof.
  intros Nx Ny. pose proof (val_lt x) as Bx. pose proof (val_lt y) as By. pose proof (bpow_gt_0 radix2 128) as P. fold xmax in P.
  destruct (num_cases x Nx) as [Fx|[->| ->]], (num_cases y Ny) as [Fy|[->| ->]];
    repeat match goal with F : finite ?z |- context [xval ?z] => rewrite (xval_finite z F) end.
  all: try (apply fcompare_ok; auto; fail).
  all: cbn [xval f_inf]; try (rewrite Rcompare_Eq by lra; reflexivity); try (rewrite Rcompare_Lt by lra); try (rewrite Rcompare_Gt by lra).
  all: try reflexivity.
  all: match goal with F : finite ?z |- _ => destruct z as [s|s|s p H|s m e H]; try discriminate F; reflexivity end.
Qed.
Lemma xflt x y : num x -> num y -> flt x y = Rlt_bool (xval x) (xval y).
Proof. intros. unfold flt. rewrite xcompare by auto. unfold Rlt_bool. destruct Rcompare; auto. Qed.
Lemma fgt_flt x y : fgt x y = flt y x.
Proof.
  unfold fgt, flt, b32_compare. rewrite (Bcompare_swap 24 128 x y). destruct (Bcompare 24 128 x y) as [[]|]; reflexivity.
Qed.
Lemma nan_flt_l x y : fis_nan x = true -> flt x y = false.
Proof. destruct x; try discriminate. intros _. destruct y; reflexivity. Qed.
Lemma nan_flt_r x y : fis_nan y = true -> flt x y = false.
Proof. destruct y; try discriminate. intros _. destruct x; reflexivity. Qed.

(** ** The loops as folds *)
Definition smin (r x : f32) : f32 := if flt x r then x else r.
Definition smax (r x : f32) : f32 := if flt r x then x else r.

Section folds.
  Variable d : dtype.
  Variable x : mem.
  Variable n : nat.
  Hypothesis Hby : Forall is_byte x.
  Hypothesis Hlen : length x = stride d * n.
  Notation X := (elem_at d x).

  Lemma lane_nth K t j : j < K -> nth j (map X (seq t K)) f_zero = X (t + j).
  Proof.
    intros Hj. rewrite nth_indep with (d' := X 0) by (rewrite map_length, seq_length; auto).
    rewrite map_nth, seq_nth by auto. reflexivity.
  Qed.

  Lemma vloop_fold k sel : kspec d k sel -> forall fuel i vmin vmax, i <= n < i + fuel -> length vmin = vs_lanes k -> length vmax = vs_lanes k ->
    exists st vmin' vmax', vloop k fuel x n i vmin vmax = Ok (i + vs_step k * st, (vmin', vmax')) /\
      n <= i + vs_step k * st + vs_back k /\ (forall s, s < st -> i + vs_step k * s + vs_back k < n) /\
      length vmin' = vs_lanes k /\ length vmax' = vs_lanes k /\
      forall j, j < vs_lanes k -> nth j vmin' f_zero = fold_left (vs_min k) (map X (idx k i st j)) (nth j vmin f_zero) /\
                                  nth j vmax' f_zero = fold_left (vs_max k) (map X (idx k i st j)) (nth j vmax f_zero).
  Proof.
    intros HK. pose proof (ks_lanes _ _ _ HK) as Hlg. pose proof (ks_gap _ _ _ HK) as G. pose proof (ks_step _ _ _ HK) as S0.
    induction fuel as [|fuel IH]; intros i vmin vmax Hf H1 H2.
    - lia.
    - cbn [vloop]. destruct (Nat.ltb_spec (i + vs_back k) n) as [C|C].
      + rewrite !(ks_load _ _ _ HK x n) by (auto; lia). cbn [bind].
        match goal with |- context [vloop k fuel x n (i + vs_step k) ?A ?B] => set (va := A); set (vb := B) end.
        assert (L : forall op acc (v0 v1 v2 v3 : list f32), length acc = vs_lanes k -> length v0 = vs_lanes k -> length v1 = vs_lanes k ->
           length v2 = vs_lanes k -> length v3 = vs_lanes k ->
           length (map2 op (map2 op (map2 op (map2 op acc v0) v1) v2) v3) = vs_lanes k /\
           forall j, j < vs_lanes k -> nth j (map2 op (map2 op (map2 op (map2 op acc v0) v1) v2) v3) f_zero =
             op (op (op (op (nth j acc f_zero) (nth j v0 f_zero)) (nth j v1 f_zero)) (nth j v2 f_zero)) (nth j v3 f_zero)).
        { clear. intros op acc v0 v1 v2 v3 L L0 L1 L2 L3. split; [rewrite !map2_length; rewrite ?map2_length; rewrite ?map2_length; rewrite ?map2_length; lia|].
          intros j Hj. rewrite !map2_nth; rewrite ?map2_length; rewrite ?map2_length; rewrite ?map2_length; try reflexivity; lia. }
        assert (LX : forall t, length (map X (seq t (vs_lanes k))) = vs_lanes k) by (intros; rewrite map_length, seq_length; auto).
        destruct (L (vs_min k) vmin (map X (seq i (vs_lanes k))) (map X (seq (i + vs_gap k) (vs_lanes k))) (map X (seq (i + 2 * vs_gap k) (vs_lanes k)))
           (map X (seq (i + 3 * vs_gap k) (vs_lanes k))) H1 (LX _) (LX _) (LX _) (LX _)) as [La Na]. fold va in La, Na.
        destruct (L (vs_max k) vmax (map X (seq i (vs_lanes k))) (map X (seq (i + vs_gap k) (vs_lanes k))) (map X (seq (i + 2 * vs_gap k) (vs_lanes k)))
           (map X (seq (i + 3 * vs_gap k) (vs_lanes k))) H2 (LX _) (LX _) (LX _) (LX _)) as [Lb Nb]. fold vb in Lb, Nb.
        clearbody va vb.
        destruct (IH (i + vs_step k) va vb ltac:(lia) La Lb) as (st & a & b & E & D1 & D2 & LA & LB & N).
        exists (S st), a, b. rewrite E. split; [f_equal; f_equal; rewrite Nat.mul_succ_r; lia|]. split; [rewrite Nat.mul_succ_r; lia|].
        split; [|split; [auto|split; [auto|]]].
        * intros s Hs. destruct s as [|s]; [rewrite Nat.mul_0_r; lia|]. rewrite Nat.mul_succ_r. specialize (D2 s ltac:(lia)). lia.
        * intros j Hj. destruct (N j Hj) as [N1 N2]. rewrite N1, N2, Na, Nb by auto. rewrite !lane_nth by auto. split; reflexivity.
      + exists 0, vmin, vmax. rewrite Nat.mul_0_r, !Nat.add_0_r. split; auto. split; [lia|]. split; [intros; lia|]. split; auto.
  Qed.

  Lemma ld_any i : d = DT_F32 \/ d = DT_BF16 -> i < n -> ld_elem d x i = Ok (X i).
  Proof.
    intros Hd Hi. unfold ld_elem, rd, in_bounds.
    destruct Hd as [->| ->]; cbn [stride] in Hlen; match goal with |- context [?a <=? ?b] => destruct (Nat.leb_spec a b); [|lia] end; cbn [bind]; f_equal.
    cbn [elem_at]. unfold f32_of_bf16. rewrite Z.shiftl_mul_pow2 by lia. reflexivity.
  Qed.
  Lemma sloop_fold : d = DT_F32 \/ d = DT_BF16 -> forall fuel i mn mx, i <= n < i + fuel ->
    sloop d fuel x n i mn mx = Ok (fold_left smin (map X (seq i (n - i))) mn, fold_left smax (map X (seq i (n - i))) mx).
  Proof.
    intros Hd. induction fuel as [|fuel IH]; intros i mn mx Hf; [lia|].
    cbn [sloop]. destruct (Nat.ltb_spec i n) as [C|C].
    - rewrite ld_any by auto. cbn [bind]. rewrite IH by lia. replace (n - i) with (S (n - (i + 1))) by lia. cbn [seq map fold_left].
      rewrite Nat.add_1_r, fgt_flt. reflexivity.
    - replace (n - i) with 0 by lia. reflexivity.
  Qed.
End folds.

(** ** Invariants of pairs (running minimum, running maximum): [Q L p] for the list [L] of pairs taken in so far.
    An element x enters as the pair (x, x); the accumulators start as the pair (FLT_MAX, -FLT_MAX). *)
Definition dup (x : f32) : f32 * f32 := (x, x).
Definition init_pair : f32 * f32 := (flt_max, flt_lowest).
Definition joins (Q : list (f32 * f32) -> f32 * f32 -> Prop) (fmin fmax : f32 -> f32 -> f32) : Prop :=
  forall L1 L2 p1 p2, Q L1 p1 -> Q L2 p2 -> Q (L1 ++ L2) (fmin (fst p1) (fst p2), fmax (snd p1) (snd p2)).

Section inv.
  Variable Q : list (f32 * f32) -> f32 * f32 -> Prop.
  Hypothesis Qset : forall L L' p, (forall x, In x L <-> In x L') -> Q L p -> Q L' p.
  Hypothesis Qinit : Q [init_pair] init_pair.
  Hypothesis Qone : forall x, Q [dup x] (dup x).
  Hypothesis Qps : joins Q minps maxps.
  Hypothesis Qneon : joins Q neon_min neon_max.
  Hypothesis Qstd : joins Q smin smax.

  Lemma fold_Q fmin fmax : joins Q fmin fmax -> forall l L p, Q L p -> Q (L ++ map dup l) (fold_left fmin l (fst p), fold_left fmax l (snd p)).
  Proof.
    intros J. induction l as [|y l IH]; intros L p H; cbn [fold_left map].
    - rewrite app_nil_r. destruct p; auto.
    - replace (L ++ dup y :: map dup l) with ((L ++ [dup y]) ++ map dup l) by (rewrite <- app_assoc; reflexivity).
      apply (IH (L ++ [dup y]) (fmin (fst p) y, fmax (snd p) y)). apply (J L [dup y] p (dup y)); auto.
  Qed.

  Definition lanes_Q (K : nat) (L : nat -> list (f32 * f32)) (vmin vmax : list f32) : Prop :=
    length vmin = K /\ length vmax = K /\ forall j, j < K -> Q (L j) (nth j vmin f_zero, nth j vmax f_zero).
  Definition red_Q (K : nat) (rmin rmax : list f32 -> f32) (sel : list nat) : Prop :=
    forall L vmin vmax, lanes_Q K L vmin vmax -> Q (flat_map L sel) (rmin vmin, rmax vmax).

  Lemma half_Q fmin fmax K L vmin vmax : joins Q fmin fmax -> lanes_Q (K + K) L vmin vmax ->
    lanes_Q K (fun j => L j ++ L (K + j)) (map2 fmin (firstn K vmin) (skipn K vmin)) (map2 fmax (firstn K vmax) (skipn K vmax)).
  Proof.
    intros J (L1 & L2 & H).
    assert (E : forall v : list f32, length v = K + K -> length (firstn K v) = K /\ length (skipn K v) = K).
    { intros v Hv. rewrite firstn_length, skipn_length. lia. }
    destruct (E _ L1) as [E1 E1']. destruct (E _ L2) as [E2 E2'].
    split; [rewrite map2_length; lia|]. split; [rewrite map2_length; lia|]. intros j Hj. rewrite !map2_nth by lia.
    rewrite !nth_firstn_lt, !nth_skipn' by lia. apply (J _ _ (nth j vmin f_zero, nth j vmax f_zero) (nth (K + j) vmin f_zero, nth (K + j) vmax f_zero)); apply H; lia.
  Qed.
  Lemma half_hi_Q fmin fmax K L vmin vmax : joins Q fmin fmax -> lanes_Q (K + K) L vmin vmax ->
    lanes_Q K (fun j => L (K + j) ++ L j) (map2 fmin (skipn K vmin) (firstn K vmin)) (map2 fmax (skipn K vmax) (firstn K vmax)).
  Proof.
    intros J (L1 & L2 & H).
    assert (E : forall v : list f32, length v = K + K -> length (firstn K v) = K /\ length (skipn K v) = K).
    { intros v Hv. rewrite firstn_length, skipn_length. lia. }
    destruct (E _ L1) as [E1 E1']. destruct (E _ L2) as [E2 E2'].
    split; [rewrite map2_length; lia|]. split; [rewrite map2_length; lia|]. intros j Hj. rewrite !map2_nth by lia.
    rewrite !nth_firstn_lt, !nth_skipn' by lia. apply (J _ _ (nth (K + j) vmin f_zero, nth (K + j) vmax f_zero) (nth j vmin f_zero, nth j vmax f_zero)); apply H; lia.
  Qed.
  Lemma red128_Q fmin fmax : joins Q fmin fmax -> red_Q 4 (reduce128 fmin) (reduce128 fmax) [0; 2; 1].
  Proof.
    intros J L vmin vmax (_ & _ & H). unfold reduce128. cbn [flat_map]. rewrite app_nil_r, app_assoc.
    apply (J _ _ (fmin (nth 0 vmin f_zero) (nth 2 vmin f_zero), fmax (nth 0 vmax f_zero) (nth 2 vmax f_zero)) (nth 1 vmin f_zero, nth 1 vmax f_zero)); [|apply H; lia].
    apply (J _ _ (nth 0 vmin f_zero, nth 0 vmax f_zero) (nth 2 vmin f_zero, nth 2 vmax f_zero)); apply H; lia.
  Qed.
  Lemma quad_Q fmin fmax L vmin vmax : joins Q fmin fmax -> lanes_Q 4 L vmin vmax ->
    let lm k := nth k vmin f_zero in let lx k := nth k vmax f_zero in
    Q ((L 0 ++ L 2) ++ (L 1 ++ L 3)) (fmin (fmin (lm 0) (lm 2)) (fmin (lm 1) (lm 3)), fmax (fmax (lx 0) (lx 2)) (fmax (lx 1) (lx 3))).
  Proof.
    intros J (_ & _ & H) lm lx.
    apply (J _ _ (fmin (lm 0) (lm 2), fmax (lx 0) (lx 2)) (fmin (lm 1) (lm 3), fmax (lx 1) (lx 3))).
    - apply (J _ _ (lm 0, lx 0) (lm 2, lx 2)); apply H; lia.
    - apply (J _ _ (lm 1, lx 1) (lm 3, lx 3)); apply H; lia.
  Qed.
  Lemma red256_Q fmin fmax : joins Q fmin fmax -> red_Q 8 (reduce256 fmin) (reduce256 fmax) (seq 0 8).
  Proof.
    intros J L vmin vmax H. apply (half_Q fmin fmax 4) in H; auto. apply (quad_Q fmin fmax) in H; auto. eapply Qset; [|exact H]. setlist.
  Qed.
  Lemma red512_Q fmin fmax : joins Q fmin fmax -> red_Q 16 (reduce512 fmin) (reduce512 fmax) (seq 0 16).
  Proof.
    intros J L vmin vmax H. apply (half_hi_Q fmin fmax 8) in H; auto. apply (half_hi_Q fmin fmax 4) in H; auto. apply (quad_Q fmin fmax) in H; auto.
    eapply Qset; [|exact H]. setlist.
  Qed.
  Lemma std4_Q : red_Q 4 std_min4 std_max4 [0; 1; 2; 3].
  Proof.
    intros L vmin vmax (L1 & L2 & H). unfold std_min4, std_max4. fold smin smax.
    do 4 (destruct vmin as [|? vmin]; [discriminate|]). destruct vmin; [|discriminate].
    do 4 (destruct vmax as [|? vmax]; [discriminate|]). destruct vmax; [|discriminate].
    cbn [tl hd fold_left flat_map]. rewrite app_nil_r, !app_assoc.
    pose proof (H 0 ltac:(lia)) as B0. pose proof (H 1 ltac:(lia)) as B1. pose proof (H 2 ltac:(lia)) as B2. pose proof (H 3 ltac:(lia)) as B3.
    cbn [nth] in *. pose proof (Qstd _ _ _ _ (Qstd _ _ _ _ (Qstd _ _ _ _ B0 B1) B2) B3) as R. exact R.
  Qed.

  Lemma vscan_Q a d k : d = DT_F32 \/ d = DT_BF16 -> vscan_of a d = Some k ->
    joins Q (vs_min k) (vs_max k) /\ red_Q (vs_lanes k) (vs_redmin k) (vs_redmax k) (sel_of a).
  Proof.
    intros Hd E. destruct Hd as [->| ->], a; cbn in E; try discriminate; injection E as <-;
      cbn [vs_back vs_step vs_gap vs_lanes vs_load vs_min vs_max vs_redmin vs_redmax sel_of];
      auto using red512_Q, red256_Q, red128_Q, std4_Q.
  Qed.

  (** The scan always returns, whatever the data, and its result satisfies the invariant for the list of scanned elements. *)
  Theorem scan_Q a d x n : d = DT_F32 \/ d = DT_BF16 -> Forall is_byte x -> length x = stride d * n ->
    exists mn mx L, find_min_max a d x n = Ok (mn, mx) /\ Q L (mn, mx) /\ (forall y, In y L <-> y = init_pair \/ exists t, (t < n /\ scanned a d n t) /\ y = dup (elem_at d x t)).
  Proof.
    intros Hd Hby HL. unfold find_min_max. destruct (vscan_of a d) as [k|] eqn:EK.
    - pose proof (vscan_kspec a d k Hd EK) as KS. destruct (vscan_Q a d k Hd EK) as [J R].
      destruct (vloop_fold d x n Hby HL k _ KS (S n) 0 (set1 (vs_lanes k) flt_max) (set1 (vs_lanes k) flt_lowest) ltac:(lia) (repeat_length _ _) (repeat_length _ _))
        as (st & vmin & vmax & E & D1 & D2 & L1 & L2 & N).
      rewrite Nat.add_0_l in E, D1. rewrite E. cbn [bind].
      assert (D4 : vs_step k * st <= n).
      { destruct (ks_step _ _ _ KS). destruct st as [|st]; [lia|]. specialize (D2 st ltac:(lia)). rewrite Nat.mul_succ_r. lia. }
      rewrite (sloop_fold d x n HL Hd) by lia.
      assert (LQ : lanes_Q (vs_lanes k) (fun j => [init_pair] ++ map dup (map (elem_at d x) (idx k 0 st j))) vmin vmax).
      { split; auto. split; auto. intros j Hj. destruct (N j Hj) as [-> ->]. unfold set1.
        rewrite !nth_indep with (d := f_zero) (d' := flt_max) by (rewrite repeat_length; auto).
        rewrite (nth_indep (repeat flt_lowest _)) with (d := flt_max) (d' := flt_lowest) by (rewrite repeat_length; auto). rewrite !nth_repeat.
        apply (fold_Q _ _ J _ [init_pair] init_pair). auto. }
      apply R in LQ. apply (fold_Q _ _ Qstd (map (elem_at d x) (seq (vs_step k * st) (n - vs_step k * st)))) in LQ. cbn [fst snd] in LQ.
      eexists _, _, _. split; [reflexivity|]. split; [exact LQ|].
      assert (C : forall t, ((exists j, In j (sel_of a) /\ In t (idx k 0 st j)) \/ vs_step k * st <= t < n) <-> (t < n /\ scanned a d n t)).
      { intros t. apply scan_cover; auto. }
      assert (NE : exists j, In j (sel_of a)) by (destruct a; cbn; eauto).
      clear - C NE. intros y. rewrite in_app_iff, in_flat_map. split.
      + intros [(j & Hj & [Hy|Hy])|Hy]; [left; auto| |]; right; rewrite map_map in Hy; apply in_map_iff in Hy; destruct Hy as (t & <- & Ht); exists t; rewrite <- C; split; auto.
        * left. eauto.
        * apply in_seq in Ht. right. lia.
      + intros [->|(t & Ht & ->)]; [left; destruct NE as (j & Hj); exists j; split; auto; left; auto|].
        apply C in Ht. destruct Ht as [(j & Hj & Ht)|Ht].
        * left. exists j. split; auto. right. rewrite map_map. apply in_map_iff. eauto.
        * right. rewrite map_map. apply in_map_iff. exists t. split; auto. apply in_seq. lia.
    - rewrite (sloop_fold d x n HL Hd) by lia. eexists _, _, _. split; [reflexivity|].
      split; [apply (fold_Q _ _ Qstd _ [init_pair] init_pair); auto|]. rewrite Nat.sub_0_r, map_map. intros y. rewrite in_app_iff, in_map_iff.
      assert (C : forall t, scanned a d n t) by (intros t; clear - Hd EK; destruct Hd as [->| ->], a; cbn in *; auto; discriminate).
      split.
      + intros [[Hy|[]]|(t & <- & Ht)]; [left; auto|]. apply in_seq in Ht. right. exists t. split; auto. split; [lia|auto].
      + intros [->|(t & [Ht _] & ->)]; [left; left; auto|]. right. exists t. split; auto. apply in_seq. lia.
  Qed.
End inv.

(** ** Data without NaN: the smallest of FLT_MAX and the elements, the largest of -FLT_MAX and the elements *)
Definition xbest (L : list (f32 * f32)) (p : f32 * f32) : Prop := (forall q, In q L -> num (fst q) /\ num (snd q)) ->
  (num (fst p) /\ num (snd p)) /\
  ((exists q, In q L /\ fst q = fst p) /\ forall q, In q L -> (xval (fst p) <= xval (fst q))%R) /\
  ((exists q, In q L /\ snd q = snd p) /\ forall q, In q L -> (xval (snd q) <= xval (snd p))%R).

Definition picks (fmin fmax : f32 -> f32 -> f32) : Prop := forall a b, num a -> num b ->
  ((fmin a b = a \/ fmin a b = b) /\ (xval (fmin a b) <= xval a)%R /\ (xval (fmin a b) <= xval b)%R) /\
  ((fmax a b = a \/ fmax a b = b) /\ (xval a <= xval (fmax a b))%R /\ (xval b <= xval (fmax a b))%R).

Ltac xcmp := repeat match goal with
  | H : num ?a, H' : num ?b |- context [flt ?a ?b] => rewrite (xflt a b H H')
  | |- context [Rlt_bool ?a ?b] => destruct (Rlt_bool_spec a b)
  end.
Lemma picks_ps : picks minps maxps.
Proof. intros a b Na Nb. unfold minps, maxps. rewrite !fgt_flt. xcmp; repeat split; auto; lra. Qed.
Lemma picks_std : picks smin smax.
Proof. intros a b Na Nb. unfold smin, smax. xcmp; repeat split; auto; lra. Qed.
Lemma picks_neon : picks neon_min neon_max.
Proof.
  intros a b Na Nb. unfold neon_min, neon_max. rewrite !fgt_flt. unfold num in *. rewrite Na, Nb. fold (num a) in Na. fold (num b) in Nb.
  xcmp; destruct (Bsign 24 128 a); repeat split; auto; lra.
Qed.

Lemma xbest_set L L' p : (forall x, In x L <-> In x L') -> xbest L p -> xbest L' p.
Proof.
  intros H B F. destruct B as (N & ((q1 & I1 & E1) & M1) & ((q2 & I2 & E2) & M2)).
  { intros q Hq. apply F, H, Hq. }
  split; auto. split; split.
  - exists q1. rewrite <- H. auto.
  - intros y Hy. apply M1, H, Hy.
  - exists q2. rewrite <- H. auto.
  - intros y Hy. apply M2, H, Hy.
Qed.
Lemma xbest_one p : xbest [p] p.
Proof.
  intros F. split; [apply F; cbn; auto|]. split; (split; [exists p; cbn; auto|]); intros q [->|[]]; lra.
Qed.
Lemma xbest_joins fmin fmax : picks fmin fmax -> joins xbest fmin fmax.
Proof.
  intros P L1 L2 p1 p2 B1 B2 F.
  destruct B1 as ((N1 & N1') & ((q1 & I1 & E1) & M1) & ((q1' & I1' & E1') & M1')); [intros q Hq; apply F, in_app_iff; auto|].
  destruct B2 as ((N2 & N2') & ((q2 & I2 & E2) & M2) & ((q2' & I2' & E2') & M2')); [intros q Hq; apply F, in_app_iff; auto|].
  destruct (P (fst p1) (fst p2) N1 N2) as [(C & X1 & X2) _]. destruct (P (snd p1) (snd p2) N1' N2') as [_ (C' & X1' & X2')]. cbn [fst snd].
  split; [split; [destruct C as [->| ->]|destruct C' as [->| ->]]; auto|]. split; split.
  - destruct C as [->| ->]; [exists q1|exists q2]; rewrite in_app_iff; auto.
  - intros q Hq. apply in_app_iff in Hq. destruct Hq as [Hq|Hq]; [specialize (M1 q Hq)|specialize (M2 q Hq)]; lra.
  - destruct C' as [->| ->]; [exists q1'|exists q2']; rewrite in_app_iff; auto.
  - intros q Hq. apply in_app_iff in Hq. destruct Hq as [Hq|Hq]; [specialize (M1' q Hq)|specialize (M2' q Hq)]; lra.
Qed.

Theorem scan_num a d x n : d = DT_F32 \/ d = DT_BF16 -> Forall is_byte x -> length x = stride d * n -> (forall t, t < n -> num (elem_at d x t)) ->
  exists mn mx, find_min_max a d x n = Ok (mn, mx) /\ num mn /\ num mx /\
    (mn = flt_max \/ exists t, (t < n /\ scanned a d n t) /\ mn = elem_at d x t) /\
    (mx = flt_lowest \/ exists t, (t < n /\ scanned a d n t) /\ mx = elem_at d x t) /\
    (xval mn <= xval flt_max)%R /\ (xval flt_lowest <= xval mx)%R /\
    forall t, t < n -> scanned a d n t -> (xval mn <= xval (elem_at d x t) <= xval mx)%R.
Proof.
  intros Hd Hby HL HN.
  destruct (scan_Q xbest xbest_set (xbest_one _) (fun y => xbest_one _) (xbest_joins _ _ picks_ps) (xbest_joins _ _ picks_neon) (xbest_joins _ _ picks_std)
    a d x n Hd Hby HL) as (mn & mx & L & E & B & HI).
  destruct B as ((N1 & N2) & ((q1 & I1 & E1) & M1) & ((q2 & I2 & E2) & M2)).
  { intros q Hq. apply HI in Hq. destruct Hq as [->|(t & [Ht _] & ->)]; [split; reflexivity|]. split; apply HN; auto. }
  cbn [fst snd] in *. assert (HI0 : In init_pair L) by (apply HI; auto).
  exists mn, mx. split; auto. split; auto. split; auto. split; [|split; [|split; [|split]]].
  - apply HI in I1. destruct I1 as [->|(t & Ht & ->)]; [left; auto|right; exists t; auto].
  - apply HI in I2. destruct I2 as [->|(t & Ht & ->)]; [left; auto|right; exists t; auto].
  - apply (M1 _ HI0).
  - apply (M2 _ HI0).
  - intros t Ht Hs. assert (I : In (dup (elem_at d x t)) L) by (apply HI; right; exists t; auto). split; [apply (M1 _ I)|apply (M2 _ I)].
Qed.

(** ** Arbitrary data: the two results are both NaN, or untouched, or properly ordered *)
Definition coh (L : list (f32 * f32)) (p : f32 * f32) : Prop :=
  (exists q, In q L /\ fis_nan (fst q) = true) /\ fis_nan (fst p) = true /\ fis_nan (snd p) = true \/
  (num (fst p) /\ num (snd p)) /\
  (p = init_pair \/ (xval (fst p) <= xval (snd p))%R) /\ (exists q, In q L /\ fst q = fst p) /\ (exists q, In q L /\ snd q = snd p).

Lemma coh_set L L' p : (forall x, In x L <-> In x L') -> coh L p -> coh L' p.
Proof.
  intros H [((q & I & E) & N)|(N & O & (q & I & E) & (q' & I' & E'))].
  - left. split; auto. exists q. rewrite <- H. auto.
  - right. split; auto. split; auto. split; [exists q|exists q']; rewrite <- H; auto.
Qed.
Lemma coh_one x : coh [dup x] (dup x).
Proof.
  unfold coh. cbn [dup fst snd]. destruct (fis_nan x) eqn:E.
  - left. split; auto. exists (dup x). cbn; auto.
  - right. split; auto. split; [right; lra|]. split; exists (dup x); cbn; auto.
Qed.
Lemma coh_init : coh [init_pair] init_pair.
Proof. right. split; [split; reflexivity|]. split; auto. split; exists init_pair; cbn; auto. Qed.

(** both operations choose the left pair, or both the right pair, as soon as one pair is NaN; otherwise they choose by value *)
Definition nan_alike (fmin fmax : f32 -> f32 -> f32) : Prop := forall p1 p2 : f32 * f32,
  fis_nan (fst p1) = fis_nan (snd p1) -> fis_nan (fst p2) = fis_nan (snd p2) -> fis_nan (fst p1) = true \/ fis_nan (fst p2) = true ->
  let p := (fmin (fst p1) (fst p2), fmax (snd p1) (snd p2)) in p = p1 \/ p = p2.
Lemma alike_ps : nan_alike minps maxps.
Proof.
  intros [a b] [a' b'] E1 E2 H. cbn [fst snd] in *. right. unfold minps, maxps. rewrite fgt_flt. destruct H as [H|H].
  - rewrite (nan_flt_l a) by auto. rewrite (nan_flt_r b' b) by congruence. reflexivity.
  - rewrite (nan_flt_r a) by auto. rewrite (nan_flt_l b' b) by congruence. reflexivity.
Qed.
Lemma alike_std : nan_alike smin smax.
Proof.
  intros [a b] [a' b'] E1 E2 H. cbn [fst snd] in *. left. unfold smin, smax. destruct H as [H|H].
  - rewrite (nan_flt_r a' a) by auto. rewrite (nan_flt_l b b') by congruence. reflexivity.
  - rewrite (nan_flt_l a' a) by auto. rewrite (nan_flt_r b b') by congruence. reflexivity.
Qed.
Lemma alike_neon : nan_alike neon_min neon_max.
Proof.
  intros [a b] [a' b'] E1 E2 H. cbn [fst snd] in *. unfold neon_min, neon_max. rewrite <- E1, <- E2.
  destruct (fis_nan a); [left; reflexivity|]. destruct H as [H|H]; [discriminate|]. rewrite H. right; reflexivity.
Qed.
Lemma coh_joins fmin fmax : picks fmin fmax -> nan_alike fmin fmax -> joins coh fmin fmax.
Proof.
  intros P A L1 L2 p1 p2 C1 C2.
  assert (W : forall L L' p, (forall q, In q L -> In q L') -> coh L p -> coh L' p).
  { clear. intros L L' p H [((q & I & E) & N)|(N & O & (q & I & E) & (q' & I' & E'))].
    - left. split; eauto.
    - right. split; auto. split; auto. split; eauto. }
  assert (W1 : coh (L1 ++ L2) p1) by (apply (W L1); auto; intros; apply in_app_iff; auto).
  assert (W2 : coh (L1 ++ L2) p2) by (apply (W L2); auto; intros; apply in_app_iff; auto).
  assert (T : fis_nan (fst p1) = true \/ fis_nan (fst p2) = true -> coh (L1 ++ L2) (fmin (fst p1) (fst p2), fmax (snd p1) (snd p2))).
  { intros H. destruct (A p1 p2) as [->| ->]; auto.
    - destruct C1 as [(_ & E1 & E2)|((E1 & E2) & _)]; unfold num in *; congruence.
    - destruct C2 as [(_ & E1 & E2)|((E1 & E2) & _)]; unfold num in *; congruence. }
  destruct W1 as [(_ & E & _)|((N1 & N1') & O1 & (q1 & I1 & E1) & (q1' & I1' & E1'))]; [auto|].
  destruct W2 as [(_ & E & _)|((N2 & N2') & O2 & (q2 & I2 & E2) & (q2' & I2' & E2'))]; [auto|]. clear T A.
  destruct (P (fst p1) (fst p2) N1 N2) as [(C & X1 & X2) _]. destruct (P (snd p1) (snd p2) N1' N2') as [_ (C' & X1' & X2')].
  right. cbn [fst snd]. split; [split; [destruct C as [->| ->]|destruct C' as [->| ->]]; auto|]. split; [|split].
  - destruct O1 as [->|O1]; [|right; lra]. destruct O2 as [->|O2]; [|right; lra]. left. cbn [init_pair fst snd] in *. unfold init_pair.
    destruct C as [->| ->], C' as [->| ->]; reflexivity.
  - destruct C as [->| ->]; eauto.
  - destruct C' as [->| ->]; eauto.
Qed.

Theorem scan_any a d x n : d = DT_F32 \/ d = DT_BF16 -> Forall is_byte x -> length x = stride d * n ->
  exists mn mx, find_min_max a d x n = Ok (mn, mx) /\
    ((exists t, t < n /\ fis_nan (elem_at d x t) = true) /\ fis_nan mn = true /\ fis_nan mx = true \/
     num mn /\ num mx /\ (mn = flt_max /\ mx = flt_lowest \/ (xval mn <= xval mx)%R) /\
       (mn = flt_max \/ exists t, t < n /\ mn = elem_at d x t) /\ (mx = flt_lowest \/ exists t, t < n /\ mx = elem_at d x t)).
Proof.
  intros Hd Hby HL.
  destruct (scan_Q coh coh_set coh_init coh_one (coh_joins _ _ picks_ps alike_ps) (coh_joins _ _ picks_neon alike_neon) (coh_joins _ _ picks_std alike_std)
    a d x n Hd Hby HL) as (mn & mx & L & E & B & HI).
  exists mn, mx. split; auto. destruct B as [((q & I & N) & N1 & N2)|((N1 & N2) & O & (q1 & I1 & E1) & (q2 & I2 & E2))]; cbn [fst snd] in *.
  - left. split; auto. apply HI in I. destruct I as [->|(t & [Ht _] & ->)]; [discriminate N|]. exists t. auto.
  - right. split; auto. split; auto. split; [|split].
    + destruct O as [O|O]; auto. left. injection O; auto.
    + apply HI in I1. destruct I1 as [->|(t & [Ht _] & ->)]; [left; auto|right; exists t; auto].
    + apply HI in I2. destruct I2 as [->|(t & [Ht _] & ->)]; [left; auto|right; exists t; auto].
Qed.

(** ** The scalar loop skips NaNs *)
Lemma smin_skip l r : fold_left smin (filter (fun x => negb (fis_nan x)) l) r = fold_left smin l r.
Proof.
  revert r. induction l as [|y l IH]; intros r; cbn [filter fold_left]; auto. destruct (fis_nan y) eqn:E; cbn [negb fold_left]; rewrite IH; auto.
  replace (smin r y) with r; auto. unfold smin. rewrite nan_flt_l by auto. reflexivity.
Qed.
Lemma smax_skip l r : fold_left smax (filter (fun x => negb (fis_nan x)) l) r = fold_left smax l r.
Proof.
  revert r. induction l as [|y l IH]; intros r; cbn [filter fold_left]; auto. destruct (fis_nan y) eqn:E; cbn [negb fold_left]; rewrite IH; auto.
  replace (smax r y) with r; auto. unfold smax. rewrite nan_flt_r by auto. reflexivity.
Qed.
Theorem scan_skips_nan a d x n : d = DT_F32 \/ d = DT_BF16 -> Forall is_byte x -> length x = stride d * n -> vscan_of a d = None ->
  exists mn mx, find_min_max a d x n = Ok (mn, mx) /\ num mn /\ num mx /\
    (mn = flt_max \/ exists t, t < n /\ mn = elem_at d x t) /\ (mx = flt_lowest \/ exists t, t < n /\ mx = elem_at d x t) /\
    (xval mn <= xval flt_max)%R /\ (xval flt_lowest <= xval mx)%R /\
    forall t, t < n -> num (elem_at d x t) -> (xval mn <= xval (elem_at d x t) <= xval mx)%R.
Proof.
  intros Hd Hby HL EK. unfold find_min_max. rewrite EK, (sloop_fold d x n HL Hd) by lia. rewrite <- smin_skip, <- smax_skip, Nat.sub_0_r.
  set (l := filter _ _).
  pose proof (fold_Q xbest (fun y => xbest_one _) smin smax (xbest_joins _ _ picks_std) l [init_pair] init_pair (xbest_one _)) as B. cbn [fst snd init_pair] in B.
  assert (HI : forall y, In y l -> num y /\ exists t, t < n /\ y = elem_at d x t).
  { intros y Hy. apply filter_In in Hy. destruct Hy as [Hy N]. apply in_map_iff in Hy. destruct Hy as (t & <- & Ht). apply in_seq in Ht.
    apply negb_true_iff in N. split; auto. exists t. split; auto. lia. }
  destruct B as ((N1 & N2) & ((q1 & I1 & E1) & M1) & ((q2 & I2 & E2) & M2)).
  { intros q [<-|Hq]; [split; reflexivity|]. apply in_map_iff in Hq. destruct Hq as (y & <- & Hy). split; apply HI; auto. }
  eexists _, _. split; [reflexivity|]. split; [exact N1|]. split; [exact N2|]. cbn [fst snd] in *. split; [|split; [|split; [|split]]].
  - rewrite <- E1. destruct I1 as [<-|I1]; [left; auto|]. apply in_map_iff in I1. destruct I1 as (y & <- & Hy). right. apply HI; auto.
  - rewrite <- E2. destruct I2 as [<-|I2]; [left; auto|]. apply in_map_iff in I2. destruct I2 as (y & <- & Hy). right. apply HI; auto.
  - apply (M1 init_pair). left; auto.
  - apply (M2 init_pair). left; auto.
  - intros t Ht N. assert (I : In (dup (elem_at d x t)) ([(flt_max, flt_lowest)] ++ map dup l)).
    { right. apply in_map, filter_In. split; [apply in_map, in_seq; lia|]. unfold num in N. rewrite N. reflexivity. }
    split; [apply (M1 _ I)|apply (M2 _ I)].
Qed.
