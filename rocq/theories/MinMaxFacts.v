(** MinMaxFacts.v -- what the range scan computes: the minimum and maximum over the elements it looks at. *)
From Coq Require Import ZArith List Lia Bool Reals Lra.
From Flocq Require Import Core BinarySingleNaN Binary Bits.
From Verif Require Import Base Floats Simd Dtypes ExecFacts Spec ApiSpec FloatFacts QuantFacts QuantKernelFacts MinMax.
Import ListNotations.
Local Open Scope nat_scope.

(** [best true l m]: m is a smallest element of l (up to the sign of zero); [best false l m]: a largest one. *)
Definition key (s : bool) (x : f32) : R := if s then val x else (- val x)%R.
Definition best (s : bool) (l : list f32) (m : f32) : Prop :=
  finite m /\ (exists x, In x l /\ val x = val m) /\ forall x, In x l -> (key s m <= key s x)%R.

Lemma key_val s x y : val x = val y -> key s x = key s y.
Proof. unfold key. destruct s; intros ->; auto. Qed.
Lemma key_inj s x y : key s x = key s y -> val x = val y.
Proof. unfold key. destruct s; lra. Qed.

Lemma best_set s l l' m : (forall x, In x l <-> In x l') -> best s l m -> best s l' m.
Proof.
  intros H (F & (x & I & E) & M). split; auto. split.
  - exists x. split; auto. apply H; auto.
  - intros y Hy. apply M, H; auto.
Qed.
Lemma best_one s x : finite x -> best s [x] x.
Proof. intros F. split; auto. split; [exists x; cbn; auto|]. intros y [->|[]]. lra. Qed.

Definition op_ok (s : bool) (op : f32 -> f32 -> f32) : Prop :=
  forall a b, finite a -> finite b -> (op a b = a \/ op a b = b) /\ (key s (op a b) <= key s a)%R /\ (key s (op a b) <= key s b)%R.

Lemma best_op s op l1 l2 a b : op_ok s op -> best s l1 a -> best s l2 b -> best s (l1 ++ l2) (op a b).
Proof.
  intros H (F1 & (x & I1 & E1) & M1) (F2 & (y & I2 & E2) & M2). destruct (H a b F1 F2) as (C & K1 & K2).
  split; [destruct C as [->| ->]; auto|]. split.
  - destruct C as [->| ->]; [exists x|exists y]; rewrite in_app_iff; auto.
  - intros z Hz. apply in_app_iff in Hz. destruct Hz as [Hz|Hz].
    + apply Rle_trans with (key s a); auto.
    + apply Rle_trans with (key s b); auto.
Qed.

(** the initial value is neutral *)
Lemma best_drop s l m x0 : best s (x0 :: l) m -> l <> [] -> (forall x, In x l -> (key s x <= key s x0)%R) -> best s l m.
Proof.
  intros (F & (x & I & E) & M) Hne H. split; auto. split.
  - destruct I as [->|I]; [|exists x; auto]. destruct l as [|y l]; [congruence|]. exists y. split; [cbn; auto|].
    rewrite <- E. apply key_inj with s. apply Rle_antisym; [apply H; cbn; auto|].
    rewrite (key_val s x m E). apply M. cbn; auto.
  - intros y Hy. apply M. cbn; auto.
Qed.

Lemma fgt_ok x y : finite x -> finite y -> fgt x y = Rlt_bool (val y) (val x).
Proof.
  intros. unfold fgt. rewrite fcompare_ok by auto.
  destruct (Rcompare_spec (val x) (val y)); symmetry; [apply Rlt_bool_false|apply Rlt_bool_false|apply Rlt_bool_true]; lra.
Qed.

Ltac cmp := repeat match goal with
  | H : finite ?a, H' : finite ?b |- context [flt ?a ?b] => rewrite (flt_ok a b H H')
  | H : finite ?a, H' : finite ?b |- context [fgt ?a ?b] => rewrite (fgt_ok a b H H')
  | |- context [Rlt_bool ?a ?b] => destruct (Rlt_bool_spec a b)
  end.
Lemma finite_nan x : finite x -> fis_nan x = false.
Proof. unfold finite, fis_nan. destruct x; cbn; auto; discriminate. Qed.

Lemma minps_ok : op_ok true minps.
Proof. intros a b Fa Fb. unfold minps, key. cmp; repeat split; auto; lra. Qed.
Lemma maxps_ok : op_ok false maxps.
Proof. intros a b Fa Fb. unfold maxps, key. cmp; repeat split; auto; lra. Qed.
Lemma neon_min_ok : op_ok true neon_min.
Proof.
  intros a b Fa Fb. unfold neon_min, key. rewrite !finite_nan by auto.
  cmp; [repeat split; auto; lra|repeat split; auto; lra|]. destruct Bsign; repeat split; auto; lra.
Qed.
Lemma neon_max_ok : op_ok false neon_max.
Proof.
  intros a b Fa Fb. unfold neon_max, key. rewrite !finite_nan by auto.
  cmp; [repeat split; auto; lra|repeat split; auto; lra|]. destruct Bsign; repeat split; auto; lra.
Qed.
Lemma std_min_ok : op_ok true (fun r x => if flt x r then x else r).
Proof. intros a b Fa Fb. unfold key. cmp; repeat split; auto; lra. Qed.
Lemma std_max_ok : op_ok false (fun r x => if flt r x then x else r).
Proof. intros a b Fa Fb. unfold key. cmp; repeat split; auto; lra. Qed.

(** ** Lanes *)
Definition lanes_best (s : bool) (K : nat) (L : nat -> list f32) (acc : list f32) : Prop :=
  length acc = K /\ forall j, j < K -> best s (L j) (nth j acc f_zero).

Lemma map2_length {A B C} (f : A -> B -> C) l m : length l = length m -> length (map2 f l m) = length l.
Proof. revert m. induction l as [|a l IH]; destruct m; cbn; intros E; try lia. rewrite IH; lia. Qed.
Lemma map2_nth {A} (f : A -> A -> A) l m d j : length l = length m -> j < length l -> nth j (map2 f l m) d = f (nth j l d) (nth j m d).
Proof.
  revert m j. induction l as [|a l IH]; destruct m as [|b m]; cbn; intros j E H; try lia.
  destruct j; auto. apply IH; lia.
Qed.
Lemma nth_firstn_lt {A} (l : list A) K j d : j < K -> nth j (firstn K l) d = nth j l d.
Proof. revert K j. induction l as [|a l IH]; intros [|K] j H; cbn; auto; try lia. destruct j; auto. apply IH. lia. Qed.
Lemma nth_skipn' {A} (l : list A) K j d : nth j (skipn K l) d = nth (K + j) l d.
Proof. revert K j. induction l as [|a l IH]; intros [|K] j; cbn; auto. destruct j; auto. Qed.

Lemma lanes_step s op K L acc v : op_ok s op -> lanes_best s K L acc -> length v = K -> Forall finite v ->
  lanes_best s K (fun j => L j ++ [nth j v f_zero]) (map2 op acc v).
Proof.
  intros H (HL & HB) Hv F. split; [rewrite map2_length; lia|]. intros j Hj. rewrite map2_nth by lia.
  apply best_op; auto. apply best_one. rewrite Forall_forall in F. apply F, nth_In. lia.
Qed.

Definition red_ok (s : bool) (K : nat) (red : list f32 -> f32) (sel : list nat) : Prop :=
  forall L acc, lanes_best s K L acc -> best s (flat_map L sel) (red acc).

Lemma lanes_at s K L acc : lanes_best s K L acc -> forall j, j < K -> best s (L j) (nth j acc f_zero).
Proof. intros H. apply H. Qed.

Lemma reduce128_ok s op : op_ok s op -> red_ok s 4 (reduce128 op) [0; 2; 1].
Proof.
  intros H L acc HB. pose proof (lanes_at _ _ _ _ HB) as B. unfold reduce128. cbn [flat_map]. rewrite app_nil_r, app_assoc.
  apply best_op; [exact H|apply best_op; [exact H| |]|]; apply B; lia.
Qed.
Lemma std4_ok s op : op_ok s op -> red_ok s 4 (fun v => fold_left op (tl v) (hd f_zero v)) [0; 1; 2; 3].
Proof.
  intros H L acc HB. pose proof (lanes_at _ _ _ _ HB) as B. destruct HB as [HL _].
  do 4 (destruct acc as [|? acc]; [discriminate|]). destruct acc; [|discriminate].
  cbn [tl hd fold_left flat_map]. rewrite app_nil_r, !app_assoc.
  pose proof (B 0 ltac:(lia)) as B0. pose proof (B 1 ltac:(lia)) as B1. pose proof (B 2 ltac:(lia)) as B2. pose proof (B 3 ltac:(lia)) as B3.
  cbn [nth] in *. repeat (apply best_op; auto).
Qed.
Lemma half_lanes s op K L acc : op_ok s op -> lanes_best s (K + K) L acc ->
  lanes_best s K (fun j => L j ++ L (K + j)) (map2 op (firstn K acc) (skipn K acc)).
Proof.
  intros H (HL & HB). assert (E : length (firstn K acc) = length (skipn K acc)) by (rewrite firstn_length, skipn_length; lia).
  assert (E' : length (firstn K acc) = K) by (rewrite firstn_length; lia).
  split; [rewrite map2_length; lia|]. intros j Hj. rewrite map2_nth by lia.
  rewrite nth_firstn_lt by lia. rewrite nth_skipn'. apply best_op; auto; apply HB; lia.
Qed.
Lemma half_lanes_hi s op K L acc : op_ok s op -> lanes_best s (K + K) L acc ->
  lanes_best s K (fun j => L (K + j) ++ L j) (map2 op (skipn K acc) (firstn K acc)).
Proof.
  intros H (HL & HB). assert (E : length (firstn K acc) = length (skipn K acc)) by (rewrite firstn_length, skipn_length; lia).
  assert (E' : length (firstn K acc) = K) by (rewrite firstn_length; lia).
  split; [rewrite map2_length; lia|]. intros j Hj. rewrite map2_nth by lia.
  rewrite nth_firstn_lt by lia. rewrite nth_skipn'. apply best_op; auto; apply HB; lia.
Qed.
Ltac setlist := let x := fresh in intros x; cbn [flat_map seq Nat.add]; rewrite ?app_nil_r, ?in_app_iff; tauto.
Lemma reduce256_ok s op : op_ok s op -> red_ok s 8 (reduce256 op) (seq 0 8).
Proof.
  intros H L acc HB. apply (half_lanes s op 4) in HB; auto. pose proof (lanes_at _ _ _ _ HB) as B. unfold reduce256. cbn [nth].
  eapply best_set; [|apply best_op; [exact H| |]; (apply best_op; [exact H| |]; apply B; lia)]. setlist.
Qed.
Lemma reduce512_ok s op : op_ok s op -> red_ok s 16 (reduce512 op) (seq 0 16).
Proof.
  intros H L acc HB. apply (half_lanes_hi s op 8) in HB; auto. apply (half_lanes_hi s op 4) in HB; auto.
  pose proof (lanes_at _ _ _ _ HB) as B. unfold reduce512.
  eapply best_set; [|apply best_op; [exact H| |]; (apply best_op; [exact H| |]; apply B; lia)]. setlist.
Qed.

(** ** Loops *)
(** The element indices lane [j] has seen after [st] iterations starting at [i]. *)
Fixpoint idx (k : vscan) (i st j : nat) : list nat :=
  match st with
  | O => []
  | S st' => [i + j; i + vs_gap k + j; i + 2 * vs_gap k + j; i + 3 * vs_gap k + j] ++ idx k (i + vs_step k) st' j
  end.
Lemma idx_In k j t : forall st i, In t (idx k i st j) <-> exists s m, s < st /\ m < 4 /\ t = i + vs_step k * s + vs_gap k * m + j.
Proof.
  induction st as [|st IH]; intros i; cbn [idx].
  - split; [intros []|]. intros (s & m & H & _). lia.
  - rewrite in_app_iff, IH. cbn [In]. split.
    + intros [[H|[H|[H|[H|[]]]]]|(s & m & H1 & H2 & H3)].
      * exists 0, 0. lia.
      * exists 0, 1. lia.
      * exists 0, 2. lia.
      * exists 0, 3. lia.
      * exists (S s), m. split; [lia|]. split; [lia|]. rewrite H3, Nat.mul_succ_r. lia.
    + intros (s & m & H1 & H2 & ->). destruct s as [|s].
      * left. rewrite Nat.mul_0_r. destruct m as [|[|[|[|m]]]]; lia.
      * right. exists s, m. rewrite Nat.mul_succ_r. lia.
Qed.

Record kspec (d : dtype) (k : vscan) (sel : list nat) : Prop := {
  ks_min : op_ok true (vs_min k);
  ks_max : op_ok false (vs_max k);
  ks_redmin : red_ok true (vs_lanes k) (vs_redmin k) sel;
  ks_redmax : red_ok false (vs_lanes k) (vs_redmax k) sel;
  ks_load : forall x n i, Forall is_byte x -> length x = stride d * n -> i + vs_gap k <= n ->
            vs_load k x i = Ok (map (elem_at d x) (seq i (vs_lanes k)));
  ks_gap : 4 * vs_gap k <= vs_back k + 1;
  ks_step : 0 < vs_step k <= vs_back k + 1;
  ks_lanes : vs_lanes k <= vs_gap k
}.

Lemma lanes_ext s K L L' acc : (forall j, L j = L' j) -> lanes_best s K L acc -> lanes_best s K L' acc.
Proof. intros E [H1 H2]. split; auto. intros j Hj. rewrite <- E. auto. Qed.

Lemma lanes_load s op d x K L acc i : op_ok s op -> lanes_best s K L acc -> (forall j, j < K -> finite (elem_at d x (i + j))) ->
  lanes_best s K (fun j => L j ++ [nth j (map (elem_at d x) (seq i K)) f_zero]) (map2 op acc (map (elem_at d x) (seq i K))).
Proof.
  intros H HB F. apply lanes_step; auto.
  - rewrite map_length, seq_length. auto.
  - apply Forall_forall. intros y Hy. apply in_map_iff in Hy. destruct Hy as (t & <- & Ht). apply in_seq in Ht.
    replace t with (i + (t - i)) by lia. apply F. lia.
Qed.

Lemma lanes_restrict s K L L' acc : (forall j, j < K -> L j = L' j) -> lanes_best s K L acc -> lanes_best s K L' acc.
Proof. intros E [H1 H2]. split; auto. intros j Hj. rewrite <- E by auto. auto. Qed.

Lemma load4 s op d x K L acc i0 i1 i2 i3 : op_ok s op -> lanes_best s K L acc ->
  (forall t, In t [i0; i1; i2; i3] -> forall j, j < K -> finite (elem_at d x (t + j))) ->
  let v t := map (elem_at d x) (seq t K) in
  lanes_best s K (fun j => L j ++ map (elem_at d x) [i0 + j; i1 + j; i2 + j; i3 + j])
    (map2 op (map2 op (map2 op (map2 op acc (v i0)) (v i1)) (v i2)) (v i3)).
Proof.
  intros H HB F v. eapply lanes_restrict; [|do 4 (apply lanes_load; [exact H| |apply F; cbn; tauto]); exact HB].
  intros j Hj. cbn beta.
  assert (N : forall t, nth j (v t) f_zero = elem_at d x (t + j)).
  { intros t. unfold v. rewrite nth_indep with (d' := elem_at d x 0) by (rewrite map_length, seq_length; auto).
    rewrite map_nth, seq_nth by auto. reflexivity. }
  fold (v i0) (v i1) (v i2) (v i3). rewrite !N, <- !app_assoc. reflexivity.
Qed.

Section scan.
  Variable d : dtype.
  Variable x : mem.
  Variable n : nat.
  Hypothesis Hby : Forall is_byte x.
  Hypothesis Hlen : length x = stride d * n.
  Hypothesis Hfin : forall i, i < n -> finite (elem_at d x i).
  Notation X := (elem_at d x).

  Lemma vloop_ok k sel : kspec d k sel -> forall fuel i vmin vmax Lmin Lmax,
    i <= n < i + fuel -> lanes_best true (vs_lanes k) Lmin vmin -> lanes_best false (vs_lanes k) Lmax vmax ->
    exists st vmin' vmax', vloop k fuel x n i vmin vmax = Ok (i + vs_step k * st, (vmin', vmax')) /\
      n <= i + vs_step k * st + vs_back k /\ (forall s, s < st -> i + vs_step k * s + vs_back k < n) /\
      lanes_best true (vs_lanes k) (fun j => Lmin j ++ map X (idx k i st j)) vmin' /\
      lanes_best false (vs_lanes k) (fun j => Lmax j ++ map X (idx k i st j)) vmax'.
  Proof.
    intros HK. pose proof (ks_lanes _ _ _ HK) as Hlg. pose proof (ks_gap _ _ _ HK) as G. pose proof (ks_step _ _ _ HK) as S0.
    induction fuel as [|fuel IH]; intros i vmin vmax Lmin Lmax Hf H1 H2.
    - lia.
    - cbn [vloop]. destruct (Nat.ltb_spec (i + vs_back k) n) as [C|C].
      + rewrite !(ks_load _ _ _ HK x n) by (auto; lia). cbn [bind].
        destruct (IH (i + vs_step k)
          (map2 (vs_min k) (map2 (vs_min k) (map2 (vs_min k) (map2 (vs_min k) vmin (map X (seq i (vs_lanes k))))
             (map X (seq (i + vs_gap k) (vs_lanes k)))) (map X (seq (i + 2 * vs_gap k) (vs_lanes k)))) (map X (seq (i + 3 * vs_gap k) (vs_lanes k))))
          (map2 (vs_max k) (map2 (vs_max k) (map2 (vs_max k) (map2 (vs_max k) vmax (map X (seq i (vs_lanes k))))
             (map X (seq (i + vs_gap k) (vs_lanes k)))) (map X (seq (i + 2 * vs_gap k) (vs_lanes k)))) (map X (seq (i + 3 * vs_gap k) (vs_lanes k))))
          (fun j => Lmin j ++ map X [i + j; i + vs_gap k + j; i + 2 * vs_gap k + j; i + 3 * vs_gap k + j])
          (fun j => Lmax j ++ map X [i + j; i + vs_gap k + j; i + 2 * vs_gap k + j; i + 3 * vs_gap k + j]))
          as (st & a & b & E & D1 & D2 & B1 & B2).
        * lia.
        * apply load4; auto; [apply HK|]. intros t Ht j Hj. apply Hfin. cbn [In] in Ht. lia.
        * apply load4; auto; [apply HK|]. intros t Ht j Hj. apply Hfin. cbn [In] in Ht. lia.
        * exists (S st), a, b. rewrite E. split; [f_equal; f_equal; rewrite Nat.mul_succ_r; lia|]. split; [rewrite Nat.mul_succ_r; lia|].
          split; [|split].
          -- intros s Hs. destruct s as [|s]; [rewrite Nat.mul_0_r; lia|]. rewrite Nat.mul_succ_r. specialize (D2 s ltac:(lia)). lia.
          -- eapply lanes_ext; [|exact B1]. intros j. cbn beta. rewrite <- app_assoc, <- map_app. reflexivity.
          -- eapply lanes_ext; [|exact B2]. intros j. cbn beta. rewrite <- app_assoc, <- map_app. reflexivity.
      + exists 0, vmin, vmax. rewrite Nat.mul_0_r, !Nat.add_0_r. split; auto. split; [lia|]. split; [intros; lia|].
        cbn [idx map]. split; (eapply lanes_ext; [|eassumption]); intros j; rewrite app_nil_r; reflexivity.
  Qed.

  Lemma ld_elem_ok i : d = DT_F32 \/ d = DT_BF16 -> i < n -> ld_elem d x i = Ok (X i).
  Proof.
    intros Hd Hi. unfold ld_elem, rd, in_bounds.
    destruct Hd as [->| ->]; cbn [stride] in Hlen; match goal with |- context [?a <=? ?b] => destruct (Nat.leb_spec a b); [|lia] end; cbn [bind]; f_equal.
    cbn [elem_at]. unfold f32_of_bf16. rewrite Z.shiftl_mul_pow2 by lia. reflexivity.
  Qed.

  Lemma sloop_ok : d = DT_F32 \/ d = DT_BF16 -> forall fuel i l1 l2 mn mx, i <= n < i + fuel -> best true l1 mn -> best false l2 mx ->
    exists mn' mx', sloop d fuel x n i mn mx = Ok (mn', mx') /\
      best true (l1 ++ map X (seq i (n - i))) mn' /\ best false (l2 ++ map X (seq i (n - i))) mx'.
  Proof.
    intros Hd. induction fuel as [|fuel IH]; intros i l1 l2 mn mx Hf B1 B2; [lia|].
    cbn [sloop]. destruct (Nat.ltb_spec i n) as [C|C].
    - rewrite ld_elem_ok by auto. cbn [bind].
      destruct (IH (i + 1) (l1 ++ [X i]) (l2 ++ [X i]) (if flt (X i) mn then X i else mn) (if fgt (X i) mx then X i else mx)) as (a & b & E & A1 & A2).
      + lia.
      + apply (best_op true (fun r x => if flt x r then x else r)); auto; [apply std_min_ok|apply best_one; auto].
      + replace (if fgt (X i) mx then X i else mx) with (if flt mx (X i) then X i else mx).
        * apply (best_op false (fun r x => if flt r x then x else r)); auto; [apply std_max_ok|apply best_one; auto].
        * rewrite flt_ok, fgt_ok; auto; apply B2.
      + exists a, b. split; auto. replace (n - i) with (S (n - (i + 1))) by lia. cbn [seq map]. rewrite Nat.add_1_r in A1, A2.
        rewrite <- app_assoc in A1, A2. rewrite Nat.add_1_r. auto.
    - exists mn, mx. replace (n - i) with 0 by lia. cbn [seq map]. rewrite !app_nil_r. auto.
  Qed.
End scan.

(** ** Which elements each kernel set looks at *)
Definition scanned (a : arch) (d : dtype) (n i : nat) : Prop :=
  match a, d with
  | SSE42, DT_F32 => 16 * (n / 16) <= i \/ i mod 4 <> 3
  | SSE42, DT_BF16 => 32 * (n / 32) <= i \/ i mod 8 < 3
  | _, _ => True
  end.

Lemma load_f32_ok K x n i : length x = 4 * n -> i + K <= n -> load_f32 K x i = Ok (map (elem_at DT_F32 x) (seq i K)).
Proof.
  intros HL H. unfold load_f32, rd, in_bounds. destruct (Nat.leb_spec (4 * i + 4 * K) (length x)); [|lia].
  cbn [bind]. rewrite loadu_ps_slice by lia. reflexivity.
Qed.
Lemma load_bf16_ok cnt K x n i : Forall is_byte x -> K <= cnt -> length x = 2 * n -> i + cnt <= n ->
  load_bf16 cnt K x i = Ok (map (elem_at DT_BF16 x) (seq i K)).
Proof.
  intros HB HK HL H. unfold load_bf16, rd, in_bounds. destruct (Nat.leb_spec (2 * i + 2 * cnt) (length x)); [|lia].
  cbn [bind]. rewrite load_u16_slice by lia. unfold cvtepu16_epi32. rewrite firstn_map.
  replace (firstn K (seq i cnt)) with (seq i K).
  - rewrite slli16_at by auto. reflexivity.
  - replace cnt with (K + (cnt - K)) by lia. rewrite seq_app, firstn_app, seq_length, Nat.sub_diag, firstn_O, app_nil_r.
    rewrite firstn_all2; auto. rewrite seq_length. lia.
Qed.

Definition sel_of (a : arch) : list nat :=
  match a with AVX512F | AVX512BF16 => seq 0 16 | AVX2 => seq 0 8 | SSE42 => [0; 2; 1] | _ => [0; 1; 2; 3] end.
Lemma vscan_kspec a d k : d = DT_F32 \/ d = DT_BF16 -> vscan_of a d = Some k -> kspec d k (sel_of a).
Proof.
  intros Hd E. destruct Hd as [->| ->], a; cbn in E; try discriminate; injection E as <-; constructor;
    cbn [vs_back vs_step vs_gap vs_lanes vs_load vs_min vs_max vs_redmin vs_redmax sel_of]; try lia;
    auto using minps_ok, maxps_ok, neon_min_ok, neon_max_ok, reduce512_ok, reduce256_ok, reduce128_ok;
    try (apply (std4_ok true); apply std_min_ok); try (apply (std4_ok false); apply std_max_ok);
    intros x n i HB HL Hi; cbn [stride] in HL; (eapply load_f32_ok || eapply load_bf16_ok); eauto; lia.
Qed.

Lemma flt_max_finite : finite flt_max. Proof. reflexivity. Qed.
Lemma flt_lowest_finite : finite flt_lowest. Proof. reflexivity. Qed.
Lemma flt_max_val : val flt_max = (bpow radix2 128 - bpow radix2 (128 - 24))%R.
Proof.
  unfold val, flt_max. vm_compute f32_of_bits. cbn [B2R]. unfold F2R. cbn [Fnum Fexp cond_Zopp]. change (128 - 24)%Z with 104%Z.
  change 128%Z with (24 + 104)%Z. rewrite bpow_plus. change (bpow radix2 24) with 16777216%R. lra.
Qed.
Lemma flt_max_bound x : finite x -> (val x <= val flt_max)%R.
Proof.
  intros F. pose proof (abs_B2R_le_emax_minus_prec 24 128 Hprec32 x) as H. fold (val x) in H. apply Rabs_le_inv in H.
  rewrite flt_max_val. lra.
Qed.
Lemma flt_lowest_val : val flt_lowest = (- val flt_max)%R.
Proof. unfold val, flt_max, flt_lowest. vm_compute f32_of_bits. cbn [B2R]. unfold F2R. cbn [Fnum Fexp cond_Zopp]. rewrite opp_IZR. lra. Qed.
Lemma flt_lowest_bound x : finite x -> (val flt_lowest <= val x)%R.
Proof.
  intros F. rewrite flt_lowest_val. pose proof (abs_B2R_le_emax_minus_prec 24 128 Hprec32 x) as H. fold (val x) in H. apply Rabs_le_inv in H.
  rewrite flt_max_val. lra.
Qed.

Lemma scanned_0 a d n : scanned a d n 0.
Proof. unfold scanned. destruct a, d; auto; right; cbn; lia. Qed.

(** the loop indices cover exactly the scanned elements *)
Lemma scan_cover a d k n st t : d = DT_F32 \/ d = DT_BF16 -> vscan_of a d = Some k ->
  n <= vs_step k * st + vs_back k -> (forall s, s < st -> vs_step k * s + vs_back k < n) -> 
  ((exists j, In j (sel_of a) /\ In t (idx k 0 st j)) \/ vs_step k * st <= t < n) <-> (t < n /\ scanned a d n t).
Proof.
  intros Hd E D1 D2.
  assert (D3 : st = 0 \/ vs_step k * (st - 1) + vs_back k < n) by (destruct st; [auto|right; apply D2; lia]).
  assert (I : (exists j, In j (sel_of a) /\ In t (idx k 0 st j)) <-> (exists j s m, In j (sel_of a) /\ s < st /\ m < 4 /\ t = vs_step k * s + vs_gap k * m + j)).
  { split.
    - intros (j & Hj & H). apply idx_In in H. destruct H as (s & m & H). exists j, s, m. tauto.
    - intros (j & s & m & Hj & H). exists j. split; auto. apply idx_In. exists s, m. exact H. }
  rewrite I. clear I.
  destruct Hd as [->| ->], a; cbn in E; try discriminate; injection E as <-;
    cbn [vs_back vs_step vs_gap vs_lanes vs_load vs_min vs_max vs_redmin vs_redmax sel_of scanned] in *.
  - (* SSE4.2 f32 *) assert (st = n / 16) as -> by lia. split.
    + intros [(j & s & m & Hj & H1 & H2 & ->)|H]; [|lia]. specialize (D2 s H1). cbn [In] in Hj. lia.
    + intros [H1 [H2|H2]]; [right; lia|]. destruct (Nat.le_gt_cases (16 * (n / 16)) t) as [G|G]; [right; lia|].
      left. exists (t mod 4), (t / 16), (t mod 16 / 4). cbn [In]. lia.
  - (* AVX2 f32 *) split.
    + intros [(j & s & m & Hj & H1 & H2 & ->)|H]; [|split; auto; lia]. specialize (D2 s H1). apply in_seq in Hj. split; auto. lia.
    + intros [H1 _]. destruct (Nat.le_gt_cases (32 * st) t) as [G|G]; [right; lia|].
      left. exists (t mod 8), (t / 32), (t mod 32 / 8). rewrite in_seq. lia.
  - split.
    + intros [(j & s & m & Hj & H1 & H2 & ->)|H]; [|split; auto; lia]. specialize (D2 s H1). apply in_seq in Hj. split; auto. lia.
    + intros [H1 _]. destruct (Nat.le_gt_cases (63 * st) t) as [G|G]; [right; lia|].
      left. exists (t mod 63 mod 16), (t / 63), (t mod 63 / 16). rewrite in_seq. lia.
  - split.
    + intros [(j & s & m & Hj & H1 & H2 & ->)|H]; [|split; auto; lia]. specialize (D2 s H1). apply in_seq in Hj. split; auto. lia.
    + intros [H1 _]. destruct (Nat.le_gt_cases (63 * st) t) as [G|G]; [right; lia|].
      left. exists (t mod 63 mod 16), (t / 63), (t mod 63 / 16). rewrite in_seq. lia.
  - (* NEON *) split.
    + intros [(j & s & m & Hj & H1 & H2 & ->)|H]; [|split; auto; lia]. specialize (D2 s H1). cbn [In] in Hj. split; auto. lia.
    + intros [H1 _]. destruct (Nat.le_gt_cases (16 * st) t) as [G|G]; [right; lia|].
      left. exists (t mod 4), (t / 16), (t mod 16 / 4). cbn [In]. lia.
  - (* SSE4.2 bf16 *) assert (st = n / 32) as -> by lia. split.
    + intros [(j & s & m & Hj & H1 & H2 & ->)|H]; [|lia]. specialize (D2 s H1). cbn [In] in Hj. lia.
    + intros [H1 [H2|H2]]; [right; lia|]. destruct (Nat.le_gt_cases (32 * (n / 32)) t) as [G|G]; [right; lia|].
      left. exists (t mod 8), (t / 32), (t mod 32 / 8). cbn [In]. lia.
  - split.
    + intros [(j & s & m & Hj & H1 & H2 & ->)|H]; [|split; auto; lia]. specialize (D2 s H1). apply in_seq in Hj. split; auto. lia.
    + intros [H1 _]. destruct (Nat.le_gt_cases (32 * st) t) as [G|G]; [right; lia|].
      left. exists (t mod 8), (t / 32), (t mod 32 / 8). rewrite in_seq. lia.
  - split.
    + intros [(j & s & m & Hj & H1 & H2 & ->)|H]; [|split; auto; lia]. specialize (D2 s H1). apply in_seq in Hj. split; auto. lia.
    + intros [H1 _]. destruct (Nat.le_gt_cases (63 * st) t) as [G|G]; [right; lia|].
      left. exists (t mod 63 mod 16), (t / 63), (t mod 63 / 16). rewrite in_seq. lia.
  - split.
    + intros [(j & s & m & Hj & H1 & H2 & ->)|H]; [|split; auto; lia]. specialize (D2 s H1). apply in_seq in Hj. split; auto. lia.
    + intros [H1 _]. destruct (Nat.le_gt_cases (63 * st) t) as [G|G]; [right; lia|].
      left. exists (t mod 63 mod 16), (t / 63), (t mod 63 / 16). rewrite in_seq. lia.
Qed.

(** [extreme_of s P X m]: m equals some X t with P t, and no X t with P t is better. *)
Definition extreme_of (s : bool) (P : nat -> Prop) (X : nat -> f32) (m : f32) : Prop :=
  finite m /\ (exists t, P t /\ val (X t) = val m) /\ forall t, P t -> (key s m <= key s (X t))%R.

Lemma best_extreme s l P X m x0 : best s l m -> (exists t, P t) -> (forall t, P t -> (key s (X t) <= key s x0)%R) ->
  (forall t, P t -> In (X t) l) -> (forall y, In y l -> y = x0 \/ exists t, P t /\ y = X t) -> extreme_of s P X m.
Proof.
  intros (F & (y & I & E) & M) (t0 & H0) HX H1 H2. split; auto. split.
  - destruct (H2 y I) as [->|(t & Ht & ->)]; [|exists t; auto]. exists t0. split; auto. rewrite <- E. apply key_inj with s.
    apply Rle_antisym; auto. rewrite (key_val s x0 m E). auto.
  - auto.
Qed.

Theorem find_min_max_ok a d x n : d = DT_F32 \/ d = DT_BF16 -> Forall is_byte x -> length x = stride d * n -> 0 < n ->
  (forall i, i < n -> finite (elem_at d x i)) ->
  exists mn mx, find_min_max a d x n = Ok (mn, mx) /\
    extreme_of true (fun t => t < n /\ scanned a d n t) (elem_at d x) mn /\
    extreme_of false (fun t => t < n /\ scanned a d n t) (elem_at d x) mx.
Proof.
  intros Hd Hby HL Hn HF. pose proof (scanned_0 a d n) as S0.
  assert (KB : forall t, t < n /\ scanned a d n t -> (key true (elem_at d x t) <= key true flt_max)%R) by (intros t [Ht _]; apply flt_max_bound; auto).
  assert (KB' : forall t, t < n /\ scanned a d n t -> (key false (elem_at d x t) <= key false flt_lowest)%R).
  { intros t [Ht _]. unfold key. pose proof (flt_lowest_bound (elem_at d x t) (HF t Ht)). lra. }
  unfold find_min_max. destruct (vscan_of a d) as [k|] eqn:EK.
  - pose proof (vscan_kspec a d k Hd EK) as KS.
    assert (L1 : lanes_best true (vs_lanes k) (fun _ => [flt_max]) (set1 (vs_lanes k) flt_max)).
    { split; [apply repeat_length|]. intros j Hj. unfold set1. rewrite nth_indep with (d' := flt_max) by (rewrite repeat_length; auto).
      rewrite nth_repeat. apply best_one. reflexivity. }
    assert (L2 : lanes_best false (vs_lanes k) (fun _ => [flt_lowest]) (set1 (vs_lanes k) flt_lowest)).
    { split; [apply repeat_length|]. intros j Hj. unfold set1. rewrite nth_indep with (d' := flt_lowest) by (rewrite repeat_length; auto).
      rewrite nth_repeat. apply best_one. reflexivity. }
    destruct (vloop_ok d x n Hby HL HF k _ KS (S n) 0 _ _ _ _ ltac:(lia) L1 L2) as (st & vmin & vmax & E & D1 & D2 & B1 & B2).
    rewrite Nat.add_0_l in E, D1. rewrite E. cbn [bind].
    pose proof (ks_redmin _ _ _ KS _ _ B1) as R1. pose proof (ks_redmax _ _ _ KS _ _ B2) as R2. cbn beta in R1, R2.
    assert (D4 : vs_step k * st <= n).
    { destruct (ks_step _ _ _ KS). destruct st as [|st]; [lia|]. specialize (D2 st ltac:(lia)). rewrite Nat.mul_succ_r. lia. }
    destruct (sloop_ok d x n HL HF Hd (S n) (vs_step k * st) _ _ _ _ ltac:(lia) R1 R2) as (mn & mx & E' & M1 & M2).
    exists mn, mx. split; auto.
    assert (C : forall t, ((exists j, In j (sel_of a) /\ In t (idx k 0 st j)) \/ vs_step k * st <= t < n) <-> (t < n /\ scanned a d n t)).
    { intros t. apply scan_cover; auto. }
    clear - C M1 M2 KB KB' S0 Hn.
    assert (G : forall x0 t, t < n /\ scanned a d n t -> In (elem_at d x t)
       (flat_map (fun j => [x0] ++ map (elem_at d x) (idx k 0 st j)) (sel_of a) ++ map (elem_at d x) (seq (vs_step k * st) (n - vs_step k * st)))).
    { intros x0 t Ht. apply C in Ht. apply in_app_iff. destruct Ht as [(j & H1 & H2)|Ht].
      - left. apply in_flat_map. exists j. split; auto. apply in_app_iff. right. apply in_map; auto.
      - right. apply in_map, in_seq. lia. }
    assert (G' : forall x0 y, In y
       (flat_map (fun j => [x0] ++ map (elem_at d x) (idx k 0 st j)) (sel_of a) ++ map (elem_at d x) (seq (vs_step k * st) (n - vs_step k * st))) ->
        y = x0 \/ exists t, (t < n /\ scanned a d n t) /\ y = elem_at d x t).
    { intros x0 y Hy. apply in_app_iff in Hy. destruct Hy as [Hy|Hy].
      - apply in_flat_map in Hy. destruct Hy as (j & H1 & H2). apply in_app_iff in H2. destruct H2 as [[->|[]]|H2]; auto.
        apply in_map_iff in H2. destruct H2 as (t & <- & Ht). right. exists t. split; auto. apply C. left. eauto.
      - apply in_map_iff in Hy. destruct Hy as (t & <- & Ht). apply in_seq in Ht. right. exists t. split; auto. apply C. right. lia. }
    split; (eapply best_extreme; [eassumption| |eassumption|apply G|apply G']); exists 0; auto.
  - destruct (sloop_ok d x n HL HF Hd (S n) 0 _ _ _ _ ltac:(lia) (best_one true flt_max eq_refl) (best_one false flt_lowest eq_refl)) as (mn & mx & E & M1 & M2).
    exists mn, mx. split; auto. rewrite Nat.sub_0_r in M1, M2.
    assert (C : forall t, scanned a d n t).
    { intros t. clear - Hd EK. destruct Hd as [->| ->], a; cbn in *; auto; discriminate. }
    clear - C M1 M2 KB KB' Hn.
    assert (G : forall x0 t, t < n /\ scanned a d n t -> In (elem_at d x t) ([x0] ++ map (elem_at d x) (seq 0 n))).
    { intros x0 t Ht. apply in_app_iff. right. apply in_map, in_seq. lia. }
    assert (G' : forall x0 y, In y ([x0] ++ map (elem_at d x) (seq 0 n)) -> y = x0 \/ exists t, (t < n /\ scanned a d n t) /\ y = elem_at d x t).
    { intros x0 y [->|Hy]; auto. apply in_map_iff in Hy. destruct Hy as (t & <- & Ht). apply in_seq in Ht. right. exists t. split; auto. split; [lia|auto]. }
    split; (eapply best_extreme; [eassumption| |eassumption|apply G|apply G']); exists 0; auto.
Qed.
