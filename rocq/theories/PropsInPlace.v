(** PropsInPlace.v -- C59: calls whose output overlaps their input.
    The header does not say whether buffers may overlap.  At the level of loop iterations (one iteration reads, computes, then stores):
    quantize_dequantize_fused works in place with any number of threads; quantize works in place, or with an output that starts below its input,
    on a context with one thread, and not with two; dequantize does not work in place.
    The kernels declare both pointers PIQUANT_RESTRICT (piquant_internal.hpp:23,27; kernels.inl:39-40, quantize.inl:132-133 and the specialised kernels), so a C++ compiler may
    assume that no overlap happens; the positive theorems say that the algorithm itself needs no such assumption, not that a compiler honours it. *)
From Coq Require Import ZArith List Lia Bool Arith ZifyBool ZifyNat Reals.
From Verif Require Import Base Floats Simd Dtypes Spec ApiSpec QuantKernels DequantKernels ExecFacts FloatFacts QuantFacts QuantKernelFacts LoopFacts
  QuantGenericFacts DequantFacts Context ContextFacts Footprint QuantizeFacts DequantizeFacts Api PropsQuantize Schedule PropsMemory NoAbort PropsDispatch Arena ArenaFacts PropsArena.
Import ListNotations.

(** ** One launch on overlapping buffers *)
(** no step of the run stores into bytes that a later step reads *)
Definition unread (di do : nat) (a later : action) : Prop :=
  do + a_ooff a + a_olen a <= di + a_ioff later \/ di + a_ioff later + a_ilen later <= do + a_ooff a.
(** the bytes [a'] will read are still those of [inm] *)
Definition intact (L : launch) (inm m : mem) (a : action) : Prop :=
  a_ioff a + a_ilen a <= length inm -> slice (a_ioff a) (a_ilen a) (slice (l_in L) (l_isize L) m) = slice (a_ioff a) (a_ilen a) inm.

Lemma splice_slice o (r r' m : mem) : o + length r <= length m -> length r' = length r -> splice o r' (splice o r m) = splice o r' m.
Proof.
  intros H E. apply list_ext.
  - rewrite !splice_length; rewrite ?splice_length; lia.
  - intros k Hk. rewrite !nth_splice by (rewrite ?splice_length; lia).
    destruct (Nat.leb_spec o k), (Nat.ltb_spec k (o + length r')), (Nat.ltb_spec k (o + length r)); cbn [andb]; auto; lia.
Qed.
Lemma splice_same o n (m : mem) : o + n <= length m -> splice o (slice o n m) m = m.
Proof.
  intros H. assert (L : length (slice o n m) = n) by (apply slice_length; auto). apply list_ext.
  - rewrite splice_length; lia.
  - intros k Hk. rewrite nth_splice by lia. rewrite L. destruct (Nat.leb_spec o k), (Nat.ltb_spec k (o + n)); cbn [andb]; auto.
    rewrite nth_slice by lia. f_equal. lia.
Qed.
Lemma run_action_outside inm a o o' k : run_action inm a o = Ok o' -> (k < a_ooff a \/ a_ooff a + a_olen a <= k) -> nth k o' 0%Z = nth k o 0%Z.
Proof.
  unfold run_action, in_bounds. destruct (Nat.leb_spec (a_ioff a + a_ilen a) (length inm)); [|discriminate].
  destruct (Nat.leb_spec (a_ooff a + a_olen a) (length o)); [|discriminate]. cbn [andb]. destruct (a_fn a _ _) as [r| |]; try discriminate. cbn [bind].
  destruct (Nat.eqb_spec (length r) (a_olen a)); [|discriminate]. intros E Hk. injection E as <-. rewrite nth_splice by lia.
  destruct (Nat.leb_spec (a_ooff a) k), (Nat.ltb_spec k (a_ooff a + length r)); cbn [andb]; auto; lia.
Qed.
Lemma overlap_run L inm tr : length inm = l_isize L -> forall m, placed (length m) L -> Forall (intact L inm m) tr -> ForallOrdPairs (unread (l_in L) (l_out L)) tr ->
  arena_run [L] (map (pair 0) tr) m = bind (run_trace inm tr (slice (l_out L) (l_osize L) m)) (fun o => Ok (splice (l_out L) o m)).
Proof.
  intros LI. induction tr as [|a tr IH]; intros m [P1 P2] HF HU; cbn [map arena_run nth_error run_trace bind].
  - rewrite splice_same; auto.
  - inversion HF as [|? ? Fa Ft]; subst. inversion HU as [|? ? Ua Ut]; subst. unfold arena_step.
    assert (E : run_action (slice (l_in L) (l_isize L) m) a (slice (l_out L) (l_osize L) m) = run_action inm a (slice (l_out L) (l_osize L) m)).
    { unfold run_action, in_bounds. rewrite slice_length, LI by auto. destruct (Nat.leb_spec (a_ioff a + a_ilen a) (l_isize L)); cbn [andb]; auto.
      rewrite Fa by lia. reflexivity. }
    rewrite E. destruct (run_action inm a (slice (l_out L) (l_osize L) m)) as [o| |] eqn:R; cbn [bind]; auto.
    assert (LO : length o = l_osize L) by (apply run_action_length in R; rewrite slice_length in R by auto; auto).
    set (m1 := splice (l_out L) o m). assert (L1 : length m1 = length m) by (apply splice_length; lia).
    assert (SO : slice (l_out L) (l_osize L) m1 = o) by (rewrite <- LO; apply slice_same; lia).
    rewrite (IH m1), SO; [|rewrite L1; split; auto| |auto].
    + destruct (run_trace inm tr o) as [o'| |] eqn:T; cbn [bind]; auto. f_equal. apply splice_slice; [lia|].
      clear -T. revert o T. induction tr as [|b tr IH]; intros o T; cbn [run_trace] in T; [congruence|].
      destruct (run_action inm b o) as [o1| |] eqn:B; cbn [bind] in T; try discriminate. apply run_action_length in B. apply IH in T. congruence.
    + apply Forall_forall. intros b Hb HB. rewrite Forall_forall in Ft, Ua. rewrite <- (Ft b Hb HB). specialize (Ua b Hb). unfold unread in Ua.
      apply slice_ext; rewrite ?slice_length by (try rewrite L1; auto); auto; try lia.
      intros k Hk. rewrite !nth_slice by lia. unfold m1. rewrite nth_splice by lia.
      destruct (Nat.leb_spec (l_out L) (l_in L + k)), (Nat.ltb_spec (l_in L + k) (l_out L + length o)); cbn [andb]; auto.
      rewrite (run_action_outside _ _ _ _ _ R) by lia. rewrite nth_slice by lia. f_equal. lia.
Qed.

(** ** The calls *)
(** What a call leaves: the shape of C43, for one call and without the layout condition. *)
Definition as_if_separate (base : Z) (q : request) (m : mem) (r : res mem) : Prop :=
  match r with
  | Ok m' => length m' = length m /\ alone base q m (Ok (output_of q m')) /\ (forall j, j < q_out q \/ q_out q + q_osize q <= j -> nth j m' 0%Z = nth j m 0%Z)
  | Abort => alone base q m Abort
  | UB => alone base q m UB
  end.
Definition inside (q : request) (m : mem) : Prop := q_in q + (q_isize q + q_extra q) <= length m /\ q_out q + q_osize q <= length m.

Lemma tagged_one (jobs : list (list action)) tr : interleave (map (map (pair 0)) jobs ++ []) tr -> exists tr', tr = map (pair 0) tr' /\ interleave jobs tr'.
Proof.
  rewrite app_nil_r. remember (map (map (pair 0)) jobs) as ls eqn:E. intros H. revert jobs E. induction H as [ls HF|pre a l post tr HI IH]; intros jobs E.
  - exists []. split; auto. subst. constructor. rewrite Forall_forall in *. intros x Hx. specialize (HF (map (pair 0) x) (in_map _ _ _ Hx)). destruct x; [auto|discriminate].
  - symmetry in E. apply map_eq_app in E. destruct E as (p & s & -> & <- & E). destruct s as [|x s]; [discriminate|]. cbn [map] in E. injection E as E1 <-.
    destruct x as [|b x]; [discriminate|]. cbn [map] in E1. injection E1 as <- <-.
    destruct (IH (p ++ x :: s)) as (tr' & -> & I); [rewrite map_app; reflexivity|]. exists (b :: tr'). split; auto. apply il_step. exact I.
Qed.
Lemma overlap_call base q m jobs r : inside q m -> request_call base q = Ok jobs ->
  (forall tr, interleave jobs tr -> ForallOrdPairs (unread (q_in q) (q_out q)) tr) -> concurrently base [q] m r -> as_if_separate base q m r.
Proof.
  intros [P1 P2] EC HU HC. unfold concurrently in HC. cbn [map sequence] in HC. unfold request_launch in HC. rewrite EC in HC. cbn [bind] in HC.
  destruct HC as (tr & HI & ->). cbn [tagged_from l_jobs] in HI. apply tagged_one in HI. destruct HI as (tr' & -> & HI).
  set (L := mk_launch _ _ _ _ _). rewrite (overlap_run L (input_alloc q m)); cbn [l_in l_isize l_out l_osize L].
  - unfold as_if_separate, alone. rewrite EC. pose proof (ret_ok (input_alloc q m) (output_of q m) jobs tr' HI) as R. unfold output_of in R.
    destruct (run_trace (input_alloc q m) tr' (slice (q_out q) (q_osize q) m)) as [o| |] eqn:E; cbn [bind]; try exact R.
    assert (LO : length o = q_osize q).
    { assert (G : length o = length (slice (q_out q) (q_osize q) m)); [|rewrite slice_length in G by auto; auto].
      clear -E. revert E. generalize (slice (q_out q) (q_osize q) m). induction tr' as [|b tr IH]; intros s T; cbn [run_trace] in T; [congruence|].
      destruct (run_action _ b s) as [o1| |] eqn:B; cbn [bind] in T; try discriminate. apply run_action_length in B. apply IH in T. congruence. }
    split; [apply splice_length; lia|]. split.
    + unfold output_of. replace (slice (q_out q) (q_osize q) (splice (q_out q) o m)) with o; [exact R|]. rewrite <- LO. symmetry. apply slice_same. lia.
    + intros j Hj. rewrite nth_splice by lia. destruct (Nat.leb_spec (q_out q) j), (Nat.ltb_spec j (q_out q + length o)); cbn [andb]; auto; lia.
  - unfold input_alloc. apply slice_length. auto.
  - split; cbn; auto.
  - apply Forall_forall. intros a _ _. reflexivity.
  - apply HU. exact HI.
Qed.
Lemma refused_call base q m r : request_call base q = Abort -> concurrently base [q] m r -> as_if_separate base q m r.
Proof.
  intros EC HC. unfold concurrently in HC. cbn [map sequence] in HC. unfold request_launch in HC. rewrite EC in HC. cbn [bind] in HC. subst r.
  unfold as_if_separate, alone. rewrite EC. constructor.
Qed.

(** fused: every step reads the bytes it writes *)
Definition same_bytes (a : action) : Prop := a_ioff a = a_ooff a /\ a_ilen a = a_olen a.
Lemma f_same dt dq rm op n nt scale thr zp : Forall same_bytes (concat (map (f_job dt dq rm op n nt scale thr zp) (seq 0 nt))).
Proof.
  apply jobs_Forall. intros t _. unfold f_job. destruct (_ <=? _); [constructor|]. rewrite Forall_map. 
  unfold requant_generic. eapply Forall_impl; [|apply (seq_loops_Forall same_bytes); constructor; [intros i; split; reflexivity|constructor]].
  intros a [H1 H2]. split; cbn; auto.
Qed.
Lemma fop_impl {A} (R S : A -> A -> Prop) l : (forall a b, In a l -> In b l -> R a b -> S a b) -> ForallOrdPairs R l -> ForallOrdPairs S l.
Proof.
  intros H F. induction F as [|a l Ha F IH]; constructor.
  - rewrite Forall_forall in *. intros b Hb. apply H; [left; auto|right; auto|auto].
  - apply IH. intros x y Hx Hy. apply H; right; auto.
Qed.

(** ** C59.  quantize_dequantize_fused in place: same result as with a copy of the data as input, in every schedule, for all data and parameters. *)
Theorem C59_fused_in_place base q m r dt dq scale zp rm op thr :
  q_cmd q = Do_fused dt dq scale zp rm op thr -> q_in q = q_out q -> inside q m -> sane q ->
  concurrently base [q] m r -> as_if_separate base q m r.
Proof.
  intros HQ HE HI HS HC. unfold sane in HS. rewrite HQ in HS.
  destruct (C25_fused (q_arch q) (q_threads q) (base + Z.of_nat (q_out q)) (q_isize q) dt (q_osize q) dq scale zp rm op thr HS) as [V _].
  assert (EQ : request_call base q = quantize_dequantize_fused (q_arch q) (q_threads q) (base + Z.of_nat (q_out q)) (Z.of_nat (q_isize q)) dt (Z.of_nat (q_osize q)) dq scale zp rm op thr)
    by (unfold request_call; rewrite HQ; reflexivity).
  destruct (fp_dec dt) as [Hf|Hf]; [destruct (q_dec dq) as [Hq|Hq]; [destruct (Nat.eq_dec (q_isize q) (q_osize q)) as [E|E]|]|];
    try (apply refused_call; auto; rewrite EQ; apply V; unfold fused_args_ok; tauto).
  rewrite <- E, fused_jobs in EQ by auto. eapply overlap_call; eauto. intros tr HT. rewrite HE.
  destruct (f_foot dt dq rm op (numel dt (q_isize q)) (q_threads q) scale (thr_of rm thr) zp Hf Hq) as [T _]; [destruct HS; lia|].
  pose proof (f_same dt dq rm op (numel dt (q_isize q)) (q_threads q) scale (thr_of rm thr) zp) as SB.
  apply interleave_perm in HT. apply tiles_disj in T. eapply ForallOrdPairs_perm in T; [|apply disj_sym|exact HT].
  assert (SB' : Forall same_bytes tr) by (eapply Permutation.Permutation_Forall; [exact HT|exact SB]). rewrite Forall_forall in SB'.
  revert T. apply fop_impl. intros a b Ha Hb D. destruct (SB' b Hb) as [B1 B2]. unfold unread, disj in *. lia.
Qed.

(** quantize on one thread: a step stores at or below the offset of the bytes it reads *)
Definition behind (a : action) : Prop := a_ooff a <= a_ioff a.
Lemma one_job {A} (l tr : list A) : interleave [l] tr -> tr = l.
Proof.
  revert tr. induction l as [|a l IH]; intros tr H; inversion H; subst.
  - reflexivity.
  - destruct pre as [|p pre]; cbn in *; [discriminate|]. destruct pre; discriminate.
  - match goal with H : Forall _ _ |- _ => inversion H; discriminate end.
  - destruct pre as [|p pre]; cbn in *; [|destruct pre; discriminate].
    match goal with H : _ :: _ = _ |- _ => injection H as -> -> -> end. f_equal. auto.
Qed.
Lemma tiles_unread di do lo hi l : do <= di -> tiles lo hi l -> Forall behind l -> ForallOrdPairs (unread di do) l.
Proof.
  intros HD. induction 1 as [|lo hi a l E T IH]; intros HB; [constructor|]. inversion HB; subst. constructor; auto.
  apply Forall_forall. intros b Hb. pose proof (tiles_range _ _ _ _ T Hb). rewrite Forall_forall in *.
  match goal with H : forall x, In x l -> behind x |- _ => specialize (H b Hb) as B end. unfold behind, unread in *. left. lia.
Qed.

Definition low (d : dtype) (dout : dtype) (n : nat) (a : action) : Prop :=
  behind a \/ (a_ioff a = esize d * (n - 1) /\ a_olen a = 1 /\ dout = DT_UINT4 /\ Nat.odd n = true).
Lemma div2_low k i : k >= 1 -> Nat.div2 i <= k * i.
Proof. intros H. pose proof (Nat.div2_div i). assert (Nat.div2 i <= i) by lia. nia. Qed.
Lemma div4_low k i : k >= 1 -> Nat.div2 (Nat.div2 i) <= k * i.
Proof. intros H. rewrite !Nat.div2_div. assert (i / 2 / 2 <= i) by lia. nia. Qed.
Ltac lows := repeat first [ apply Forall_cons; [cbn [snd]; intros ?|] | apply Forall_nil ];
  try (left; unfold behind, act_u8, act_u4_pair, act_u2_quad, act_block, act_block_stream, half_idx, quarter_idx, id_idx; cbn [a_ooff a_ioff];
       first [apply div2_low; assumption | apply div4_low; assumption | apply div2_low; cbn; lia | apply div4_low; cbn; lia | cbn [esize stride]; lia | nia]).
Lemma q_low A din dout rm oaddr n scale thr zp : float_type din -> quant_type dout -> Forall (low din dout n) (quant_generic A din dout rm oaddr n scale thr zp).
Proof.
  intros Hf Hq. assert (He : esize din >= 1) by (destruct Hf as [->| ->]; cbn; lia).
  assert (P : forall q, Forall (low din dout n) (quant_plain din q n)) by (intros q; apply seq_loops_Forall; lows).
  assert (F4 : forall q st, dout = DT_UINT4 -> Forall (low din dout n) (fst st) -> Forall (low din dout n) (u4_finish din q n st)).
  { intros q st E H. unfold u4_finish. apply Forall_app. split; auto. destruct (Nat.odd n) eqn:O; [|constructor]. constructor; [|constructor]. right. auto. }
  assert (F2 : forall q zq st, Forall (low din dout n) (fst st) -> Forall (low din dout n) (u2_finish din q zq n st)).
  { intros q zq st H. unfold u2_finish. apply Forall_app. split; auto. destruct (Nat.eqb _ 0); [constructor|]. constructor; [|constructor].
    left. unfold behind, act_u2_tail. cbn [a_ooff a_ioff]. apply div4_low. auto. }
  unfold quant_generic. cbv zeta.
  destruct Hf as [->| ->], Hq as [->|[->| ->]], rm;
    try (apply P); try (apply F4; [reflexivity|apply seq_loops_Forall]); try (apply F2; apply seq_loops_Forall); try apply seq_loops_Forall;
    try (destruct A; cbn [app]); lows.
Qed.
Lemma one_thread_quantize A din dout rm oaddr n scale thr zp tr di do : float_type din -> quant_type dout -> do <= di ->
  interleave (map (q_job A din dout rm oaddr n 1 scale thr zp) (seq 0 1)) tr -> ForallOrdPairs (unread di do) tr.
Proof.
  intros Hf Hq HD HI. assert (He : esize din >= 1) by (destruct Hf as [->| ->]; cbn; lia).
  destruct (q_foot A din dout rm oaddr n 1 scale thr zp Hf Hq ltac:(lia)) as [T W].
  cbn [seq map concat] in *. rewrite app_nil_r in *. apply one_job in HI. subst tr. apply tiles_unread with 0 (bytes_for dout n); auto.
  assert (Hpe : per_byte dout > 0) by (destruct Hq as [->|[->| ->]]; cbn; lia).
  assert (EJ : q_job A din dout rm oaddr n 1 scale thr zp 0 = if n <=? 0 then [] else map (shift_action 0 0) (quant_generic A din dout rm (oaddr + 0) n scale thr zp)).
  { unfold q_job. rewrite part_0, (part_last (per_byte dout) n 1) by lia. rewrite Nat.sub_0_r, Nat.mul_0_r, Nat.div_0_l by lia. reflexivity. }
  rewrite EJ in *.
  destruct (Nat.leb_spec n 0); [constructor|]. rewrite Forall_map in *. rewrite Forall_forall in *. intros a Ha. specialize (W a Ha).
  pose proof (q_low A din dout rm (oaddr + 0) n scale thr zp Hf Hq) as Q. rewrite Forall_forall in Q. specialize (Q a Ha). destruct Q as [B|(E1 & E2 & E3 & E4)].
  - unfold behind in *. cbn. lia.
  - destruct W as [_ W]. unfold behind. cbn [shift_action a_ooff a_olen a_ioff Nat.add] in *. subst dout. unfold bytes_for in W. cbn [bit_size] in W. rewrite E1, E2 in *.
    apply Nat.odd_spec in E4. destruct E4 as [c ->]. assert (a_ooff a <= 2 * c + 1 - 1) by lia. nia.
Qed.
(** quantize on a context with one thread: the output may start anywhere at or below the start of the input, in particular at the input. *)
Theorem C59_quantize_one_thread base q m r din dout scale zp rm thr :
  q_cmd q = Do_quantize din dout scale zp rm thr -> q_threads q = 1 -> q_out q <= q_in q -> inside q m -> sane q ->
  concurrently base [q] m r -> as_if_separate base q m r.
Proof.
  intros HQ HT HE HI HS HC. unfold sane in HS. rewrite HQ in HS.
  destruct (C25_quantize (q_arch q) (q_threads q) (base + Z.of_nat (q_out q)) (q_isize q) din (q_osize q) dout scale zp rm thr HS) as [V _].
  assert (EQ : request_call base q = quantize (q_arch q) (q_threads q) (base + Z.of_nat (q_out q)) (Z.of_nat (q_isize q)) din (Z.of_nat (q_osize q)) dout scale zp rm thr)
    by (unfold request_call; rewrite HQ; reflexivity).
  destruct (fp_dec din) as [Hf|Hf]; [destruct (q_dec dout) as [Hq|Hq]; [destruct (Nat.eq_dec (q_osize q) (bytes_for dout (numel din (q_isize q)))) as [E|E]|]|];
    try (apply refused_call; auto; rewrite EQ; apply V; unfold quantize_args_ok; tauto).
  rewrite quantize_jobs in EQ by auto. rewrite HT in EQ. eapply overlap_call; eauto. intros tr HIL. eapply one_thread_quantize; eauto.
Qed.
Theorem C59_fused_one_thread base q m r dt dq scale zp rm op thr :
  q_cmd q = Do_fused dt dq scale zp rm op thr -> q_threads q = 1 -> q_out q <= q_in q -> inside q m -> sane q ->
  concurrently base [q] m r -> as_if_separate base q m r.
Proof.
  intros HQ HT HE HI HS HC. unfold sane in HS. rewrite HQ in HS.
  destruct (C25_fused (q_arch q) (q_threads q) (base + Z.of_nat (q_out q)) (q_isize q) dt (q_osize q) dq scale zp rm op thr HS) as [V _].
  assert (EQ : request_call base q = quantize_dequantize_fused (q_arch q) (q_threads q) (base + Z.of_nat (q_out q)) (Z.of_nat (q_isize q)) dt (Z.of_nat (q_osize q)) dq scale zp rm op thr)
    by (unfold request_call; rewrite HQ; reflexivity).
  destruct (fp_dec dt) as [Hf|Hf]; [destruct (q_dec dq) as [Hq|Hq]; [destruct (Nat.eq_dec (q_isize q) (q_osize q)) as [E|E]|]|];
    try (apply refused_call; auto; rewrite EQ; apply V; unfold fused_args_ok; tauto).
  rewrite <- E, fused_jobs in EQ by auto. rewrite HT in EQ. eapply overlap_call; eauto. intros tr HIL.
  destruct (f_foot dt dq rm op (numel dt (q_isize q)) 1 scale (thr_of rm thr) zp Hf Hq ltac:(lia)) as [T _].
  pose proof (f_same dt dq rm op (numel dt (q_isize q)) 1 scale (thr_of rm thr) zp) as SB.
  cbn [seq map concat] in *. rewrite app_nil_r in *. apply one_job in HIL. subst tr. eapply tiles_unread; eauto.
  eapply Forall_impl; [|exact SB]. intros a [S1 _]. unfold behind. lia.
Qed.

(** The documented results, in place: codes and values computed from the data that was in the buffer before the call. *)
Theorem C59_documented_results base q m r : inside q m -> sane q -> request_ok q m ->
  ((exists dt dq scale zp rm op thr, q_cmd q = Do_fused dt dq scale zp rm op thr /\ (q_in q = q_out q \/ (q_threads q = 1 /\ q_out q <= q_in q))) \/
   (exists din dout scale zp rm thr, q_cmd q = Do_quantize din dout scale zp rm thr /\ q_threads q = 1 /\ q_out q <= q_in q)) ->
  concurrently base [q] m r ->
  exists m', r = Ok m' /\ length m' = length m /\ request_done q m m' /\ (forall j, j < q_out q \/ q_out q + q_osize q <= j -> nth j m' 0%Z = nth j m 0%Z).
Proof.
  intros HI HS HO HK HC. assert (HA : as_if_separate base q m r).
  { destruct HK as [(dt & dq & scale & zp & rm & op & thr & HQ & [HE|[HT HE]])|(din & dout & scale & zp & rm & thr & HQ & HT & HE)].
    - eapply C59_fused_in_place; eauto.
    - eapply C59_fused_one_thread; eauto.
    - eapply C59_quantize_one_thread; eauto. }
  destruct HI as [P1 P2]. destruct r as [m'| |]; cbn in HA.
  - destruct HA as (L & D & F). exists m'. split; auto. split; auto. split; auto. destruct (request_alone base q m _ P1 P2 HO D) as (o & E & R). injection E as E. apply R. auto.
  - destruct (request_alone base q m _ P1 P2 HO HA) as (o & E & _). discriminate.
  - destruct (request_alone base q m _ P1 P2 HO HA) as (o & E & _). discriminate.
Qed.

(** ** What does not work *)
Lemma jobs_in_order {A} (l : list (list A)) : interleave l (concat l).
Proof.
  induction l as [|x l IH]; cbn [concat]; [constructor; constructor|]. induction x as [|a x IHx]; cbn [app].
  - clear -IH. revert IH. generalize (concat l) as tr. intros tr H. induction H as [ls HF|pre a y post tr H IH]; [constructor; constructor; auto|]. apply (il_step ([] :: pre)). exact IH.
  - apply (il_step [] a x l). exact IHx.
Qed.
Lemma jobs_swapped {A} (x y : list A) : interleave [x; y] (y ++ x).
Proof. induction y as [|a y IH]; cbn [app]; [|apply (il_step [x] a y []); exact IH]. induction x as [|a x IH]; [do 3 constructor; auto|]. apply (il_step [] a x [[]]). exact IH. Qed.
Definition jobs_of (base : Z) (q : request) : list (list action) := match request_call base q with Ok jobs => jobs | _ => [] end.
Definition launch_of (base : Z) (q : request) : launch := mk_launch (q_in q) (q_isize q + q_extra q) (q_out q) (q_osize q) (jobs_of base q).
Lemma run_once base q m tr : request_call base q = Ok (jobs_of base q) -> interleave (jobs_of base q) tr ->
  concurrently base [q] m (arena_run [launch_of base q] (map (pair 0) tr) m).
Proof.
  intros E HI. unfold concurrently. cbn [map sequence]. unfold request_launch. rewrite E. cbn [bind]. eexists. split; [|reflexivity].
  cbn [tagged_from l_jobs]. rewrite app_nil_r. clear E. induction HI as [ls HF|pre a l post tr HI IH]; cbn [map].
  - constructor. rewrite Forall_map. eapply Forall_impl; [|exact HF]. intros l ->. reflexivity.
  - rewrite map_app in *. cbn [map] in *. apply il_step. exact IH.
Qed.

(** Two threads, eight floats 1.0 quantized to uint8 in place with scale 1, on every kernel set: one schedule gives eight codes 1, another stores over
    the input of element 1 before that is read. *)
(** the bytes of the float with integer value [z] *)
Definition float_bytes (z : Z) : mem := le_bytes 4 (bits_of_f32 (f32_of_Z z)).
Definition ones (n : nat) : mem := concat (repeat (float_bytes 1) n).
Definition in_place_u8 (A : arch) (nt : nat) : request := mk_request A nt 0 32 0 0 8 (Do_quantize DT_F32 DT_UINT8 f_one 0 RM_NEAREST f_zero).
Theorem C59_two_threads_refuted A : exists m1 m2,
  concurrently 4096 [in_place_u8 A 2] (ones 8) (Ok m1) /\ concurrently 4096 [in_place_u8 A 2] (ones 8) (Ok m2) /\
  firstn 8 m1 = [1; 1; 1; 1; 1; 1; 1; 1]%Z /\ firstn 8 m2 = [1; 0; 1; 1; 1; 1; 1; 1]%Z.
Proof.
  set (q := in_place_u8 A 2). assert (E : request_call 4096 q = Ok (jobs_of 4096 q)) by (destruct A; reflexivity).
  pose proof (run_once 4096 q (ones 8) _ E (jobs_in_order _)) as R1.
  assert (EJ : jobs_of 4096 q = [nth 0 (jobs_of 4096 q) []; nth 1 (jobs_of 4096 q) []]) by (destruct A; reflexivity).
  assert (R2 : concurrently 4096 [q] (ones 8) (arena_run [launch_of 4096 q] (map (pair 0) (nth 1 (jobs_of 4096 q) [] ++ nth 0 (jobs_of 4096 q) [])) (ones 8))).
  { apply run_once; auto. rewrite EJ at 1. apply jobs_swapped. }
  set (r1 := arena_run _ _ _) in R1. set (r2 := arena_run _ _ _) in R2.
  exists (match r1 with Ok m => m | _ => [] end), (match r2 with Ok m => m | _ => [] end).
  assert (O1 : r1 = Ok (match r1 with Ok m => m | _ => [] end)) by (clear; destruct A; vm_compute; reflexivity).
  assert (O2 : r2 = Ok (match r2 with Ok m => m | _ => [] end)) by (clear; destruct A; vm_compute; reflexivity).
  rewrite <- O1, <- O2. split; [exact R1|]. split; [exact R2|]. clear. split; destruct A; vm_compute; reflexivity.
Qed.
(** dequantize in place, one thread: the two codes 7 and 9 at the start of the float buffer; the value of the first overwrites the second code. *)
Theorem C59_dequantize_in_place_refuted A : exists m',
  concurrently 4096 [mk_request A 1 0 2 1 0 8 (Do_dequantize DT_UINT8 DT_F32 f_one 0 RO_SET)] [7; 9; 0; 0; 0; 0; 0; 0]%Z (Ok m') /\
  m' = float_bytes 7 ++ float_bytes 0.
Proof.
  set (q := mk_request _ _ _ _ _ _ _ _). set (m := [7; 9; 0; 0; 0; 0; 0; 0]%Z).
  assert (E : request_call 4096 q = Ok (jobs_of 4096 q)) by (destruct A; reflexivity).
  pose proof (run_once 4096 q m _ E (jobs_in_order _)) as R. set (r := arena_run _ _ _) in R.
  exists (match r with Ok m => m | _ => [] end).
  assert (O : r = Ok (match r with Ok m => m | _ => [] end)) by (clear; destruct A; vm_compute; reflexivity).
  rewrite <- O. split; [exact R|]. clear. destruct A; vm_compute; reflexivity.
Qed.
(** fused with an output that starts one element above its input, one thread: every element becomes that of the first one (here 1.0, 2.0, 3.0 -> 1.0, 1.0, 1.0). *)
Theorem C59_fused_above_refuted A : exists m',
  concurrently 4096 [mk_request A 1 0 12 0 4 12 (Do_fused DT_F32 DT_UINT8 f_one 0 RM_NEAREST RO_SET f_zero)] (float_bytes 1 ++ float_bytes 2 ++ float_bytes 3 ++ float_bytes 0) (Ok m') /\
  m' = float_bytes 1 ++ float_bytes 1 ++ float_bytes 1 ++ float_bytes 1.
Proof.
  set (q := mk_request _ _ _ _ _ _ _ _). set (m := (float_bytes 1 ++ float_bytes 2 ++ float_bytes 3 ++ float_bytes 0)).
  assert (E : request_call 4096 q = Ok (jobs_of 4096 q)) by (destruct A; reflexivity).
  pose proof (run_once 4096 q m _ E (jobs_in_order _)) as R. set (r := arena_run _ _ _) in R.
  exists (match r with Ok m => m | _ => [] end).
  assert (O : r = Ok (match r with Ok m => m | _ => [] end)) by (clear; destruct A; vm_compute; reflexivity).
  rewrite <- O. split; [exact R|]. clear. destruct A; vm_compute; reflexivity.
Qed.
