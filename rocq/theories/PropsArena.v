(** PropsArena.v -- C43: calls that run at the same time do not disturb each other; C44: a program of calls has one result. *)
From Coq Require Import ZArith List Lia Bool Arith Reals.
From Verif Require Import Base Floats Dtypes QuantKernels DequantKernels Context Spec ApiSpec ExecFacts Api PropsQuantize PropsMemory PropsDequantize PropsRoundTrip
  PropsDispatch Arena ArenaFacts.
Import ListNotations.

(** ** Reading the memory *)
Definition input_alloc (q : request) (m : mem) : mem := slice (q_in q) (q_isize q + q_extra q) m.
Definition input_of (q : request) (m : mem) : mem := slice (q_in q) (q_isize q) m.
Definition output_of (q : request) (m : mem) : mem := slice (q_out q) (q_osize q) m.
(** The layout a caller has to provide: all buffers lie in the memory, no output overlaps an input (its own included) or another output.  Inputs may overlap. *)
Definition separate (qs : list request) (m : mem) : Prop :=
  (forall q, In q qs -> q_in q + (q_isize q + q_extra q) <= length m /\ q_out q + q_osize q <= length m) /\
  (forall q q', In q qs -> In q' qs -> apart (q_out q) (q_osize q) (q_in q') (q_isize q' + q_extra q')) /\
  (forall j k q q', j <> k -> nth_error qs j = Some q -> nth_error qs k = Some q' -> apart (q_out q) (q_osize q) (q_out q') (q_osize q')).
(** Byte [j] belongs to no output. *)
Definition outside (qs : list request) (j : nat) : Prop := forall q, In q qs -> j < q_out q \/ q_out q + q_osize q <= j.
(** The call alone, on what its buffers hold in [m]. *)
Definition alone (base : Z) (q : request) (m : mem) (r : res mem) : Prop := returns (input_alloc q m) (output_of q m) (request_call base q) r.

Lemma sequence_nth {A} (l : list (res A)) : forall xs, sequence l = Ok xs -> length xs = length l /\ forall k x, nth_error l k = Some x <-> exists y, nth_error xs k = Some y /\ x = Ok y.
Proof.
  induction l as [|r l IH]; intros xs H; cbn [sequence] in H.
  - injection H as <-. split; auto. intros k x. destruct k; cbn; split; intros H; try discriminate; destruct H as (y & H & _); discriminate.
  - destruct r as [a| |]; cbn [bind] in H; try discriminate. destruct (sequence l) as [ys| |]; cbn [bind] in H; try discriminate. injection H as <-.
    destruct (IH ys eq_refl) as [L E]. split; [cbn; lia|]. intros [|k] x; cbn [nth_error]; [|apply E]. split.
    + intros H. injection H as <-. eauto.
    + intros (y & H & ->). injection H as <-. reflexivity.
Qed.
Lemma launches base qs Ls : sequence (map (request_launch base) qs) = Ok Ls ->
  length Ls = length qs /\ forall k q, nth_error qs k = Some q ->
    exists jobs, request_call base q = Ok jobs /\ nth_error Ls k = Some (mk_launch (q_in q) (q_isize q + q_extra q) (q_out q) (q_osize q) jobs).
Proof.
  intros H. apply sequence_nth in H. destruct H as [L E]. rewrite map_length in L. split; auto. intros k q Hq.
  assert (N : nth_error (map (request_launch base) qs) k = Some (request_launch base q)) by (rewrite nth_error_map, Hq; reflexivity).
  apply E in N. destruct N as (y & N & Y). unfold request_launch in Y. destruct (request_call base q) as [jobs| |]; cbn [bind] in Y; try discriminate.
  injection Y as <-. eauto.
Qed.
Lemma launch_back base qs Ls k L : sequence (map (request_launch base) qs) = Ok Ls -> nth_error Ls k = Some L ->
  exists q jobs, nth_error qs k = Some q /\ request_call base q = Ok jobs /\ L = mk_launch (q_in q) (q_isize q + q_extra q) (q_out q) (q_osize q) jobs.
Proof.
  intros H HL. destruct (launches _ _ _ H) as [E N]. destruct (nth_error qs k) as [q|] eqn:Q.
  - destruct (N k q Q) as (jobs & C & NL). exists q, jobs. split; auto. split; auto. congruence.
  - apply nth_error_None in Q. assert (k < length Ls) by (apply nth_error_Some; congruence). lia.
Qed.
Lemma layout base qs m Ls : separate qs m -> sequence (map (request_launch base) qs) = Ok Ls -> Forall (placed (length m)) Ls /\ isolated Ls.
Proof.
  intros (S1 & S2 & S3) H. split.
  - apply Forall_forall. intros L HL. apply In_nth_error in HL. destruct HL as [k HL]. destruct (launch_back _ _ _ _ _ H HL) as (q & jobs & Q & _ & ->).
    apply nth_error_In in Q. apply S1 in Q. exact Q.
  - split.
    + intros j k L L' HL HL'. destruct (launch_back _ _ _ _ _ H HL) as (q & jobs & Q & _ & ->). destruct (launch_back _ _ _ _ _ H HL') as (q' & jobs' & Q' & _ & ->).
      cbn. apply S2; eapply nth_error_In; eauto.
    + intros j k L L' N HL HL'. destruct (launch_back _ _ _ _ _ H HL) as (q & jobs & Q & _ & ->). destruct (launch_back _ _ _ _ _ H HL') as (q' & jobs' & Q' & _ & ->).
      cbn. eapply S3; eauto.
Qed.

(** ** C43.  Whatever the interleaving of all worker threads: if the requests complete, every output holds what its call alone would have produced from
    the memory at the start, and all other bytes are unchanged; if something goes wrong, then it is a request that goes wrong alone. *)
Theorem C43_isolation base qs m r : separate qs m -> concurrently base qs m r ->
  match r with
  | Ok m' => length m' = length m /\ (forall q, In q qs -> alone base q m (Ok (output_of q m'))) /\
             (forall j, outside qs j -> nth j m' 0%Z = nth j m 0%Z)
  | Abort => exists q, In q qs /\ alone base q m Abort
  | UB => exists q, In q qs /\ alone base q m UB
  end.
Proof.
  intros HS HC. unfold concurrently in HC. destruct (sequence (map (request_launch base) qs)) as [Ls| |] eqn:E.
  - destruct (layout _ _ _ _ HS E) as [HP HI]. pose proof (together_project Ls m r HP HI HC) as T. destruct r as [m'| |].
    + destruct T as (T1 & T2 & T3). split; auto. split.
      * intros q Hq. apply In_nth_error in Hq. destruct Hq as [k Hq]. destruct (launches _ _ _ E) as [_ N]. destruct (N k q Hq) as (jobs & C & NL).
        specialize (T2 _ _ NL). unfold alone. rewrite C. exact T2.
      * intros j Hj. apply T3. intros L HL. apply In_nth_error in HL. destruct HL as [k HL]. destruct (launch_back _ _ _ _ _ E HL) as (q & jobs & Q & _ & ->).
        apply (Hj q). eapply nth_error_In; eauto.
    + destruct T as (k & L & HL & T). destruct (launch_back _ _ _ _ _ E HL) as (q & jobs & Q & C & ->). exists q. split; [eapply nth_error_In; eauto|].
      unfold alone. rewrite C. exact T.
    + destruct T as (k & L & HL & T). destruct (launch_back _ _ _ _ _ E HL) as (q & jobs & Q & C & ->). exists q. split; [eapply nth_error_In; eauto|].
      unfold alone. rewrite C. exact T.
  - subst r. clear HS. induction qs as [|q qs IH]; cbn [map sequence] in E; [discriminate|]. unfold request_launch at 1 in E.
    destruct (request_call base q) as [jobs| |] eqn:C; cbn [bind] in E; [|exists q; split; [left; auto|unfold alone; rewrite C; constructor]|discriminate].
    destruct (sequence (map (request_launch base) qs)); cbn [bind] in E; try discriminate. destruct (IH eq_refl) as (q' & I & R). exists q'. split; [right|]; auto.
  - subst r. clear HS. induction qs as [|q qs IH]; cbn [map sequence] in E; [discriminate|]. unfold request_launch at 1 in E.
    destruct (request_call base q) as [jobs| |] eqn:C; cbn [bind] in E; [|discriminate|exists q; split; [left; auto|unfold alone; rewrite C; constructor]].
    destruct (sequence (map (request_launch base) qs)); cbn [bind] in E; try discriminate. destruct (IH eq_refl) as (q' & I & R). exists q'. split; [right|]; auto.
Qed.

(** Requests that succeed alone succeed together. *)
Theorem C43_concurrent_calls base qs m r : separate qs m ->
  (forall q r', In q qs -> alone base q m r' -> exists o, r' = Ok o) ->
  concurrently base qs m r ->
  exists m', r = Ok m' /\ length m' = length m /\ (forall q, In q qs -> alone base q m (Ok (output_of q m'))) /\
    (forall j, outside qs j -> nth j m' 0%Z = nth j m 0%Z).
Proof.
  intros HS HA HC. pose proof (C43_isolation base qs m r HS HC) as T. destruct r as [m'| |].
  - destruct T as (T1 & T2 & T3). eauto.
  - destruct T as (q & I & R). destruct (HA _ _ I R). discriminate.
  - destruct T as (q & I & R). destruct (HA _ _ I R). discriminate.
Qed.

(** *** The documented results, together.  What a request needs from the memory it starts on, and what it leaves there. *)
Definition request_ok (q : request) (m : mem) : Prop :=
  match q_cmd q with
  | Do_quantize din dout scale zp rm thr =>
      q_extra q = 0 /\ buffers_ok (q_threads q) din dout (input_of q m) (output_of q m) /\ good_scale scale /\
      (rm = RM_STOCHASTIC -> threshold thr /\ (Z.abs zp <= 2 ^ 62)%Z) /\ (rm = RM_NEAREST -> (Z.abs zp <= 2 ^ 22)%Z) /\
      forall i, i < numel din (q_isize q) -> input_ok (q_arch q) rm scale zp thr (elem_at din (input_of q m) i)
  | Do_dequantize din dout scale zp op =>
      dout = DT_F32 /\ op = RO_SET /\ q_extra q > 0 /\ dq_buffers (q_threads q) din DT_F32 (input_alloc q m) (q_isize q) (output_of q m) /\ (Z.abs zp <= 2 ^ 30)%Z
  | Do_fused dt dq scale zp rm op thr =>
      dt = DT_F32 /\ q_extra q = 0 /\ quant_type dq /\ q_isize q = q_osize q /\ sizes_ok (q_osize q) (numel DT_F32 (q_osize q)) (q_threads q) /\ good_scale scale /\
      (Z.abs zp <= 2 ^ 62)%Z /\ (rm = RM_STOCHASTIC -> threshold thr) /\ forall i, i < numel DT_F32 (q_osize q) -> quantizable scale (f32_at (input_of q m) i)
  end.
Definition request_done (q : request) (m m' : mem) : Prop :=
  match q_cmd q with
  | Do_quantize din dout scale zp rm thr =>
      forall i, i < numel din (q_isize q) -> code_at dout (output_of q m') i = expected_code rm dout scale zp thr (elem_at din (input_of q m) i)
  | Do_dequantize din dout scale zp op =>
      forall i, i < numel DT_F32 (q_osize q) -> f32_at (output_of q m') i = fmul (f32_of_Z (code_at din (input_alloc q m) i - zp)) scale
  | Do_fused dt dq scale zp rm op thr =>
      forall i, i < numel DT_F32 (q_osize q) ->
        let v := fmul (f32_of_Z (expected_code rm dq scale zp thr (f32_at (input_of q m) i) - zp)) scale in
        slice (4 * i) 4 (output_of q m') = le_bytes 4 (bits_of_f32 (match op with RO_SET => v | RO_ADD => fadd (f32_at (output_of q m) i) v end))
  end.
Lemma request_alone base q m r : q_in q + (q_isize q + q_extra q) <= length m -> q_out q + q_osize q <= length m -> request_ok q m -> alone base q m r ->
  exists o, r = Ok o /\ forall m', output_of q m' = o -> request_done q m m'.
Proof.
  intros P1 P2 HO HA. unfold alone, request_call, request_ok, request_done in *.
  assert (LO : length (output_of q m) = q_osize q) by (apply slice_length; auto).
  assert (LI : length (input_of q m) = q_isize q) by (apply slice_length; lia).
  destruct (q_cmd q) as [din dout scale zp rm thr|din dout scale zp op|dt dq scale zp rm op thr].
  - destruct HO as (HX & HB & Hsc & H1 & H2 & HI).
    assert (EA : input_alloc q m = input_of q m) by (unfold input_alloc, input_of; rewrite HX, Nat.add_0_r; reflexivity). rewrite EA in HA.
    rewrite <- LI, <- LO in HA. rewrite <- LI in HI.
    destruct (quantize_codes _ _ _ _ _ _ _ _ _ _ _ _ HB Hsc H1 H2 HI HA) as (o & -> & _ & _ & C). exists o. split; auto. intros m' E i Hi. rewrite E. apply C. rewrite LI. auto.
  - destruct HO as (-> & -> & HX & HB & Hz). rewrite <- LO in HA.
    destruct (C07_dequantize_set_f32 _ _ _ _ _ _ _ _ _ _ HB Hz HA) as (o & -> & _ & C & _). exists o. split; auto. intros m' E i Hi. rewrite E. apply C. rewrite LO. auto.
  - destruct HO as (-> & HX & Hq & HL & HS & Hsc & Hz & Ht & HI).
    assert (EA : input_alloc q m = input_of q m) by (unfold input_alloc, input_of; rewrite HX, Nat.add_0_r; reflexivity). rewrite EA in HA.
    rewrite <- LI, <- LO in HA.
    destruct (C28_fused_f32 (q_arch q) (q_threads q) (base + Z.of_nat (q_out q))%Z dq scale zp rm op thr (input_of q m) (output_of q m) r Hq) as (o & -> & _ & C & _); auto; try congruence;
      try (rewrite LO; auto); try exact HA.
    exists o. split; auto. intros m' E i Hi. rewrite E. apply C. rewrite LO. auto.
Qed.
Theorem C43_documented_results base qs m r : separate qs m -> (forall q, In q qs -> request_ok q m) -> concurrently base qs m r ->
  exists m', r = Ok m' /\ length m' = length m /\ (forall q, In q qs -> request_done q m m') /\ (forall j, outside qs j -> nth j m' 0%Z = nth j m 0%Z).
Proof.
  intros HS HO HC. pose proof HS as (S1 & _).
  destruct (C43_concurrent_calls base qs m r HS) as (m' & -> & L & D & F); auto.
  - intros q r' Hq HA. destruct (S1 q Hq) as [P1 P2]. destruct (request_alone base q m r' P1 P2 (HO q Hq) HA) as (o & -> & _). eauto.
  - exists m'. split; auto. split; auto. split; auto. intros q Hq. destruct (S1 q Hq) as [P1 P2].
    destruct (request_alone base q m _ P1 P2 (HO q Hq) (D q Hq)) as (o & E & R). injection E as E. apply R. exact E.
Qed.

(** ** C44.  Sizes below the limits of C25; nothing else is assumed of the requests (data, scales and zero points are arbitrary, and calls may be invalid). *)
Definition sane (q : request) : Prop :=
  match q_cmd q with
  | Do_quantize din _ _ _ _ _ => sizes_ok (q_isize q) (numel din (q_isize q)) (q_threads q)
  | Do_dequantize _ dout _ _ _ => sizes_ok (q_osize q) (numel dout (q_osize q)) (q_threads q)
  | Do_fused dt _ _ _ _ _ _ => sizes_ok (q_isize q) (numel dt (q_isize q)) (q_threads q)
  end.
Lemma alone_unique base q m r1 r2 : sane q -> alone base q m r1 -> alone base q m r2 -> r1 = r2.
Proof.
  unfold alone, sane, request_call. destruct (q_cmd q) as [din dout scale zp rm thr|din dout scale zp op|dt dq scale zp rm op thr]; intros HS H1 H2.
  - destruct (C25_quantize (q_arch q) (q_threads q) (base + Z.of_nat (q_out q)) (q_isize q) din (q_osize q) dout scale zp rm thr HS) as [V _].
    destruct (fp_dec din) as [Hf|Hf]; [destruct (q_dec dout) as [Hq|Hq]; [destruct (Nat.eq_dec (q_osize q) (bytes_for dout (numel din (q_isize q)))) as [E|E]|]|];
      try (rewrite V in H1, H2 by (unfold quantize_args_ok; tauto); inversion H1; inversion H2; reflexivity).
    eapply C04_schedule; eauto.
  - destruct (C25_dequantize (q_arch q) (q_threads q) (base + Z.of_nat (q_out q)) (q_isize q) din (q_osize q) dout scale zp op HS) as [V _].
    destruct (q_dec din) as [Hf|Hf]; [destruct (fp_dec dout) as [Hq|Hq]; [destruct (Nat.eq_dec (q_isize q) (bytes_for din (numel dout (q_osize q)))) as [E|E]|]|];
      try (rewrite V in H1, H2 by (unfold dequantize_args_ok; tauto); inversion H1; inversion H2; reflexivity).
    eapply C04_schedule_dequantize; eauto.
  - destruct (C25_fused (q_arch q) (q_threads q) (base + Z.of_nat (q_out q)) (q_isize q) dt (q_osize q) dq scale zp rm op thr HS) as [V _].
    destruct (fp_dec dt) as [Hf|Hf]; [destruct (q_dec dq) as [Hq|Hq]; [destruct (Nat.eq_dec (q_isize q) (q_osize q)) as [E|E]|]|];
      try (rewrite V in H1, H2 by (unfold fused_args_ok; tauto); inversion H1; inversion H2; reflexivity).
    rewrite <- E in H1, H2. eapply C04_schedule_fused; eauto.
Qed.
(** An accepted call never aborts, so the only other failure is undefined behaviour. *)
Lemma accepted_no_abort base q m jobs : sane q -> request_call base q = Ok jobs -> ~ alone base q m Abort.
Proof.
  unfold alone, sane. intros HS EC H. revert HS EC H. unfold request_call. destruct (q_cmd q) as [din dout scale zp rm thr|din dout scale zp op|dt dq scale zp rm op thr]; intros HS EC H.
  - destruct (C25_quantize (q_arch q) (q_threads q) (base + Z.of_nat (q_out q)) (q_isize q) din (q_osize q) dout scale zp rm thr HS) as [V1 V2].
    destruct (fp_dec din) as [Hf|Hf]; [destruct (q_dec dout) as [Hq|Hq]; [destruct (Nat.eq_dec (q_osize q) (bytes_for dout (numel din (q_isize q)))) as [E|E]|]|];
      try (rewrite V1 in EC by (unfold quantize_args_ok; tauto); discriminate). destruct V2 as [_ V2]; [split; auto|]. eapply V2; eauto.
  - destruct (C25_dequantize (q_arch q) (q_threads q) (base + Z.of_nat (q_out q)) (q_isize q) din (q_osize q) dout scale zp op HS) as [V1 V2].
    destruct (q_dec din) as [Hf|Hf]; [destruct (fp_dec dout) as [Hq|Hq]; [destruct (Nat.eq_dec (q_isize q) (bytes_for din (numel dout (q_osize q)))) as [E|E]|]|];
      try (rewrite V1 in EC by (unfold dequantize_args_ok; tauto); discriminate). destruct V2 as [_ V2]; [split; auto|]. eapply V2; eauto.
  - destruct (C25_fused (q_arch q) (q_threads q) (base + Z.of_nat (q_out q)) (q_isize q) dt (q_osize q) dq scale zp rm op thr HS) as [V1 V2].
    destruct (fp_dec dt) as [Hf|Hf]; [destruct (q_dec dq) as [Hq|Hq]; [destruct (Nat.eq_dec (q_isize q) (q_osize q)) as [E|E]|]|];
      try (rewrite V1 in EC by (unfold fused_args_ok; tauto); discriminate). destruct V2 as [_ V2]; [split; auto|]. eapply V2; eauto.
Qed.
Lemma covered_or_outside (qs : list request) j : (exists q, In q qs /\ q_out q <= j < q_out q + q_osize q) \/ outside qs j.
Proof.
  induction qs as [|q qs IH]; [right; intros q []|]. destruct IH as [(q' & I & H)|H]; [left; exists q'; split; [right|]; auto|].
  destruct (le_lt_dec (q_out q) j); [destruct (le_lt_dec (q_out q + q_osize q) j)|].
  - right. intros q' [<-|I]; auto.
  - left. exists q. split; [left|]; auto.
  - right. intros q' [<-|I]; auto.
Qed.
Theorem C44_one_result base qs m r1 r2 : separate qs m -> (forall q, In q qs -> sane q) ->
  concurrently base qs m r1 -> concurrently base qs m r2 -> r1 = r2.
Proof.
  intros HS HN H1 H2. pose proof (C43_isolation base qs m r1 HS H1) as T1. pose proof (C43_isolation base qs m r2 HS H2) as T2.
  assert (OKF : forall mm q r, (forall q, In q qs -> alone base q m (Ok (output_of q mm))) -> In q qs -> alone base q m r -> (forall o, r <> Ok o) -> False).
  { intros mm q r D I R N. specialize (D q I). rewrite (alone_unique base q m r _ (HN q I) R D) in N. eapply N; reflexivity. }
  assert (AB : r1 = Abort \/ r2 = Abort -> r1 = r2).
  { unfold concurrently in H1, H2. destruct (sequence (map (request_launch base) qs)) as [Ls| |] eqn:E; try congruence.
    intros H. exfalso. assert (T : exists q, In q qs /\ alone base q m Abort) by (destruct H as [->| ->]; auto). destruct T as (q & I & R).
    apply In_nth_error in I. destruct I as [k I]. destruct (launches _ _ _ E) as [_ N]. destruct (N k q I) as (jobs & C & _).
    eapply accepted_no_abort; eauto. apply HN. eapply nth_error_In; eauto. }
  destruct r1 as [m1| |], r2 as [m2| |]; try (apply AB; auto; fail); auto.
  - destruct T1 as (L1 & D1 & F1), T2 as (L2 & D2 & F2). f_equal. apply list_ext; [congruence|]. intros j Hj.
    destruct (covered_or_outside qs j) as [(q & I & B)|O]; [|rewrite F1, F2; auto].
    pose proof (alone_unique base q m _ _ (HN q I) (D1 q I) (D2 q I)) as E. injection E as E. unfold output_of in E.
    assert (X : nth (j - q_out q) (slice (q_out q) (q_osize q) m1) 0%Z = nth (j - q_out q) (slice (q_out q) (q_osize q) m2) 0%Z) by (rewrite E; reflexivity).
    rewrite !nth_slice in X by lia. replace (q_out q + (j - q_out q)) with j in X by lia. exact X.
  - destruct T1 as (L1 & D1 & F1), T2 as (q & I & R). exfalso. eapply OKF; eauto. discriminate.
  - destruct T2 as (L1 & D1 & F1), T1 as (q & I & R). exfalso. eapply OKF; eauto. discriminate.
Qed.
(** A program of rounds: the final memory (or the failure) is a function of the initial memory and the program. *)
Theorem C44_program base p m r1 r2 : (forall qs, In qs p -> forall m', length m' = length m -> separate qs m') -> (forall qs q, In qs p -> In q qs -> sane q) ->
  program_runs base p m r1 -> program_runs base p m r2 -> r1 = r2.
Proof.
  intros HS HN H1. revert r2 HS HN. induction H1 as [m|qs rest m m' r C P IH|qs rest m r C N]; intros r2 HS HN H2; inversion H2; subst; auto.
  - assert (E : Ok m' = Ok m'0) by (eapply C44_one_result; eauto; [apply HS|]; cbn; auto; intros; eapply HN; eauto; left; auto). injection E as <-.
    pose proof (C43_isolation base qs m (Ok m') (HS qs (or_introl eq_refl) m eq_refl) C) as (L & _).
    apply IH; auto.
    + intros qs' I mm Lm. apply HS; [right; auto|congruence].
    + intros qs' q' I I'. eapply HN; eauto. right. auto.
  - exfalso. assert (E : Ok m' = r2) by (eapply C44_one_result; eauto; [apply HS|]; cbn; auto; intros; eapply HN; eauto; left; auto). eapply H5; eauto.
  - exfalso. assert (E : r = Ok m') by (eapply C44_one_result; eauto; [apply HS|]; cbn; auto; intros; eapply HN; eauto; left; auto). eapply N; eauto.
  - eapply C44_one_result; eauto; [apply HS|]; cbn; auto. intros; eapply HN; eauto; left; auto.
Qed.

(** A pipeline in one memory: quantize into a buffer, then dequantize from it (possibly with other parameters, on another context), each with any
    thread count and schedule. *)
Lemma code_at_prefix d (m : mem) off n k i : quant_type d -> off + (n + k) <= length m -> i < n * codes_per_byte d ->
  code_at d (slice off (n + k) m) i = code_at d (slice off n m) i.
Proof.
  intros Hq HL Hi. replace (slice off (n + k) m) with (slice off n m ++ slice (off + n) k m).
  - apply code_at_app; auto. rewrite slice_length by lia. lia.
  - assert (L1 : length (slice off n m) = n) by (apply slice_length; lia). assert (L2 : length (slice (off + n) k m) = k) by (apply slice_length; lia).
    apply list_ext; rewrite app_length, L1, L2; [rewrite slice_length by lia; auto|]. intros j Hj. rewrite (nth_slice off (n + k)) by lia.
    destruct (le_lt_dec n j).
    + rewrite app_nth2 by lia. rewrite L1, nth_slice by lia. f_equal. lia.
    + rewrite app_nth1 by lia. apply nth_slice. lia.
Qed.

Theorem C44_quantize_then_dequantize base q1 q2 din dq scale zp rm thr scale2 zp2 m r :
  q_cmd q1 = Do_quantize din dq scale zp rm thr -> q_cmd q2 = Do_dequantize dq DT_F32 scale2 zp2 RO_SET ->
  q_in q2 = q_out q1 -> q_isize q2 = q_osize q1 -> q_extra q2 > 0 -> q_osize q2 = 4 * numel din (q_isize q1) ->
  Forall is_byte m -> separate [q1] m -> separate [q2] m -> request_ok q1 m ->
  sizes_ok (q_osize q2) (numel din (q_isize q1)) (q_threads q2) -> (Z.abs zp2 <= 2 ^ 30)%Z ->
  program_runs base [[q1]; [q2]] m r ->
  exists m', r = Ok m' /\ length m' = length m /\
    (forall i, i < numel din (q_isize q1) ->
       f32_at (output_of q2 m') i = fmul (f32_of_Z (expected_code rm dq scale zp thr (elem_at din (input_of q1 m) i) - zp2)) scale2) /\
    (forall j, outside [q1; q2] j -> nth j m' 0%Z = nth j m 0%Z).
Proof.
  intros C1 C2 Ein Esz Hx Eo HB HS1 HS2 HO1 Hsz Hz HP. set (n := numel din (q_isize q1)) in *.
  assert (ON : forall q, In q [q1] -> q = q1) by (intros q [<-|[]]; auto). assert (ON2 : forall q, In q [q2] -> q = q2) by (intros q [<-|[]]; auto).
  assert (R1 : forall r1, concurrently base [q1] m r1 -> exists m1, r1 = Ok m1 /\ length m1 = length m /\ request_done q1 m m1 /\ alone base q1 m (Ok (output_of q1 m1)) /\
     (forall j, outside [q1] j -> nth j m1 0%Z = nth j m 0%Z)).
  { intros r1 H. destruct (C43_documented_results base [q1] m r1 HS1) as (m1 & -> & L & D & F); auto; [intros q Hq; apply ON in Hq; subst; auto|].
    exists m1. pose proof (C43_isolation base [q1] m (Ok m1) HS1 H) as (_ & I & _).
    repeat split; auto; [apply D|apply I]; left; auto. }
  destruct (proj1 HS1 q1 (or_introl eq_refl)) as [P1 P2]. destruct (proj1 HS2 q2 (or_introl eq_refl)) as [P3 P4].
  assert (R2 : forall m1 r2, length m1 = length m -> request_done q1 m m1 -> alone base q1 m (Ok (output_of q1 m1)) -> (forall j, outside [q1] j -> nth j m1 0%Z = nth j m 0%Z) ->
     concurrently base [q2] m1 r2 -> exists m', r2 = Ok m' /\ length m' = length m /\ 
       (forall i, i < n -> f32_at (output_of q2 m') i = fmul (f32_of_Z (expected_code rm dq scale zp thr (elem_at din (input_of q1 m) i) - zp2)) scale2) /\
       (forall j, outside [q2] j -> nth j m' 0%Z = nth j m1 0%Z)).
  { intros m1 r2 L1 D1 A1 F1 H2. unfold request_ok in HO1. rewrite C1 in HO1. destruct HO1 as (Hx1 & HB1 & Hsc & H1 & H1' & HI1).
    assert (LO1 : length (output_of q1 m) = q_osize q1) by (apply slice_length; auto). assert (LI1 : length (input_of q1 m) = q_isize q1) by (apply slice_length; lia).
    pose proof HB1 as (Hfp & Hq & Hb1 & Hl1 & HS1'). rewrite LI1, LO1 in Hl1. fold n in Hl1.
    assert (BY : Forall is_byte m1).
    { apply Forall_forall. intros x Hxx. apply In_nth with (d := 0%Z) in Hxx. destruct Hxx as (j & Hj & <-).
      destruct (covered_or_outside [q1] j) as [(q & I & B)|O].
      - apply ON in I. subst q. unfold alone, request_call in A1. rewrite C1 in A1.
        assert (EA : input_alloc q1 m = input_of q1 m) by (unfold input_alloc, input_of; rewrite Hx1, Nat.add_0_r; reflexivity). rewrite EA in A1.
        rewrite <- LI1, <- LO1 in A1. rewrite <- LI1 in HI1.
        destruct (quantize_codes _ _ _ _ _ _ _ _ _ _ _ _ HB1 Hsc H1 H1' HI1 A1) as (o & Eo' & Lo & BB & _). injection Eo' as <-.
        assert (N : nth j m1 0%Z = nth (j - q_out q1) (output_of q1 m1) 0%Z) by (unfold output_of; rewrite nth_slice by lia; f_equal; lia).
        rewrite N. rewrite Forall_forall in BB. apply BB. apply nth_In. rewrite Lo. lia.
      - rewrite F1 by auto. rewrite Forall_forall in HB. apply HB. apply nth_In. lia. }
    assert (HS2' : separate [q2] m1) by (unfold separate in *; rewrite L1; exact HS2).
    assert (Lo2 : length (output_of q2 m1) = q_osize q2) by (apply slice_length; lia). assert (Li2 : length (input_alloc q2 m1) = q_isize q2 + q_extra q2) by (apply slice_length; lia).
    assert (Hn2 : numel DT_F32 (q_osize q2) = n) by (rewrite Eo; unfold numel at 1; cbn [stride]; rewrite Nat.mul_comm, Nat.div_mul; auto; lia).
    assert (HO2 : request_ok q2 m1).
    { unfold request_ok. rewrite C2. split; auto. split; auto. split; auto. split; auto. unfold dq_buffers. rewrite Lo2, Li2, Hn2. split; auto. split; [left; auto|].
      split; [|split; [congruence|split; [lia|split; [auto|lia]]]].
      apply Forall_forall. intros x Hxx. apply In_nth with (d := 0%Z) in Hxx. destruct Hxx as (j & Hj & <-). rewrite Li2 in Hj. unfold input_alloc. rewrite nth_slice by lia.
      rewrite Forall_forall in BY. apply BY. apply nth_In. lia. }
    destruct (C43_documented_results base [q2] m1 r2 HS2') as (m' & -> & L & D & F); auto; [intros q Hq'; apply ON2 in Hq'; subst; auto|].
    exists m'. split; auto. split; [congruence|]. split; auto. intros i Hi. specialize (D q2 (or_introl eq_refl)). unfold request_done in D, D1. rewrite C2 in D. rewrite C1 in D1. fold n in D1.
    rewrite D by (rewrite Hn2; auto). f_equal. f_equal. f_equal. rewrite <- D1 by auto. unfold input_alloc, output_of. rewrite Ein, Esz. apply code_at_prefix; auto.
    - rewrite <- Esz. lia.
    - rewrite Hl1. clear -Hq Hi. unfold bytes_for. destruct Hq as [->|[->| ->]]; unfold codes_per_byte; cbn [bit_size].
      + change (8 / 2) with 4. pose proof (Nat.div_mod (n * 2 + 7) 8 ltac:(lia)). pose proof (Nat.mod_upper_bound (n * 2 + 7) 8 ltac:(lia)). lia.
      + change (8 / 4) with 2. pose proof (Nat.div_mod (n * 4 + 7) 8 ltac:(lia)). pose proof (Nat.mod_upper_bound (n * 4 + 7) 8 ltac:(lia)). lia.
      + change (8 / 8) with 1. pose proof (Nat.div_mod (n * 8 + 7) 8 ltac:(lia)). pose proof (Nat.mod_upper_bound (n * 8 + 7) 8 ltac:(lia)). lia. }
  inversion HP as [|? ? ? m1 ? CC PP|? ? ? ? CC NN]; subst.
  - destruct (R1 _ CC) as (mm & E & L1 & D1 & A1 & F1). injection E as <-. inversion PP as [|? ? ? m2 ? CC2 PP2|? ? ? ? CC2 NN2]; subst.
    + destruct (R2 m1 _ L1 D1 A1 F1 CC2) as (m' & E & L & V & F). injection E as <-. inversion PP2; subst. exists m2. split; auto. split; auto. split; auto.
      intros j Hj. rewrite F, F1; auto; intros q Hq; apply Hj; [left|right; left]; destruct Hq as [<-|[]]; auto.
    + destruct (R2 m1 _ L1 D1 A1 F1 CC2) as (m' & -> & _). destruct (NN2 m' eq_refl).
  - destruct (R1 _ CC) as (mm & -> & _). destruct (NN mm eq_refl).
Qed.
