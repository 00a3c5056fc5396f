(** NoAbort.v -- no kernel iteration aborts: std::abort is reached only from argument checks. *)
From Coq Require Import ZArith List Lia Bool Arith.
From Verif Require Import Base Floats Simd Dtypes QuantKernels DequantKernels ExecFacts Context.
Import ListNotations.

Definition na {T} (r : res T) : Prop := r <> Abort.
Lemma na_ok {T} (x : T) : na (Ok x). Proof. discriminate. Qed.
Lemma na_ub {T} : na (@UB T). Proof. discriminate. Qed.
Lemma na_bind {T U} (r : res T) (f : T -> res U) : na r -> (forall x, na (f x)) -> na (bind r f).
Proof. destruct r; cbn; intros H1 H2; [apply H2|contradiction H1; reflexivity|discriminate]. Qed.
Lemma na_i32 z : na (i32 z). Proof. unfold i32. destruct (in_i32 z); discriminate. Qed.
Lemma na_i64 z : na (i64 z). Proof. unfold i64. destruct (in_i64 z); discriminate. Qed.
Lemma na_f32_to_i32 x : na (f32_to_i32 x). Proof. unfold f32_to_i32. destruct (f_to_Z x); [apply na_i32|discriminate]. Qed.
Lemma na_f32_to_i64 x : na (f32_to_i64 x). Proof. unfold f32_to_i64. destruct (f_to_Z x); [apply na_i64|discriminate]. Qed.
Ltac na := repeat first [ apply na_bind; [|intros ?] | apply na_ok | apply na_ub | apply na_i32 | apply na_i64 | apply na_f32_to_i32 | apply na_f32_to_i64 ].

Lemma na_q_nearest_i32 mx inv zp x : na (q_nearest_i32 mx inv zp x). Proof. unfold q_nearest_i32. na. Qed.
Lemma na_quant_step rm mx thr inv zp x : na (quant_step_scalar rm mx thr inv zp x).
Proof. unfold quant_step_scalar, q_stochastic, q_nearest_i64. destruct rm; na. Qed.
Lemma na_dq_i32 s zp q : na (dq_i32 s zp q). Proof. unfold dq_i32. na. Qed.
Lemma na_dq_i64 s zp q : na (dq_i64 s zp q). Proof. unfold dq_i64. na. Qed.
Lemma na_dq_i64_bf16 s zp q : na (dq_i64_bf16 s zp q). Proof. unfold dq_i64_bf16. na. Qed.
Lemma na_dq_sub s zp q : na (dq_sub s zp q). Proof. unfold dq_sub. na. Qed.

Definition quiet (a : action) : Prop := forall b o, na (a_fn a b o).

Section Q.
Variables (d : dtype) (q : f32 -> res Z) (zq : res Z).
Hypothesis Hq : forall x, na (q x).
Hypothesis Hzq : na zq.
Lemma quiet_u8 i : quiet (act_u8 d q i). Proof. intros b o. cbn [a_fn act_u8]. na. apply Hq. Qed.
Lemma quiet_u4_pair i : quiet (act_u4_pair d q i). Proof. intros b o. cbn [a_fn act_u4_pair]. na; apply Hq. Qed.
Lemma quiet_u4_odd n i : quiet (act_u4_odd d q n i). Proof. intros b o. cbn [a_fn act_u4_odd]. na; apply Hq. Qed.
Lemma quiet_u2_quad i : quiet (act_u2_quad d q i). Proof. intros b o. cbn [a_fn act_u2_quad]. na; apply Hq. Qed.
Lemma quiet_u2_tail n i : quiet (act_u2_tail d q zq n i).
Proof.
  intros b o. unfold act_u2_tail, u2_tail_one. cbn [a_fn]. cbv zeta.
  apply na_bind; [destruct (Nat.leb 3 _); na; auto|]. intros p. apply na_bind; [destruct (Nat.leb 2 _); na; auto|]. intros p'. na; auto.
Qed.
End Q.
Lemma quiet_block d n ol o_of f i : quiet (act_block d n ol o_of f i). Proof. intros b o. apply na_ok. Qed.
Lemma quiet_stream oa al d n ol f i : quiet (act_block_stream oa al d n ol f i).
Proof. intros b o. cbn [a_fn act_block_stream]. destruct (_ =? 0)%Z; discriminate. Qed.

Lemma na_step_put step pt q o : (forall x, na (step x)) -> na (step_put step pt q o).
Proof. intros H. unfold step_put. na. apply H. Qed.
Lemma na_u2_elems e step pt p n : (forall x, na (step x)) -> forall k o, na (u2_elems e step pt p k n o).
Proof. intros H. induction n as [|n IH]; intros k o; cbn [u2_elems]; [apply na_ok|]. na; auto using na_step_put. Qed.
Section D.
Variables (e : nat) (step : Z -> res f32) (pt : f32 -> mem -> mem).
Hypothesis Hs : forall x, na (step x).
Lemma quiet_d_u8 i : quiet (dact_u8 e step pt i). Proof. intros b o. cbn [a_fn dact_u8]. apply na_step_put, Hs. Qed.
Lemma quiet_d_u4_pair i : quiet (dact_u4_pair e step pt i). Proof. intros b o. cbn [a_fn dact_u4_pair]. cbv zeta. na; apply Hs. Qed.
Lemma quiet_d_u4_odd n i : quiet (dact_u4_odd e step pt n i). Proof. intros b o. cbn [a_fn dact_u4_odd]. apply na_step_put, Hs. Qed.
Lemma quiet_d_u2 n i : quiet (dact_u2 e step pt n i). Proof. intros b o. cbn [a_fn dact_u2]. apply na_u2_elems, Hs. Qed.
End D.
Lemma quiet_d_block e il n io f i : quiet (dact_block e il n io f i). Proof. intros b o. apply na_ok. Qed.
Lemma quiet_ract d dq rm op s t zp i : quiet (ract d dq rm op s t zp i).
Proof. intros b o. cbn [a_fn ract]. unfold requant_elem. apply na_bind; [apply na_quant_step|]. intros q. destruct d; na; auto using na_dq_i64, na_dq_i64_bf16. Qed.

(** loops *)
Lemma loop_Forall (P : action -> Prop) fuel cond stride body : (forall i, P (body i)) -> forall i, Forall P (fst (loop fuel cond stride body i)).
Proof.
  intros H. induction fuel as [|f IH]; intros i; cbn [loop]; [constructor|]. destruct (cond i); [|constructor].
  specialize (IH (i + stride)). destruct (loop f cond stride body (i + stride)). constructor; auto.
Qed.
Lemma fold_loops_Forall (P : action -> Prop) numel ls : Forall (fun c => forall i, P (snd c i)) ls -> forall st, Forall P (fst st) ->
  Forall P (fst (fold_left (run_loop numel) ls st)).
Proof.
  induction 1 as [|[[c s] b] ls H HL IH]; intros [acts i] HS; auto. cbn [fold_left]. apply IH. unfold run_loop.
  pose proof (loop_Forall P numel c s b H i). destruct (loop numel c s b i). cbn [fst] in *. apply Forall_app. auto.
Qed.
Lemma seq_loops_Forall (P : action -> Prop) numel ls : Forall (fun c => forall i, P (snd c i)) ls -> Forall P (fst (seq_loops numel ls)).
Proof. intros H. apply fold_loops_Forall; auto. constructor. Qed.

Ltac qt := repeat first [ apply Forall_cons; [cbn [snd]; intros ?|] | apply Forall_nil ];
  auto using quiet_u8, quiet_u4_pair, quiet_u2_quad, quiet_block, quiet_stream, quiet_d_u8, quiet_d_u4_pair, quiet_d_u2, quiet_d_block, quiet_ract,
    na_q_nearest_i32, na_quant_step, na_dq_i32, na_dq_i64, na_dq_sub.

Lemma quant_generic_quiet A din dout rm oaddr n scale thr zp : Forall quiet (quant_generic A din dout rm oaddr n scale thr zp).
Proof.
  unfold quant_generic. cbv zeta.
  assert (GP : forall q, (forall x, na (q x)) -> Forall quiet (quant_plain din q n)) by (intros q Hq; apply seq_loops_Forall; qt).
  assert (G4 : forall q, (forall x, na (q x)) -> Forall quiet (quant_uint4 din q n)).
  { intros q Hq. unfold quant_uint4, u4_finish. apply Forall_app. split; [apply seq_loops_Forall; qt|]. destruct (Nat.odd n); [|constructor].
    constructor; [|constructor]. apply quiet_u4_odd; auto. }
  assert (G2 : forall q, (forall x, na (q x)) -> Forall quiet (quant_uint2 din q n)).
  { intros q Hq. unfold quant_uint2, u2_finish. apply Forall_app. split; [apply seq_loops_Forall; qt|]. destruct (Nat.eqb _ 0); [constructor|].
    constructor; [|constructor]. apply quiet_u2_tail; auto. apply na_ok. }
  assert (GQ : forall mx x, na (quant_step_scalar rm mx thr (fdiv f_one scale) zp x)) by (intros; apply na_quant_step).
  destruct din, dout, rm; auto.
  - unfold quant_f32_to_uint4_nearest, u4_finish. apply Forall_app. split; [apply seq_loops_Forall; destruct A; qt|]. destruct (Nat.odd n); [|constructor].
    constructor; [|constructor]. apply quiet_u4_odd; auto using na_q_nearest_i32.
  - apply seq_loops_Forall; destruct A; qt.
  - unfold quant_bf16_to_uint2_nearest, u2_finish. apply Forall_app. split; [apply seq_loops_Forall; destruct A; qt|]. destruct (Nat.eqb _ 0); [constructor|].
    constructor; [|constructor]. apply quiet_u2_tail; auto using na_q_nearest_i32.
  - unfold quant_bf16_to_uint4_nearest, u4_finish. apply Forall_app. split; [apply seq_loops_Forall; destruct A; qt|]. destruct (Nat.odd n); [|constructor].
    constructor; [|constructor]. apply quiet_u4_odd; auto using na_q_nearest_i32.
  - apply seq_loops_Forall; destruct A; qt.
Qed.

Lemma dequant_generic_quiet A din dout op n scale zp : Forall quiet (dequant_generic A din dout op n scale zp).
Proof.
  unfold dequant_generic. destruct din, dout; try constructor.
  - unfold dequant_uint2_f32. apply Forall_app. split; [apply seq_loops_Forall; qt|]. constructor; [|constructor]. apply quiet_d_u2. auto using na_dq_i64.
  - unfold dequant_uint2_to_bf16. apply Forall_app. split; [apply seq_loops_Forall; destruct A; qt|]. destruct (Nat.ltb _ _); [|constructor].
    constructor; [|constructor]. apply quiet_d_u2. auto using na_dq_sub.
  - unfold dequant_uint4_to_f32, du4_finish. apply Forall_app. split; [apply seq_loops_Forall; destruct A; qt|]. destruct (Nat.odd n); [|constructor].
    constructor; [|constructor]. apply quiet_d_u4_odd. auto using na_dq_i32.
  - unfold dequant_uint4_to_bf16, du4_finish. apply Forall_app. split; [apply seq_loops_Forall; destruct A; qt|]. destruct (Nat.odd n); [|constructor].
    constructor; [|constructor]. apply quiet_d_u4_odd. auto using na_dq_i32.
  - apply seq_loops_Forall; destruct A; qt.
  - apply seq_loops_Forall; destruct A; qt.
Qed.

Lemma requant_generic_quiet d dq rm op n s t zp : Forall quiet (requant_generic d dq rm op n s t zp).
Proof. apply seq_loops_Forall. qt. Qed.

Lemma call_kernel_quiet A k oaddr n d : Forall quiet (call_kernel A k oaddr n d).
Proof. destruct k; [apply quant_generic_quiet|apply dequant_generic_quiet|apply requant_generic_quiet]. Qed.

Lemma shift_quiet di do a : quiet a -> quiet (shift_action di do a).
Proof. intros H b o. apply H. Qed.

Lemma run_action_na inm a o : quiet a -> na (run_action inm a o).
Proof.
  intros H. unfold run_action. destruct (_ && _); [|discriminate]. apply na_bind; [apply H|]. intros x. destruct (Nat.eqb _ _); discriminate.
Qed.
Lemma run_trace_na inm tr : Forall quiet tr -> forall o, na (run_trace inm tr o).
Proof. induction 1; intros o; cbn [run_trace]; [apply na_ok|]. apply na_bind; auto using run_action_na. Qed.

Lemma interleave_Forall {T} (P : T -> Prop) jobs tr : interleave jobs tr -> Forall (Forall P) jobs -> Forall P tr.
Proof.
  induction 1 as [ls H|pre a l post tr H IH]; intros HF; [constructor|].
  apply Forall_app in HF. destruct HF as [H1 H2]. inversion H2 as [|? ? H3 H4]; subst. inversion H3; subst. constructor; auto.
  apply IH. apply Forall_app. split; auto.
Qed.

(** all jobs of a command are quiet *)
Lemma job_entry_quiet A oaddr d ti tc l : job_entry A oaddr d ti tc = Ok l -> Forall quiet l.
Proof.
  unfold job_entry. destruct (partition_row d ti tc) as [[[o n]|]| |]; cbn [bind]; try discriminate.
  - unfold quantize_dispatch. destruct (select_kernel d) as [k| |]; cbn [bind]; try discriminate. intros [= <-].
    apply Forall_map. eapply Forall_impl; [|apply call_kernel_quiet]. intros a. apply shift_quiet.
  - intros [= <-]. constructor.
Qed.
Lemma sequence_Ok_In {T} (l : list (res T)) r : sequence l = Ok r -> forall x, In x r -> In (Ok x) l.
Proof.
  revert r. induction l as [|[a| |] l IH]; cbn; intros r E x Hx; try discriminate.
  - injection E as <-. destruct Hx.
  - destruct (sequence l) as [r'| |]; cbn in E; try discriminate. injection E as <-. destruct Hx as [->|Hx]; [left; reflexivity|right; eapply IH; eauto].
Qed.
Lemma run_command_quiet A nt oaddr d thr jobs : run_command A nt oaddr d thr = Ok jobs -> Forall (Forall quiet) jobs.
Proof.
  intros H. apply Forall_forall. intros l Hl. pose proof (sequence_Ok_In _ _ H l Hl) as HI.
  apply in_map_iff in HI. destruct HI as (t & E & _). eapply job_entry_quiet; eauto.
Qed.
Lemma returns_na inm outm jobs r : Forall (Forall quiet) jobs -> returns inm outm (Ok jobs) r -> r <> Abort.
Proof. intros HF HR. inversion HR; subst. apply run_trace_na. eapply interleave_Forall; eauto. Qed.
