(** Schedule.v -- the order in which disjoint actions run does not matter, whatever the data (including data for which
    some step is undefined); footprints of whole calls. *)
From Coq Require Import ZArith List Lia Bool Arith ZifyBool ZifyNat Permutation.
From Coq Require Import Reals Lra.
From Flocq Require Import Core.
From Verif Require Import Base Floats Simd Dtypes Spec ApiSpec QuantKernels DequantKernels ExecFacts FloatFacts QuantFacts QuantKernelFacts
  QuantGenericFacts DequantFacts DequantGenericFacts QuantLanes Context ContextFacts Footprint QuantizeFacts DequantizeFacts Api PropsQuantize.
Import ListNotations.

Ltac Zify.zify_post_hook ::= Z.div_mod_to_equations.

(** ** Commutation *)
Definition no_abort (a : action) : Prop := forall x y, a_fn a x y <> Abort.

Lemma run_action_cases inm a o : no_abort a ->
  run_action inm a o = UB \/
  exists r, run_action inm a o = Ok (splice (a_ooff a) r o) /\ length r = a_olen a /\ a_ioff a + a_ilen a <= length inm /\
    a_ooff a + a_olen a <= length o /\ a_fn a (slice (a_ioff a) (a_ilen a) inm) (slice (a_ooff a) (a_olen a) o) = Ok r.
Proof.
  intros HN. unfold run_action, in_bounds.
  destruct (Nat.leb_spec (a_ioff a + a_ilen a) (length inm)) as [H1|H1]; [|left; reflexivity].
  destruct (Nat.leb_spec (a_ooff a + a_olen a) (length o)) as [H2|H2]; [|left; reflexivity]. cbn [andb].
  destruct (a_fn a _ _) as [r| |] eqn:E; cbn [bind]; [|destruct (HN _ _ E)|left; reflexivity].
  destruct (Nat.eqb_spec (length r) (a_olen a)) as [H3|H3]; [|left; reflexivity]. right. exists r. auto.
Qed.

Lemma splice_slice_disj a b (r o : mem) : disj a b -> a_ooff a + length r <= length o -> length r = a_olen a -> a_ooff b + a_olen b <= length o ->
  slice (a_ooff b) (a_olen b) (splice (a_ooff a) r o) = slice (a_ooff b) (a_olen b) o.
Proof.
  intros HD H1 H2 H3. apply slice_ext; auto.
  - apply splice_length; auto.
  - intros k Hk. rewrite nth_splice by auto. unfold disj in HD.
    destruct (Nat.leb_spec (a_ooff a) k), (Nat.ltb_spec k (a_ooff a + length r)); cbn [andb]; auto; lia.
Qed.

Lemma run_action_not_abort inm a o : no_abort a -> run_action inm a o <> Abort.
Proof. intros H. destruct (run_action_cases inm a o H) as [E|(r & E & _)]; rewrite E; discriminate. Qed.

Lemma run_action_splice inm a b r o : no_abort b -> disj a b -> length r = a_olen a -> a_ooff a + a_olen a <= length o ->
  (run_action inm b o = UB /\ run_action inm b (splice (a_ooff a) r o) = UB) \/
  exists q, run_action inm b o = Ok (splice (a_ooff b) q o) /\ length q = a_olen b /\ a_ooff b + a_olen b <= length o /\
    run_action inm b (splice (a_ooff a) r o) = Ok (splice (a_ooff b) q (splice (a_ooff a) r o)).
Proof.
  intros HN HD Hr Ho. unfold run_action, in_bounds. rewrite splice_length by lia.
  destruct (Nat.leb_spec (a_ioff b + a_ilen b) (length inm)) as [H1|H1]; [|left; auto].
  destruct (Nat.leb_spec (a_ooff b + a_olen b) (length o)) as [H2|H2]; [|left; auto]. cbn [andb].
  rewrite (splice_slice_disj a b) by (auto; lia).
  destruct (a_fn b _ _) as [q| |] eqn:E; cbn [bind]; [|destruct (HN _ _ E)|left; auto].
  destruct (Nat.eqb_spec (length q) (a_olen b)) as [H3|H3]; [|left; auto]. right. exists q. auto.
Qed.

Lemma splice_comm o1 r1 o2 r2 (o : mem) : o1 + length r1 <= length o -> o2 + length r2 <= length o ->
  (o1 + length r1 <= o2 \/ o2 + length r2 <= o1) ->
  splice o1 r1 (splice o2 r2 o) = splice o2 r2 (splice o1 r1 o).
Proof.
  intros H1 H2 HD. apply list_ext.
  - rewrite !splice_length; rewrite ?splice_length; auto.
  - intros k _. rewrite !nth_splice by (rewrite ?splice_length; auto).
    destruct (Nat.leb_spec o1 k), (Nat.ltb_spec k (o1 + length r1)), (Nat.leb_spec o2 k), (Nat.ltb_spec k (o2 + length r2)); cbn [andb]; auto; lia.
Qed.

Lemma run_swap inm a b o : no_abort a -> no_abort b -> disj a b ->
  (x <- run_action inm a o ;; run_action inm b x) = (x <- run_action inm b o ;; run_action inm a x).
Proof.
  intros Ha Hb HD. destruct (run_action_cases inm a o Ha) as [Ea|(r & Ea & L1 & L2 & L3 & Fa)].
  - rewrite Ea. cbn [bind]. destruct (run_action_cases inm b o Hb) as [Eb|(q & Eb & M1 & M2 & M3 & Fb)]; rewrite Eb; cbn [bind]; auto.
    destruct (run_action_splice inm b a q o) as [[E1 E2]|(r & E1 & _)]; auto; [apply disj_sym; auto|congruence].
  - rewrite Ea. cbn [bind]. destruct (run_action_splice inm a b r o) as [[E1 E2]|(q & E1 & E3 & E4 & E2)]; auto.
    + rewrite E1, E2. reflexivity.
    + rewrite E1, E2. cbn [bind]. destruct (run_action_splice inm b a q o) as [[E5 _]|(r' & E5 & L4 & _ & E6)]; auto; [apply disj_sym; auto|congruence|].
      rewrite E6. assert (Hr : splice (a_ooff a) r o = splice (a_ooff a) r' o) by congruence.
      f_equal. assert (r = r') as <-.
      { clear - Hr L1 L3 L4. apply list_ext; [lia|]. intros k Hk.
        assert (nth (a_ooff a + k) (splice (a_ooff a) r o) 0%Z = nth (a_ooff a + k) (splice (a_ooff a) r' o) 0%Z) as H by (rewrite Hr; reflexivity).
        rewrite !nth_splice in H by lia.
        destruct (Nat.leb_spec (a_ooff a) (a_ooff a + k)), (Nat.ltb_spec (a_ooff a + k) (a_ooff a + length r)), (Nat.ltb_spec (a_ooff a + k) (a_ooff a + length r')); cbn [andb] in H; try lia.
        replace (a_ooff a + k - a_ooff a) with k in H by lia. exact H. }
      apply splice_comm; try lia. unfold disj in HD. lia.
Qed.

Lemma bind_assoc {X Y W} (r : res X) (f : X -> res Y) (g : Y -> res W) : bind (bind r f) g = bind r (fun x => bind (f x) g).
Proof. destruct r; reflexivity. Qed.

Theorem run_trace_perm inm l m : Permutation l m -> ForallOrdPairs disj l -> Forall no_abort l ->
  forall o, run_trace inm l o = run_trace inm m o.
Proof.
  induction 1 as [|a l m P IH|a b l|l m k P1 IH1 P2 IH2]; intros HD HN o; auto.
  - inversion HD; inversion HN; subst. cbn [run_trace]. destruct (run_action inm a o); cbn [bind]; auto.
  - inversion HN as [|? ? Hb HN']; subst. inversion HN' as [|? ? Ha _]; subst.
    inversion HD as [|? ? H1 H2]; subst. inversion H1; subst. cbn [run_trace].
    pose proof (run_swap inm b a o Hb Ha ltac:(auto)) as E.
    transitivity (x <- (y <- run_action inm b o ;; run_action inm a y) ;; run_trace inm l x); [rewrite bind_assoc; reflexivity|].
    rewrite E, bind_assoc. reflexivity.
  - rewrite IH1 by auto. apply IH2.
    + eapply ForallOrdPairs_perm; eauto using disj_sym.
    + eapply Permutation_Forall; eauto.
Qed.

Lemma run_trace_oob inm tr a : In a tr -> Forall no_abort tr -> ~ (a_ioff a + a_ilen a <= length inm) -> forall o, run_trace inm tr o = UB.
Proof.
  intros Hin HN Hb. induction HN as [|b tr Hb' HN IH]; [destruct Hin|]. intros o. cbn [run_trace].
  destruct Hin as [->|Hin].
  - destruct (run_action_cases inm a o Hb') as [E|(r & E & _ & L & _)]; [rewrite E; reflexivity|lia].
  - destruct (run_action_cases inm b o Hb') as [E|(r & E & _)]; rewrite E; cbn [bind]; auto.
Qed.

(** ** Kernels never abort *)
Lemma no_abort_bind {X Y} (r : res X) (f : X -> res Y) : r <> Abort -> (forall x, f x <> Abort) -> bind r f <> Abort.
Proof. destruct r; cbn; auto; discriminate. Qed.
Lemma i32_na z : i32 z <> Abort. Proof. unfold i32. destruct (in_i32 z); discriminate. Qed.
Lemma i64_na z : i64 z <> Abort. Proof. unfold i64. destruct (in_i64 z); discriminate. Qed.
Lemma f32_to_i32_na x : f32_to_i32 x <> Abort.
Proof. unfold f32_to_i32. destruct (f_to_Z x); [apply i32_na|discriminate]. Qed.
Lemma f32_to_i64_na x : f32_to_i64 x <> Abort.
Proof. unfold f32_to_i64. destruct (f_to_Z x); [apply i64_na|discriminate]. Qed.
Lemma q_nearest_i32_na mx inv zp x : q_nearest_i32 mx inv zp x <> Abort.
Proof. apply no_abort_bind; [apply f32_to_i32_na|]. intros q. apply no_abort_bind; [apply i32_na|discriminate]. Qed.
Lemma quant_step_scalar_na rm mx thr inv zp x : quant_step_scalar rm mx thr inv zp x <> Abort.
Proof.
  destruct rm; cbn [quant_step_scalar]; unfold q_nearest_i64, q_stochastic; cbv zeta;
  (apply no_abort_bind; [apply f32_to_i64_na|]; intros q; apply no_abort_bind; [apply i64_na|discriminate]).
Qed.

Lemma loop_Forall (P : action -> Prop) fuel cond stride body : (forall i, P (body i)) -> forall i, Forall P (fst (loop fuel cond stride body i)).
Proof.
  intros H. induction fuel as [|f IH]; intros i; cbn [loop]; [constructor|]. destruct (cond i); [|constructor].
  specialize (IH (i + stride)). destruct (loop f cond stride body (i + stride)). constructor; auto.
Qed.
Lemma seq_loops_Forall (P : action -> Prop) n ls : Forall (fun c => forall i, P (snd c i)) ls -> Forall P (fst (seq_loops n ls)).
Proof.
  unfold seq_loops. intros H. assert (G : forall s, Forall P (fst s) -> Forall P (fst (fold_left (run_loop n) ls s))).
  { induction H as [|[[c st] f] ls Hc H IH]; intros [s i] Hs; cbn [fold_left]; auto. apply IH. unfold run_loop.
    pose proof (loop_Forall P n c st f Hc i). destruct (loop n c st f i). cbn [fst] in *. apply Forall_app. auto. }
  apply G. constructor.
Qed.

Lemma act_u8_na d q i : (forall x, q x <> Abort) -> no_abort (act_u8 d q i).
Proof. intros H x y. cbn. apply no_abort_bind; auto; discriminate. Qed.
Lemma act_u4_pair_na d q i : (forall x, q x <> Abort) -> no_abort (act_u4_pair d q i).
Proof. intros H x y. cbn. apply no_abort_bind; auto. intros. apply no_abort_bind; auto; discriminate. Qed.
Lemma act_u4_odd_na d q n i : (forall x, q x <> Abort) -> no_abort (act_u4_odd d q n i).
Proof. intros H x y. cbn. apply no_abort_bind; auto. intros. apply no_abort_bind; auto; discriminate. Qed.
Lemma act_u2_quad_na d q i : (forall x, q x <> Abort) -> no_abort (act_u2_quad d q i).
Proof. intros H x y. cbn -[Nat.mul]. repeat (apply no_abort_bind; auto; intros). discriminate. Qed.
Lemma act_u2_tail_na d q z n i : (forall x, q x <> Abort) -> z <> Abort -> no_abort (act_u2_tail d q z n i).
Proof.
  intros H Hz x y. assert (T : forall v, u2_tail_one q z v <> Abort) by (intros v; unfold u2_tail_one; repeat (apply no_abort_bind; auto; intros); discriminate).
  cbn -[Nat.mul Nat.modulo Nat.leb]. apply no_abort_bind.
  - destruct (Nat.leb _ _); [|discriminate]. apply no_abort_bind; auto; discriminate.
  - intros p. apply no_abort_bind.
    + destruct (Nat.leb _ _); [|discriminate]. apply no_abort_bind; auto; discriminate.
    + intros p'. apply no_abort_bind; auto; discriminate.
Qed.
Lemma act_block_na d n ol f g i : no_abort (act_block d n ol f g i).
Proof. intros x y. cbn. discriminate. Qed.
Lemma act_block_stream_na oa al d n ol g i : no_abort (act_block_stream oa al d n ol g i).
Proof. intros x y. cbn. destruct (_ =? _)%Z; discriminate. Qed.

Lemma u4_finish_na d q n st : (forall x, q x <> Abort) -> Forall no_abort (fst st) -> Forall no_abort (u4_finish d q n st).
Proof. intros H F. unfold u4_finish. apply Forall_app. split; auto. destruct (Nat.odd n); repeat constructor; apply act_u4_odd_na; auto. Qed.
Lemma u2_finish_na d q z n st : (forall x, q x <> Abort) -> z <> Abort -> Forall no_abort (fst st) -> Forall no_abort (u2_finish d q z n st).
Proof. intros H Hz F. unfold u2_finish. apply Forall_app. split; auto. destruct (Nat.eqb _ _); repeat constructor; apply act_u2_tail_na; auto. Qed.

Ltac na_loops := apply seq_loops_Forall; cbn [app]; repeat (apply Forall_cons || apply Forall_nil); cbn [snd]; intros;
  first [apply act_block_na | apply act_block_stream_na | apply act_u8_na | apply act_u4_pair_na | apply act_u2_quad_na];
  intros; first [apply q_nearest_i32_na | apply quant_step_scalar_na].

Lemma quant_generic_na A din dout rm oaddr n scale thr zp : Forall no_abort (quant_generic A din dout rm oaddr n scale thr zp).
Proof.
  unfold quant_generic.
  destruct din, dout, rm; unfold quant_plain, quant_uint4, quant_uint2, quant_f32_to_uint8_nearest, quant_bf16_to_uint8_nearest,
    quant_f32_to_uint4_nearest, quant_bf16_to_uint4_nearest, quant_bf16_to_uint2_nearest; cbv zeta;
    try (apply u4_finish_na; [intros; first [apply q_nearest_i32_na | apply quant_step_scalar_na]|]);
    try (apply u2_finish_na; [intros; first [apply q_nearest_i32_na | apply quant_step_scalar_na]|first [discriminate|apply q_nearest_i32_na]|]);
    destruct A; na_loops.
Qed.

Lemma step_put_na step pt q o : (forall x, step x <> Abort) -> step_put step pt q o <> Abort.
Proof. intros H. apply no_abort_bind; auto; discriminate. Qed.
Lemma dq_i32_na s z q : dq_i32 s z q <> Abort. Proof. apply no_abort_bind; [apply i32_na|discriminate]. Qed.
Lemma dq_i64_na s z q : dq_i64 s z q <> Abort. Proof. apply no_abort_bind; [apply i64_na|discriminate]. Qed.
Lemma dq_sub_na s z q : dq_sub s z q <> Abort. Proof. discriminate. Qed.
Lemma u2_elems_na e step pt p n : (forall x, step x <> Abort) -> forall k o, u2_elems e step pt p k n o <> Abort.
Proof.
  intros H. induction n as [|n IH]; intros k o; cbn [u2_elems]; [discriminate|].
  apply no_abort_bind; [apply step_put_na; auto|]. intros. apply no_abort_bind; auto; discriminate.
Qed.
Lemma dact_u2_na e step pt n i : (forall x, step x <> Abort) -> no_abort (dact_u2 e step pt n i).
Proof. intros H x y. cbn [dact_u2 a_fn]. apply u2_elems_na; auto. Qed.
Lemma dact_u8_na e step pt i : (forall x, step x <> Abort) -> no_abort (dact_u8 e step pt i).
Proof. intros H x y. cbn [dact_u8 a_fn]. apply step_put_na; auto. Qed.
Lemma dact_u4_pair_na e step pt i : (forall x, step x <> Abort) -> no_abort (dact_u4_pair e step pt i).
Proof.
  intros H x y. cbn [dact_u4_pair a_fn]. cbv zeta. apply no_abort_bind; [apply step_put_na; auto|]. intros.
  apply no_abort_bind; [apply step_put_na; auto|discriminate].
Qed.
Lemma dact_u4_odd_na e step pt n i : (forall x, step x <> Abort) -> no_abort (dact_u4_odd e step pt n i).
Proof. intros H x y. cbn [dact_u4_odd a_fn]. apply step_put_na; auto. Qed.
Lemma dact_block_na e il n io f i : no_abort (dact_block e il n io f i).
Proof. intros x y. cbn. discriminate. Qed.

Ltac dna_loops := apply seq_loops_Forall; cbn [app]; repeat (apply Forall_cons || apply Forall_nil); cbn [snd]; intros;
  first [apply dact_block_na | apply dact_u8_na | apply dact_u4_pair_na | apply dact_u2_na];
  intros; first [apply dq_i32_na | apply dq_i64_na | apply dq_sub_na].

Lemma dequant_generic_na A din dout op n scale zp : Forall no_abort (dequant_generic A din dout op n scale zp).
Proof.
  assert (U4 : forall e s z pt st, Forall no_abort (fst st) -> Forall no_abort (du4_finish e (dq_i32 s z) pt n st)).
  { intros e s z pt st F. unfold du4_finish. apply Forall_app. split; auto. destruct (Nat.odd n); repeat constructor. apply dact_u4_odd_na, dq_i32_na. }
  unfold dequant_generic. destruct din, dout; try constructor.
  - unfold dequant_uint2_f32. cbv zeta. apply Forall_app. split; [dna_loops|]. repeat constructor. apply dact_u2_na, dq_i64_na.
  - unfold dequant_uint2_to_bf16. cbv zeta. apply Forall_app. split; [destruct A; dna_loops|].
    destruct (Nat.ltb _ _); repeat constructor. apply dact_u2_na, dq_sub_na.
  - apply U4. destruct A; dna_loops.
  - apply U4. destruct A; dna_loops.
  - unfold dequant_uint8_to_f32. destruct A; dna_loops.
  - unfold dequant_uint8_to_bf16. destruct A; dna_loops.
Qed.

Lemma requant_generic_na d dq rm op n scale thr zp : Forall no_abort (requant_generic d dq rm op n scale thr zp).
Proof.
  unfold requant_generic. apply seq_loops_Forall. repeat constructor. intros i x y. cbn [snd ract a_fn]. unfold requant_elem.
  apply no_abort_bind; [apply quant_step_scalar_na|]. intros q. destruct d; (apply no_abort_bind; [|discriminate]);
   first [apply dq_i64_na | apply no_abort_bind; [apply i64_na|discriminate]].
Qed.

Lemma shift_na di do l : Forall no_abort l -> Forall no_abort (map (shift_action di do) l).
Proof. intros H. rewrite Forall_map. eapply Forall_impl; [|exact H]. intros a Ha x y. cbn. apply Ha. Qed.

Lemma q_job_na A din dout rm oaddr n nt scale thr zp t : Forall no_abort (q_job A din dout rm oaddr n nt scale thr zp t).
Proof. unfold q_job. destruct (_ <=? _); [constructor|]. apply shift_na, quant_generic_na. Qed.
Lemma d_job_na A din dout op n nt scale zp t : Forall no_abort (d_job A din dout op n nt scale zp t).
Proof. unfold d_job. destruct (_ <=? _); [constructor|]. apply shift_na, dequant_generic_na. Qed.
Lemma f_job_na dt dq rm op n nt scale thr zp t : Forall no_abort (f_job dt dq rm op n nt scale thr zp t).
Proof. unfold f_job. destruct (_ <=? _); [constructor|]. apply shift_na, requant_generic_na. Qed.

(** ** Footprints of whole calls *)
Definition within (in_size out_size : nat) (a : action) : Prop := a_ioff a + a_ilen a <= in_size /\ a_ooff a + a_olen a <= out_size.

Lemma map_concat_seq {X} (f : action -> X) (J K : nat -> list action) l : (forall t, map f (J t) = map f (K t)) ->
  map f (concat (map J l)) = map f (concat (map K l)).
Proof. intros H. induction l as [|t l IH]; cbn [map concat]; auto. rewrite !map_app, H, IH. reflexivity. Qed.

Lemma act_ok_within inm outm G l : Forall (act_ok inm outm G) l -> Forall (within (length inm) (length outm)) l.
Proof. apply Forall_impl. intros a (H1 & H2 & _). split; auto. Qed.
Lemma within_fp a b l m : map fp l = map fp m -> Forall (within a b) l -> Forall (within a b) m.
Proof.
  intros H. apply (Forall_fp (fun p => match p with (io, il, oo, ol) => io + il <= a /\ oo + ol <= b end)). exact H.
Qed.

Lemma slice_repeat0 off len n : off + len <= n -> slice off len (repeat 0%Z n) = repeat 0%Z len.
Proof.
  intros H. apply list_ext; [rewrite slice_length, repeat_length; rewrite ?repeat_length; auto|].
  rewrite slice_length by (rewrite repeat_length; auto). intros k Hk. rewrite nth_slice by auto. rewrite !nth_repeat. reflexivity.
Qed.
Lemma elem_zero d n i : float_type d -> i < n -> elem_at d (repeat 0%Z (esize d * n)) i = f_zero.
Proof.
  intros [->| ->] Hi; unfold elem_at, f32_at, bf16_at, esize; cbn [stride]; rewrite slice_repeat0 by lia; reflexivity.
Qed.
Lemma good_one : good_scale f_one.
Proof.
  destruct f_one_ok as [F E]. split; rewrite E; [lra|]. replace (1 / 1)%R with 1%R by field. 
  rewrite RN32_fmt by (replace 1%R with (IZR 1) by reflexivity; apply fmt32_int; lia).
  rewrite Rabs_R1. unfold max32. change 1%R with (bpow radix2 0). apply bpow_lt. lia.
Qed.

Lemma q_foot A din dout rm oaddr n nt scale thr zp : float_type din -> quant_type dout -> nt > 0 ->
  tiles 0 (bytes_for dout n) (concat (map (q_job A din dout rm oaddr n nt scale thr zp) (seq 0 nt))) /\
  Forall (within (esize din * n) (bytes_for dout n)) (concat (map (q_job A din dout rm oaddr n nt scale thr zp) (seq 0 nt))).
Proof.
  intros Hfp Hq Hnt.
  set (inm := repeat 0%Z (esize din * n)). set (outm := repeat 0%Z (bytes_for dout n)).
  assert (L1 : length inm = esize din * n) by apply repeat_length. assert (L2 : length outm = bytes_for dout n) by apply repeat_length.
  assert (Hb : Forall is_byte inm) by (apply Forall_forall; intros x Hx; apply repeat_spec in Hx; subst; unfold is_byte; lia).
  assert (HE : map fp (concat (map (q_job A din dout rm oaddr n nt f_one f_zero 0) (seq 0 nt))) =
               map fp (concat (map (q_job A din dout rm oaddr n nt scale thr zp) (seq 0 nt)))).
  { apply map_concat_seq. intros t. unfold q_job. destruct (_ <=? _); auto. apply fp_map_shift, quant_generic_fp. }
  assert (Hz : forall i, i < n -> elem_at din inm i = f_zero) by (intros; apply elem_zero; auto).
  assert (Ht : threshold f_zero) by (destruct f_zero_ok as [F E]; split; auto; rewrite E; lra).
  set (c := expected_code rm dout f_one 0 f_zero f_zero).
  assert (HQ : q_scalar din dout rm f_zero (fdiv f_one f_one) 0 f_zero = Ok c).
  { unfold c. destruct rm; cbn [expected_code].
    - apply q_scalar_nearest_ok; auto using good_one, quantizable_zero; lia.
    - apply q_scalar_stoch_ok; auto using good_one, quantizable_zero; lia. }
  assert (HT : tiles 0 (bytes_for dout n) (concat (map (q_job A din dout rm oaddr n nt f_one f_zero 0) (seq 0 nt))) /\
    Forall (act_ok inm outm (byte_of dout (cut n (fun _ => c)))) (concat (map (q_job A din dout rm oaddr n nt f_one f_zero 0) (seq 0 nt)))).
  { split; [eapply (q_jobs_tile A din dout rm oaddr n nt f_one f_zero 0 inm outm (fun _ => c))|
            eapply (q_jobs_ok A din dout rm oaddr n nt f_one f_zero 0 inm outm (fun _ => c))]; auto; try lia.
    all: pose proof (fun t Htt => part_le (per_byte dout) n nt ltac:(clear -Hq; destruct Hq as [->|[->| ->]]; cbn; lia) Hnt (S t) Htt) as HLe.
    1,4: intros t i Htt Hi _; specialize (HLe t Htt); rewrite Hz by lia; auto. 1,3: eauto.
    all: intros t i Htt Hi HV; specialize (HLe t Htt); apply q_vec_has in HV; rewrite Hz by lia; unfold c; destruct rm; [|destruct din, dout; cbn in HV; try discriminate; destruct A; discriminate];
      cbn [expected_code]; apply lane_ok; auto using good_one, quantizable_zero; try lia; try (intros ->; eapply has_vec_neon; eauto; fail);
      intros HA; apply (proj2 (zero_nearest_ok A f_one)); eapply has_vec_x86; eauto. }
  destruct HT as [T F]. split; [eapply tiles_fp; eauto|].
  eapply within_fp; [exact HE|]. rewrite <- L1, <- L2. eapply act_ok_within; eauto.
Qed.

Lemma d_foot A din dout op n nt scale zp : quant_type din -> float_type dout -> nt > 0 ->
  tiles 0 (esize dout * n) (concat (map (d_job A din dout op n nt scale zp) (seq 0 nt))) /\
  Forall (within (match din, dout with DT_UINT2, DT_F32 => if n mod 4 =? 0 then S (bytes_for din n) else bytes_for din n | _, _ => bytes_for din n end)
            (esize dout * n)) (concat (map (d_job A din dout op n nt scale zp) (seq 0 nt))).
Proof.
  intros Hq Hfp Hnt.
  set (L := match din, dout with DT_UINT2, DT_F32 => if n mod 4 =? 0 then S (bytes_for din n) else bytes_for din n | _, _ => bytes_for din n end).
  set (inm := repeat 0%Z L). set (outm := repeat 0%Z (esize dout * n)).
  assert (L1 : length inm = L) by apply repeat_length. assert (L2 : length outm = esize dout * n) by apply repeat_length.
  assert (HL : bytes_for din n <= L) by (unfold L; destruct din, dout; try lia; destruct (_ =? _); lia).
  assert (Hb : Forall is_byte inm) by (apply Forall_forall; intros x Hx; apply repeat_spec in Hx; subst; unfold is_byte; lia).
  assert (HE : map fp (concat (map (d_job A din dout op n nt f_one 0) (seq 0 nt))) =
               map fp (concat (map (d_job A din dout op n nt scale zp) (seq 0 nt)))).
  { apply map_concat_seq. intros t. unfold d_job. destruct (_ <=? _); auto. apply fp_map_shift, dequant_generic_fp. }
  assert (Hc : forall i, code_at din inm i = 0%Z).
  { intros i. unfold code_at, inm. rewrite nth_repeat. rewrite Z.div_0_l, Z.mod_0_l; auto; try apply Z.pow_nonzero; lia. }
  assert (Hst : exists w, dq_scalar din dout f_one 0 0 = Ok w) by (destruct Hq as [->|[->| ->]], Hfp as [->| ->]; cbn [dq_scalar]; eexists; reflexivity).
  destruct Hst as [w Hw].
  set (V := fun i => existsb (fun t => (part_bound (per_byte din) n nt t <=? i) && (i <? part_bound (per_byte din) n nt (S t)) &&
      (i - part_bound (per_byte din) n nt t <? vec_end (dq_block A din dout) (part_bound (per_byte din) n nt (S t) - part_bound (per_byte din) n nt t))) (seq 0 nt)).
  set (old := fun i => slice (esize dout * i) (esize dout) outm).
  set (E := fun i => if V i then dq_el_vec A din dout op f_one 0 0 (old i) else put dout (dq_op din dout op n i) w (old i)).
  assert (Hmono : forall u v, u <= v <= nt -> part_bound (per_byte din) n nt u <= part_bound (per_byte din) n nt v).
  { intros. apply part_mono'; auto. destruct Hq as [->|[->| ->]]; cbn; lia. }
  assert (HEl : forall i, length (E i) = esize dout).
  { intros i. unfold E. destruct (V i); destruct Hfp as [->| ->]; cbn [dq_el_vec put]; unfold el_f32, put_f32, put_bf16, put_bf16v, esize; cbn [stride];
     destruct din; unfold el_bf16; apply le_bytes_length. }
  assert (HT : tiles 0 (esize dout * n) (concat (map (d_job A din dout op n nt f_one 0) (seq 0 nt))) /\
    Forall (act_ok inm outm (byteE (esize dout) E)) (concat (map (d_job A din dout op n nt f_one 0) (seq 0 nt)))).
  { assert (X : din = DT_UINT2 -> dout = DT_F32 -> n > 0 -> n / 4 < length inm).
    { intros -> -> H0. rewrite L1. unfold L. rewrite bytes_for_per_byte by (left; auto). cbn [per_byte].
      destruct (Nat.eqb_spec (n mod 4) 0) as [n0|n0]; clear - H0 n0; lia. }
    assert (XV : forall t i, t < nt -> part_bound (per_byte din) n nt t <= i < part_bound (per_byte din) n nt (S t) ->
       i - part_bound (per_byte din) n nt t < vec_end (dq_block A din dout) (part_bound (per_byte din) n nt (S t) - part_bound (per_byte din) n nt t) ->
       E i = dq_el_vec A din dout op f_one 0 (code_at din inm i) (slice (esize dout * i) (esize dout) outm)).
    { intros t i Ht Hi Hv. rewrite Hc. unfold E. replace (V i) with true; [reflexivity|]. symmetry. unfold V. apply existsb_exists.
      exists t. split; [apply in_seq; lia|]. rewrite !andb_true_iff, Nat.leb_le, !Nat.ltb_lt. lia. }
    assert (XS : forall t i, t < nt -> part_bound (per_byte din) n nt t <= i < part_bound (per_byte din) n nt (S t) ->
       vec_end (dq_block A din dout) (part_bound (per_byte din) n nt (S t) - part_bound (per_byte din) n nt t) <= i - part_bound (per_byte din) n nt t ->
       step_put (dq_scalar din dout f_one 0) (put dout (dq_op din dout op n i)) (code_at din inm i) (slice (esize dout * i) (esize dout) outm) = Ok (E i)).
    { intros t i Ht Hi Hv. rewrite Hc. unfold step_put. rewrite Hw. cbn [bind]. unfold E. replace (V i) with false; [reflexivity|]. symmetry.
      apply not_true_is_false. intros HV. unfold V in HV. apply existsb_exists in HV. destruct HV as (u & Hu & HV).
      apply in_seq in Hu. rewrite !andb_true_iff, Nat.leb_le, !Nat.ltb_lt in HV. 
      assert (u = t).
      { rewrite <- (owner_unique (part_bound (per_byte din) n nt) nt i u), <- (owner_unique (part_bound (per_byte din) n nt) nt i t); auto; lia. }
      subst u. lia. }
    split; [eapply (d_jobs_tile A din dout op n nt f_one 0 inm outm E)|eapply (d_jobs_ok A din dout op n nt f_one 0 inm outm E)]; auto; lia. }
  destruct HT as [T F]. split; [eapply tiles_fp; eauto|].
  eapply within_fp; [exact HE|]. rewrite <- L1, <- L2. eapply act_ok_within; eauto.
Qed.

Lemma f_foot dt dq rm op n nt scale thr zp : float_type dt -> quant_type dq -> nt > 0 ->
  tiles 0 (esize dt * n) (concat (map (f_job dt dq rm op n nt scale thr zp) (seq 0 nt))) /\
  Forall (within (esize dt * n) (esize dt * n)) (concat (map (f_job dt dq rm op n nt scale thr zp) (seq 0 nt))).
Proof.
  intros Hfp Hq Hnt.
  set (inm := repeat 0%Z (esize dt * n)). 
  assert (L1 : length inm = esize dt * n) by apply repeat_length. 
  assert (HE : map fp (concat (map (f_job dt dq RM_NEAREST RO_SET n nt f_one f_zero 0) (seq 0 nt))) =
               map fp (concat (map (f_job dt dq rm op n nt scale thr zp) (seq 0 nt)))).
  { apply map_concat_seq. intros t. unfold f_job. destruct (_ <=? _); auto. apply fp_map_shift, requant_generic_fp. }
  assert (HX : exists E, length E = esize dt /\ requant_elem dt dq RM_NEAREST RO_SET f_one f_zero 0 (repeat 0%Z (esize dt)) (repeat 0%Z (esize dt)) = Ok E).
  { destruct Hfp as [->| ->], Hq as [->|[->| ->]]; eexists; (split; [|vm_compute; reflexivity]); reflexivity. }
  destruct HX as (E & HL & HX).
  assert (HT : tiles 0 (esize dt * n) (concat (map (f_job dt dq RM_NEAREST RO_SET n nt f_one f_zero 0) (seq 0 nt))) /\
    Forall (act_ok inm inm (byteE (esize dt) (fun _ => E))) (concat (map (f_job dt dq RM_NEAREST RO_SET n nt f_one f_zero 0) (seq 0 nt)))).
  { assert (XS : forall i, i < n -> requant_elem dt dq RM_NEAREST RO_SET f_one f_zero 0 (slice (esize dt * i) (esize dt) inm) (slice (esize dt * i) (esize dt) inm) = Ok E).
    { intros i Hi. unfold inm. rewrite slice_repeat0 by nia. auto. }
    split; [eapply (f_jobs_tile dt dq RM_NEAREST RO_SET n nt f_one f_zero 0 inm inm (fun _ => E))|
            eapply (f_jobs_ok dt dq RM_NEAREST RO_SET n nt f_one f_zero 0 inm inm (fun _ => E))]; auto; lia. }
  destruct HT as [T F]. split; [eapply tiles_fp; eauto|].
  eapply within_fp; [exact HE|]. rewrite <- L1. eapply act_ok_within; eauto.
Qed.
