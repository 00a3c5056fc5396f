(** Footprint.v -- which bytes a kernel touches does not depend on scale, zero point, threshold or data. *)
From Coq Require Import ZArith List Lia Bool Arith.
From Verif Require Import Base Floats Simd Dtypes QuantKernels DequantKernels ExecFacts.
Import ListNotations.

Definition fp (a : action) : nat * nat * nat * nat := (a_ioff a, a_ilen a, a_ooff a, a_olen a).

Lemma loop_fp fuel cond stride b1 b2 : (forall i, fp (b1 i) = fp (b2 i)) -> forall i,
  map fp (fst (loop fuel cond stride b1 i)) = map fp (fst (loop fuel cond stride b2 i)) /\
  snd (loop fuel cond stride b1 i) = snd (loop fuel cond stride b2 i).
Proof.
  intros H. induction fuel as [|f IH]; intros i; cbn [loop]; auto.
  destruct (cond i); auto. specialize (IH (i + stride)).
  destruct (loop f cond stride b1 (i + stride)), (loop f cond stride b2 (i + stride)); cbn [fst snd] in *.
  destruct IH as [I1 I2]. cbn [map]. rewrite H, I1. auto.
Qed.

Definition same_loop (a b : (nat -> bool) * nat * (nat -> action)) : Prop :=
  fst a = fst b /\ forall i, fp (snd a i) = fp (snd b i).
Definition same_st (s t : list action * nat) : Prop := map fp (fst s) = map fp (fst t) /\ snd s = snd t.

Lemma run_loop_fp n s t a b : same_st s t -> same_loop a b -> same_st (run_loop n s a) (run_loop n t b).
Proof.
  destruct s as [s i], t as [t j], a as [[c st] f], b as [[c' st'] g]. intros [H1 H2] [H3 H4]. cbn [fst snd] in *.
  inversion H3; subst. unfold run_loop. destruct (loop_fp n c' st' f g H4 j) as [L1 L2].
  destruct (loop n c' st' f j), (loop n c' st' g j); cbn [fst snd] in *. split; cbn [fst snd]; auto.
  rewrite !map_app, H1, L1. reflexivity.
Qed.

Lemma seq_loops_fp n l m : Forall2 same_loop l m -> same_st (seq_loops n l) (seq_loops n m).
Proof.
  unfold seq_loops. intros H. assert (G : forall s t, same_st s t -> same_st (fold_left (run_loop n) l s) (fold_left (run_loop n) m t)).
  { induction H as [|a b l m Hab H IH]; intros s t Hs; cbn [fold_left]; auto. apply IH. apply run_loop_fp; auto. }
  apply G. split; reflexivity.
Qed.

Ltac fp_loops := apply seq_loops_fp; repeat constructor; try (intros; reflexivity).

Lemma quant_generic_fp A din dout rm oaddr n scale thr zp scale' thr' zp' :
  map fp (quant_generic A din dout rm oaddr n scale thr zp) = map fp (quant_generic A din dout rm oaddr n scale' thr' zp').
Proof.
  assert (U4 : forall d q q' s t, same_st s t -> map fp (u4_finish d q n s) = map fp (u4_finish d q' n t)).
  { intros d q q' s t [H1 H2]. unfold u4_finish. rewrite !map_app, H1, H2. destruct (Nat.odd n); reflexivity. }
  assert (U2 : forall d q q' z z' s t, same_st s t -> map fp (u2_finish d q z n s) = map fp (u2_finish d q' z' n t)).
  { intros d q q' z z' s t [H1 H2]. unfold u2_finish. rewrite !map_app, H1, H2. destruct (Nat.eqb _ _); reflexivity. }
  assert (P : forall d q q', map fp (quant_plain d q n) = map fp (quant_plain d q' n)).
  { intros. unfold quant_plain. refine (proj1 (seq_loops_fp n _ _ _)). repeat constructor. }
  assert (P4 : forall d q q', map fp (quant_uint4 d q n) = map fp (quant_uint4 d q' n)).
  { intros. apply U4. fp_loops. }
  assert (P2 : forall d q q', map fp (quant_uint2 d q n) = map fp (quant_uint2 d q' n)).
  { intros. apply U2. fp_loops. }
  unfold quant_generic. destruct din, dout, rm; auto; destruct A;
    try (apply U4; fp_loops); try (apply U2; fp_loops);
    try (refine (proj1 (seq_loops_fp n _ _ _)); repeat constructor).
Qed.

Lemma dequant_generic_fp A din dout op n scale zp scale' zp' op' :
  map fp (dequant_generic A din dout op n scale zp) = map fp (dequant_generic A din dout op' n scale' zp').
Proof.
  assert (U4 : forall e q q' p p' s t, same_st s t -> map fp (du4_finish e q p n s) = map fp (du4_finish e q' p' n t)).
  { intros e q q' p p' s t [H1 H2]. unfold du4_finish. rewrite !map_app, H1, H2. destruct (Nat.odd n); reflexivity. }
  unfold dequant_generic. destruct din, dout; auto.
  - (* u2 f32 *) unfold dequant_uint2_f32.
    assert (H : same_st (seq_loops n [ (blk_cond n 4, 4%nat, dact_u2 4 (dq_i64 scale zp) (put_f32 op) 4) ])
                        (seq_loops n [ (blk_cond n 4, 4%nat, dact_u2 4 (dq_i64 scale' zp') (put_f32 op') 4) ])) by fp_loops.
    destruct H as [H1 H2]. rewrite !map_app, H1, H2. reflexivity.
  - unfold dequant_uint2_to_bf16.
    match goal with |- map fp (fst ?s ++ _) = map fp (fst ?t ++ _) => assert (H : same_st s t) by (destruct A; fp_loops) end.
    destruct H as [H1 H2]. rewrite !map_app, H1, H2. destruct (Nat.ltb _ _); reflexivity.
  - apply U4. destruct A; fp_loops.
  - apply U4. destruct A; fp_loops.
  - unfold dequant_uint8_to_f32. refine (proj1 (seq_loops_fp n _ _ _)). destruct A; repeat constructor.
  - unfold dequant_uint8_to_bf16. refine (proj1 (seq_loops_fp n _ _ _)). destruct A; repeat constructor.
Qed.

Lemma requant_generic_fp d dq rm op n scale thr zp rm' op' scale' thr' zp' dq' :
  map fp (requant_generic d dq rm op n scale thr zp) = map fp (requant_generic d dq' rm' op' n scale' thr' zp').
Proof. unfold requant_generic. refine (proj1 (seq_loops_fp n _ _ _)). repeat constructor. Qed.

(** ** Consequences of equal footprints *)
Lemma fp_shift di do a b : fp a = fp b -> fp (shift_action di do a) = fp (shift_action di do b).
Proof. unfold fp, shift_action. cbn. intros H. inversion H. congruence. Qed.
Lemma fp_map_shift di do l m : map fp l = map fp m -> map fp (map (shift_action di do) l) = map fp (map (shift_action di do) m).
Proof.
  revert m. induction l as [|a l IH]; intros [|b m] H; cbn [map] in *; try discriminate; auto.
  inversion H. f_equal; auto. apply fp_shift. unfold fp. congruence.
Qed.
Lemma tiles_fp lo hi l : tiles lo hi l -> forall m, map fp l = map fp m -> tiles lo hi m.
Proof.
  induction 1 as [|lo hi a l E T IH]; intros [|b m] H; cbn [map] in *; try discriminate; [constructor|].
  injection H as H1 H2 H3 H4 H5. subst lo. constructor; [congruence|]. rewrite <- H4. apply IH. auto.
Qed.
Lemma Forall_fp (P : nat * nat * nat * nat -> Prop) l m : map fp l = map fp m -> Forall (fun a => P (fp a)) l -> Forall (fun a => P (fp a)) m.
Proof. intros H F. apply (Forall_map fp P m). rewrite <- H. apply (Forall_map fp P l). exact F. Qed.
