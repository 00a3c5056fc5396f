(** ScalarUB.v -- an element whose scalar conversion is undefined makes the whole call undefined. *)
From Coq Require Import ZArith List Lia Bool Arith ZifyBool ZifyNat.
From Verif Require Import Base Floats Simd Dtypes Spec ApiSpec QuantKernels DequantKernels ExecFacts QuantFacts QuantKernelFacts LoopFacts
  QuantGenericFacts DequantFacts DequantGenericFacts Context ContextFacts Footprint QuantizeFacts DequantizeFacts Api NoAbort.
Import ListNotations.

Ltac Zify.zify_post_hook ::= Z.div_mod_to_equations.

(** the step is undefined on input [inm], whatever the output holds *)
Definition ub_on (inm : mem) (a : action) : Prop := forall o, a_fn a (slice (a_ioff a) (a_ilen a) inm) o = UB.

Lemma bind_ub_l {T U} (r : res T) (f : T -> res U) : r = UB -> bind r f = UB.
Proof. intros ->. reflexivity. Qed.
Lemma bind_ub_r {T U} (r : res T) (f : T -> res U) : na r -> (forall x, f x = UB) -> bind r f = UB.
Proof. destruct r; cbn; intros H1 H2; auto. contradiction H1; reflexivity. Qed.

Section S.
Variables (inm : mem) (din : dtype) (numel : nat) (q : f32 -> res Z) (zq : res Z) (i : nat).
Hypothesis Hfp : is_fp din.
Hypothesis Hin : esize din * numel <= length inm.
Hypothesis Hq : forall x, na (q x).
Hypothesis Hzq : na zq.
Hypothesis Hbad : q (elem_at din inm i) = UB.

Lemma ld_sub' k n j : k < n -> esize din * j + esize din * n <= length inm ->
  ld din (sub (k * esize din) (esize din) (slice (esize din * j) (n * esize din) inm)) = elem_at din inm (j + k).
Proof.
  intros Hk Hb. rewrite sub_slice by nia. replace (esize din * j + k * esize din) with (esize din * (j + k)) by lia.
  apply ld_slice; auto.
Qed.
Lemma ub_u8 : ub_on inm (act_u8 din q i).
Proof. intros o. unfold act_u8. cbn [a_ioff a_ilen a_fn]. rewrite ld_slice by auto. rewrite Hbad. reflexivity. Qed.

Lemma ub_u4_pair j : j <= i < j + 2 -> j + 2 <= numel -> ub_on inm (act_u4_pair din q j).
Proof.
  intros Hi Hn o. unfold act_u4_pair. cbn [a_ioff a_ilen a_fn].
  pose proof (ld_sub' 0 2 j) as L0. pose proof (ld_sub' 1 2 j) as L1.
  rewrite Nat.mul_0_l in L0. rewrite Nat.mul_1_l in L1. rewrite Nat.add_0_r in L0.
  rewrite L0, L1 by nia.
  assert (i = j \/ i = j + 1) as [<-|E] by lia; [apply bind_ub_l; auto|]. rewrite <- E.
  apply bind_ub_r; auto. intros x. apply bind_ub_l. auto.
Qed.
Lemma ub_u4_odd j : i = numel - 1 -> ub_on inm (act_u4_odd din q numel j).
Proof. intros Hi o. unfold act_u4_odd. cbn [a_ioff a_ilen a_fn]. rewrite <- Hi. rewrite ld_slice by auto. apply bind_ub_l. auto. Qed.
Lemma ub_u2_quad j : j <= i < j + 4 -> j + 4 <= numel -> ub_on inm (act_u2_quad din q j).
Proof.
  intros Hi Hn o. unfold act_u2_quad. cbn [a_ioff a_ilen a_fn].
  pose proof (ld_sub' 0 4 j) as L0. pose proof (ld_sub' 1 4 j) as L1.
  pose proof (ld_sub' 2 4 j) as L2. pose proof (ld_sub' 3 4 j) as L3.
  rewrite Nat.mul_0_l in L0. rewrite Nat.mul_1_l in L1. rewrite Nat.add_0_r in L0.
  rewrite L0, L1, L2, L3 by nia.
  assert (i = j \/ i = j + 1 \/ i = j + 2 \/ i = j + 3) as [<-|[E|[E|E]]] by lia; [apply bind_ub_l; auto|rewrite <- E..].
  - apply bind_ub_r; auto. intros x. apply bind_ub_l. auto.
  - apply bind_ub_r; auto. intros x. apply bind_ub_r; auto. intros x'. apply bind_ub_l. auto.
  - apply bind_ub_r; auto. intros x. apply bind_ub_r; auto. intros x'. apply bind_ub_r; auto. intros x''. apply bind_ub_l. auto.
Qed.
Lemma ub_u2_tail : i < numel -> numel - numel mod 4 <= i -> ub_on inm (act_u2_tail din q zq numel (numel - numel mod 4)).
Proof.
  intros Hi Hj o. unfold act_u2_tail. cbn [a_ioff a_ilen a_fn]. cbv zeta. set (r := numel mod 4) in *.
  assert (Hr : r < 4) by (apply Nat.mod_upper_bound; lia). assert (Hrn : r <= numel) by (apply Nat.mod_le; lia). clearbody r.
  assert (L : forall k, k < r -> ld din (sub (k * esize din) (esize din) (slice (esize din * (numel - r)) (r * esize din) inm)) = elem_at din inm (numel - r + k)).
  { intros k Hk. apply (ld_sub'); auto. replace (esize din * (numel - r) + esize din * r) with (esize din * numel); [auto|nia]. }
  assert (U : forall k, k < r -> i = numel - r + k -> u2_tail_one q zq (ld din (sub (k * esize din) (esize din) (slice (esize din * (numel - r)) (r * esize din) inm))) = UB).
  { intros k Hk E. unfold u2_tail_one. rewrite L by auto. rewrite <- E. apply bind_ub_l. auto. }
  assert (N : forall x, na (u2_tail_one q zq x)) by (intros x; unfold u2_tail_one; na; auto).
  assert (i = numel - r + 0 \/ (1 < r /\ i = numel - r + 1) \/ (2 < r /\ i = numel - r + 2)) as [E|[[Hr' E]|[Hr' E]]] by lia.
  - apply bind_ub_r; [destruct (Nat.leb 3 r); [apply na_bind; auto; intros; apply na_ok|apply na_ok]|]. intros p.
    apply bind_ub_r; [destruct (Nat.leb 2 r); [apply na_bind; auto; intros; apply na_ok|apply na_ok]|]. intros p'.
    apply bind_ub_l. apply U; auto. lia.
  - apply bind_ub_r; [destruct (Nat.leb 3 r); [apply na_bind; auto; intros; apply na_ok|apply na_ok]|]. intros p.
    apply bind_ub_l. rewrite (proj2 (Nat.leb_le 2 r)) by lia. apply bind_ub_l. apply U; auto.
  - apply bind_ub_l. rewrite (proj2 (Nat.leb_le 3 r)) by lia. apply bind_ub_l. apply U; auto.
Qed.
End S.

(** the iteration of a scalar loop that handles element [i] *)
Lemma in_blk (body : nat -> action) s k n i : k >= 1 -> s <= i < blk_end s k n ->
  exists j, In (body j) (map (fun m => body (s + k * m)) (seq 0 ((n - s) / k))) /\ j <= i < j + k /\ j + k <= blk_end s k n.
Proof.
  intros Hk [H1 H2]. exists (s + k * ((i - s) / k)). unfold blk_end in *.
  assert (Hk0 : k <> 0) by lia. pose proof (Nat.div_mod (i - s) k Hk0) as D. pose proof (Nat.mod_upper_bound (i - s) k Hk0) as U.
  set (a := (i - s) / k) in *. set (b := (n - s) / k) in *. set (c := (i - s) mod k) in *. clearbody a b c.
  assert (a < b) by nia.
  split; [|split; nia]. apply (in_map (fun m => body (s + k * m))). apply in_seq. lia.
Qed.

Section T.
Variables (din : dtype) (numel : nat) (inm : mem) (i : nat).
Hypothesis Hfp : is_fp din.
Hypothesis Hin : esize din * numel <= length inm.
Hypothesis Hi : i < numel.
(* tail loop of single elements, after the list [acts] and up to [s] *)
Lemma tail_u8 q acts s : (forall x, na (q x)) -> q (elem_at din inm i) = UB -> s <= i -> s <= numel ->
  exists a, In a (fst (run_loop numel (acts, s) (blk_cond numel 1, 1, act_u8 din q))) /\ ub_on inm a.
Proof.
  intros Hq Hb Hs Hsn. rewrite run_loop_blk by lia. cbn [fst].
  assert (E : i < blk_end s 1 numel) by (unfold blk_end; rewrite Nat.div_1_r; lia).
  assert (Hk : 1 >= 1) by lia. destruct (in_blk (act_u8 din q) s 1 numel i Hk (conj Hs E)) as (j & HI & Hj & _).
  exists (act_u8 din q j). split; [apply in_or_app; right; exact HI|]. assert (j = i) by lia. subst j. apply ub_u8; auto.
Qed.
Lemma tail_u4 q acts s : (forall x, na (q x)) -> q (elem_at din inm i) = UB -> s <= i -> s <= numel -> Nat.Even s ->
  exists a, In a (u4_finish din q numel (run_loop numel (acts, s) (blk_cond numel 2, 2, act_u4_pair din q))) /\ ub_on inm a.
Proof.
  intros Hq Hb Hs Hsn [c Hc]. rewrite run_loop_blk by lia. unfold u4_finish. cbn [fst snd].
  pose proof (blk_end_le s 2 numel Hsn) as Hle.
  destruct (le_lt_dec (blk_end s 2 numel) i) as [H|H].
  - assert (numel = S (blk_end s 2 numel)) by (unfold blk_end in *; lia).
    assert (HO : Nat.odd numel = true). { apply Nat.odd_spec. unfold blk_end in *. exists (c + (numel - s) / 2). lia. }
    rewrite HO. eexists. split; [apply in_or_app; right; left; reflexivity|]. apply ub_u4_odd with (i := i); auto. lia.
  - assert (Hk : 2 >= 1) by lia. destruct (in_blk (act_u4_pair din q) s 2 numel i Hk (conj Hs H)) as (j & HI & Hj & Hjn).
    exists (act_u4_pair din q j). split; [apply in_or_app; left; apply in_or_app; right; exact HI|]. apply ub_u4_pair with (numel := numel) (i := i); auto. lia.
Qed.
Lemma tail_u2 q zq acts s : (forall x, na (q x)) -> na zq -> q (elem_at din inm i) = UB -> s <= i -> s <= numel -> s mod 4 = 0 ->
  exists a, In a (u2_finish din q zq numel (run_loop numel (acts, s) (blk_cond numel 4, 4, act_u2_quad din q))) /\ ub_on inm a.
Proof.
  intros Hq Hzq Hb Hs Hsn Hm. rewrite run_loop_blk by lia. unfold u2_finish. cbn [fst snd].
  pose proof (blk_end_le s 4 numel Hsn) as Hle.
  assert (HE : blk_end s 4 numel = numel - numel mod 4) by (unfold blk_end in *; lia).
  destruct (le_lt_dec (blk_end s 4 numel) i) as [H|H].
  - rewrite (proj2 (Nat.eqb_neq (numel mod 4) 0)) by lia.
    eexists. split; [apply in_or_app; right; left; reflexivity|]. rewrite HE. apply ub_u2_tail with (i := i); auto. lia.
  - assert (Hk : 4 >= 1) by lia. destruct (in_blk (act_u2_quad din q) s 4 numel i Hk (conj Hs H)) as (j & HI & Hj & Hjn).
    exists (act_u2_quad din q j). split; [apply in_or_app; left; apply in_or_app; right; exact HI|]. apply ub_u2_quad with (numel := numel) (i := i); auto. lia.
Qed.
(* scalar loop before the vector loop *)
Lemma peel_u8 q acts l : (forall x, na (q x)) -> q (elem_at din inm i) = UB -> i < l ->
  exists a, In a (acts ++ map (act_u8 din q) (seq 0 l)) /\ ub_on inm a.
Proof.
  intros Hq Hb Hl. exists (act_u8 din q i). split; [apply in_or_app; right; apply in_map, in_seq; lia|]. apply ub_u8; auto.
Qed.
End T.

Section K.
Variables (A : arch) (din dout : dtype) (rm : round_mode_t) (oaddr : Z) (numel : nat) (scale thr : f32) (zp : Z).
Variables (inm : mem) (i : nat).
Let inv := fdiv f_one scale.
Hypothesis Hfp : is_fp din.
Hypothesis Hqd : is_q dout.
Hypothesis Hin : esize din * numel <= length inm.
Hypothesis Hi : i < numel.
Hypothesis HV : q_vec A din dout rm oaddr numel i = false.
Hypothesis Hbad : q_scalar din dout rm thr inv zp (elem_at din inm i) = UB.

Lemma na_q_scalar x : na (q_scalar din dout rm thr inv zp x).
Proof. unfold q_scalar. destruct (specialised _ _ _); [apply na_q_nearest_i32|apply na_quant_step]. Qed.

Lemma later numel' acts c s a : In a acts -> In a (fst (run_loop numel' (acts, s) c)).
Proof. intros H. destruct (run_loop_fst_app numel' (acts, s) c) as [l ->]. apply in_or_app. auto. Qed.

Theorem scalar_ub : exists a, In a (quant_generic A din dout rm oaddr numel scale thr zp) /\ ub_on inm a.
Proof.
  pose proof na_q_scalar as NQ. pose proof Hfp as HF. unfold q_vec in HV. cbv zeta in HV.
  pose proof (peel_len_le oaddr 16 numel) as P16. pose proof (peel_len_le oaddr 32 numel) as P32.
  assert (B : forall n m, blk_end 0 (n * m) numel mod n = 0 \/ n = 0).
  { intros n m. destruct (Nat.eq_dec n 0); auto. left. unfold blk_end. rewrite Nat.add_0_l.
    replace (n * m * ((numel - 0) / (n * m))) with (m * ((numel - 0) / (n * m)) * n) by lia. apply Nat.mod_mul; auto. }
  assert (BE : forall m, Nat.Even (blk_end 0 (2 * m) numel)).
  { intros m. destruct (B 2 m) as [H|H]; [|discriminate]. exists (blk_end 0 (2 * m) numel / 2). pose proof (Nat.div_mod (blk_end 0 (2 * m) numel) 2). lia. }
  assert (B4 : forall m, blk_end 0 (4 * m) numel mod 4 = 0) by (intros m; destruct (B 4 m); [auto|discriminate]).
  assert (E0 : Nat.Even 0) by (exists 0; reflexivity).
  assert (GP : has_vec A din dout rm = false -> forall q, (forall x, na (q x)) -> q (elem_at din inm i) = UB ->
     exists a, In a (fst (seq_loops numel [ (blk_cond numel 1, 1, act_u8 din q) ])) /\ ub_on inm a).
  { intros _ q H1 H2. apply tail_u8 with (i := i); auto; lia. }
  assert (NG : forall mx x, na (quant_step_scalar rm mx thr inv zp x)) by (intros; apply na_quant_step).
  assert (NS : forall mx x, na (q_nearest_i32 mx inv (wrap32 zp) x)) by (intros; apply na_q_nearest_i32).
  unfold quant_generic. cbv zeta. fold inv.
  destruct Hfp as [->| ->], Hqd as [->|[->| ->]]; destruct rm; cbn [q_scalar specialised limit_max] in *;
    try change (code_max DT_UINT2) with 3%Z in *; try change (code_max DT_UINT4) with 15%Z in *; try change (code_max DT_UINT8) with 255%Z in *.
  all: try (unfold quant_uint2, seq_loops; cbn [fold_left]; apply tail_u2 with (i := i); auto; [apply na_ok|lia|lia]).
  all: try (unfold quant_uint4, seq_loops; cbn [fold_left]; apply tail_u4 with (i := i); auto; lia).
  all: try (unfold quant_plain, seq_loops; cbn [fold_left]; apply tail_u8 with (i := i); auto; lia).
  - (* f32 uint4 *) unfold quant_f32_to_uint4_nearest. cbv zeta. fold inv. unfold seq_loops.
    destruct A; cbn [app fold_left q_start q_block] in *; try (apply tail_u4 with (i := i); auto; lia);
      rewrite run_loop_blk by lia; apply tail_u4 with (i := i); auto; try (apply (BE 8)); try (apply blk_end_le; lia); lia.
  - (* f32 uint8 *) unfold quant_f32_to_uint8_nearest. cbv zeta. fold inv. unfold seq_loops.
    destruct A; cbn [app fold_left q_start q_block] in *; try (apply tail_u8 with (i := i); auto; lia).
    + rewrite (run_loop_peel numel oaddr 15 16 _ _ eq_refl mask15). destruct (le_lt_dec (peel_len oaddr 16 numel) i) as [H|H].
      * rewrite run_loop_blk by lia. apply tail_u8 with (i := i); auto; [lia|apply blk_end_le; lia].
      * destruct (peel_u8 _ numel inm i HF Hin Hi (q_nearest_i32 255 inv (wrap32 zp)) [] (peel_len oaddr 16 numel)) as (a & Ia & Ua); auto.
        exists a. split; auto. rewrite run_loop_blk by lia. apply later. apply in_or_app. auto.
    + rewrite (run_loop_peel numel oaddr 31 32 _ _ eq_refl mask31). destruct (le_lt_dec (peel_len oaddr 32 numel) i) as [H|H].
      * rewrite run_loop_blk by lia. apply tail_u8 with (i := i); auto; [lia|apply blk_end_le; lia].
      * destruct (peel_u8 _ numel inm i HF Hin Hi (q_nearest_i32 255 inv (wrap32 zp)) [] (peel_len oaddr 32 numel)) as (a & Ia & Ua); auto.
        exists a. split; auto. rewrite run_loop_blk by lia. apply later. apply in_or_app. auto.
    + rewrite (run_loop_peel numel oaddr 15 16 _ _ eq_refl mask15). destruct (le_lt_dec (peel_len oaddr 16 numel) i) as [H|H].
      * rewrite run_loop_blk by lia. apply tail_u8 with (i := i); auto; [lia|apply blk_end_le; lia].
      * destruct (peel_u8 _ numel inm i HF Hin Hi (q_nearest_i32 255 inv (wrap32 zp)) [] (peel_len oaddr 16 numel)) as (a & Ia & Ua); auto.
        exists a. split; auto. rewrite run_loop_blk by lia. apply later. apply in_or_app. auto.
    + rewrite (run_loop_peel numel oaddr 15 16 _ _ eq_refl mask15). destruct (le_lt_dec (peel_len oaddr 16 numel) i) as [H|H].
      * rewrite run_loop_blk by lia. apply tail_u8 with (i := i); auto; [lia|apply blk_end_le; lia].
      * destruct (peel_u8 _ numel inm i HF Hin Hi (q_nearest_i32 255 inv (wrap32 zp)) [] (peel_len oaddr 16 numel)) as (a & Ia & Ua); auto.
        exists a. split; auto. rewrite run_loop_blk by lia. apply later. apply in_or_app. auto.
    + rewrite run_loop_blk by lia. apply tail_u8 with (i := i); auto; [lia|apply blk_end_le; lia].
  - (* bf16 uint2 *) unfold quant_bf16_to_uint2_nearest. cbv zeta. fold inv. unfold seq_loops.
    destruct A; cbn [app fold_left q_start q_block] in *; try (apply tail_u2 with (i := i); auto; lia);
      rewrite run_loop_blk by lia; apply tail_u2 with (i := i); auto; try (apply (B4 4)); try (apply blk_end_le; lia); lia.
  - (* bf16 uint4 *) unfold quant_bf16_to_uint4_nearest. cbv zeta. fold inv. unfold seq_loops.
    destruct A; cbn [app fold_left q_start q_block] in *; try (apply tail_u4 with (i := i); auto; lia);
      rewrite run_loop_blk by lia; apply tail_u4 with (i := i); auto; try (apply (BE 8)); try (apply (BE 16)); try (apply blk_end_le; lia); lia.
  - (* bf16 uint8 *) unfold quant_bf16_to_uint8_nearest. cbv zeta. fold inv. unfold seq_loops.
    destruct A; cbn [app fold_left q_start q_block] in *; try (apply tail_u8 with (i := i); auto; lia).
    + rewrite (run_loop_peel numel oaddr 15 16 _ _ eq_refl mask15). destruct (le_lt_dec (peel_len oaddr 16 numel) i) as [H|H].
      * rewrite run_loop_blk by lia. apply tail_u8 with (i := i); auto; [lia|apply blk_end_le; lia].
      * destruct (peel_u8 _ numel inm i HF Hin Hi (q_nearest_i32 255 inv (wrap32 zp)) [] (peel_len oaddr 16 numel)) as (a & Ia & Ua); auto.
        exists a. split; auto. rewrite run_loop_blk by lia. apply later. apply in_or_app. auto.
    + rewrite (run_loop_peel numel oaddr 31 32 _ _ eq_refl mask31). destruct (le_lt_dec (peel_len oaddr 32 numel) i) as [H|H].
      * rewrite run_loop_blk by lia. apply tail_u8 with (i := i); auto; [lia|apply blk_end_le; lia].
      * destruct (peel_u8 _ numel inm i HF Hin Hi (q_nearest_i32 255 inv (wrap32 zp)) [] (peel_len oaddr 32 numel)) as (a & Ia & Ua); auto.
        exists a. split; auto. rewrite run_loop_blk by lia. apply later. apply in_or_app. auto.
    + rewrite run_loop_blk by lia. apply tail_u8 with (i := i); auto; [lia|apply blk_end_le; lia].
    + rewrite run_loop_blk by lia. apply tail_u8 with (i := i); auto; [lia|apply blk_end_le; lia].
Qed.
End K.

(** runs with an undefined step *)
Lemma run_trace_ub inm tr a : Forall quiet tr -> In a tr -> ub_on inm a -> forall o, run_trace inm tr o = UB.
Proof.
  intros HQ. induction HQ as [|b tr Hb HF IH]; intros HI HU o; [destruct HI|]. cbn [run_trace]. destruct HI as [->|HI].
  - apply bind_ub_l. unfold run_action. destruct (_ && _); auto. rewrite HU. reflexivity.
  - apply bind_ub_r; [apply run_action_na; auto|]. intros x. apply IH; auto.
Qed.
Lemma interleave_In {T} jobs tr (a : T) l : interleave jobs tr -> In l jobs -> In a l -> In a tr.
Proof.
  intros H. revert l. induction H as [ls H|pre b m post tr H IH]; intros l Hl Ha.
  - rewrite Forall_forall in H. rewrite (H l Hl) in Ha. destruct Ha.
  - apply in_app_or in Hl. destruct Hl as [Hl|[Hl|Hl]].
    + right. apply (IH l); auto. apply in_or_app; auto.
    + subst l. destruct Ha as [->|Ha]; [left; reflexivity|]. right. apply (IH m); auto. apply in_or_app. right. left. reflexivity.
    + right. apply (IH l); auto. apply in_or_app. right. right. auto.
Qed.
Lemma ub_shift inm di do a : ub_on (skipn di inm) a -> ub_on inm (shift_action di do a).
Proof. intros H o. cbn [a_fn a_ioff a_ilen shift_action]. rewrite <- slice_skipn. apply H. Qed.

Lemma quantize_ub A nt oaddr in_size din out_size dout scale zp rm thr inm outm r t i :
  float_type din -> quant_type dout -> out_size = bytes_for dout (numel din in_size) -> sizes_ok in_size (numel din in_size) nt ->
  in_size <= length inm ->
  let n := numel din in_size in
  let b := part_bound (per_byte dout) n nt in
  t < nt -> b t <= i < b (S t) ->
  q_vec A din dout rm (oaddr + Z.of_nat (b t / per_byte dout)) (b (S t) - b t) (i - b t) = false ->
  q_scalar din dout rm (thr_of rm thr) (fdiv f_one scale) zp (elem_at din inm i) = UB ->
  returns inm outm (quantize A nt oaddr (Z.of_nat in_size) din (Z.of_nat out_size) dout scale zp rm thr) r -> r = UB.
Proof.
  intros Hfp Hq Ho HS Hin n b Ht Hi HV HU HR.
  pose proof (quantize_jobs A nt oaddr in_size din out_size dout scale zp rm thr Hfp Hq Ho HS) as E. rewrite E in HR.
  apply returns_jobs in HR. destruct HR as (tr & HI & ->). fold n in E, HI.
  assert (Hnt : nt > 0) by lia.
  assert (Hpe : per_byte dout > 0) by (clear -Hq; destruct Hq as [->|[->| ->]]; cbn; lia).
  pose proof (part_le (per_byte dout) n nt Hpe Hnt (S t)) as Hle. fold b in Hle.
  pose proof (numel_le din in_size Hfp) as Hne. fold n in Hne.
  destruct (scalar_ub A din dout rm (oaddr + Z.of_nat (b t / per_byte dout)) (b (S t) - b t) scale (thr_of rm thr) zp
     (skipn (esize din * b t) inm) (i - b t) Hfp Hq) as (a & Ia & Ua); auto.
  - rewrite skipn_length. nia.
  - lia.
  - rewrite elem_at_skipn by auto. replace (b t + (i - b t)) with i by lia. exact HU.
  - eapply run_trace_ub with (a := shift_action (esize din * b t) (b t / per_byte dout) a).
    + eapply interleave_Forall; [exact HI|]. apply Forall_forall. intros l Hl. apply in_map_iff in Hl. destruct Hl as (u & <- & _).
      unfold q_job. destruct (_ <=? _); [constructor|]. apply Forall_map. eapply Forall_impl; [|apply quant_generic_quiet]. intros x. apply shift_quiet.
    + eapply interleave_In; [exact HI|apply in_map, in_seq; split; [apply Nat.le_0_l|exact Ht]|].
      unfold q_job. fold b. rewrite (proj2 (Nat.leb_gt _ _)) by lia. apply in_map. exact Ia.
    + apply ub_shift. exact Ua.
Qed.
