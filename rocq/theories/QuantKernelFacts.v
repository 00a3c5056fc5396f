(** QuantKernelFacts.v -- every quantization kernel tiles its output and stores the packed codes. *)
From Coq Require Import ZArith List Lia Bool Arith ZifyBool ZifyNat.
From Verif Require Import Base Floats Simd Dtypes Spec QuantKernels ExecFacts QuantFacts.
Import ListNotations.

Ltac Zify.zify_post_hook ::= Z.div_mod_to_equations.

(** ** Sequences of loops *)
Definition St (P : nat -> Prop) (Q : action -> Prop) (pos : nat -> nat) (st : list action * nat) : Prop :=
  P (snd st) /\ Forall Q (fst st) /\ tiles (pos 0) (pos (snd st)) (fst st).

Lemma run_loop_St (P : nat -> Prop) (Q : action -> Prop) (pos : nat -> nat) numel st cond stride body :
  St P Q pos st ->
  (forall i, P i -> cond i = true -> P (i + stride) /\ Q (body i) /\
     a_ooff (body i) = pos i /\ pos (i + stride) = pos i + a_olen (body i)) ->
  stride >= 1 -> (forall j, numel <= j -> cond j = false) ->
  St P Q pos (run_loop numel st (cond, stride, body)) /\
  cond (snd (run_loop numel st (cond, stride, body))) = false.
Proof.
  intros (HP & HQ & HT) Hstep Hs Hc. unfold run_loop. destruct st as [acts i]. simpl in HP, HQ, HT.
  destruct (loop_inv P Q pos numel cond stride body Hstep i HP) as (I1 & I2 & I3).
  pose proof (loop_exit numel cond stride body numel i Hs Hc) as HE.
  destruct (loop numel cond stride body i) as [l j]. simpl in *.
  split; [|apply HE; lia]. split; auto. split.
  - apply Forall_app; auto.
  - eapply tiles_app; eauto.
Qed.

Lemma St_weaken (P P' : nat -> Prop) Q pos st : St P Q pos st -> (P (snd st) -> P' (snd st)) -> St P' Q pos st.
Proof. intros (H1 & H2 & H3) H. split; auto. Qed.

Lemma St_nil (P : nat -> Prop) Q pos : P 0 -> St P Q pos ([], 0).
Proof. intros H. split; [|split]; simpl; auto. constructor. Qed.

Lemma blk_cond_ge numel n j : numel <= j -> blk_cond numel n j = false.
Proof. unfold blk_cond. lia. Qed.
Lemma blk_cond_false numel n j : blk_cond numel n j = false -> numel <= j + (n - 1).
Proof. unfold blk_cond. lia. Qed.
Lemma peel_cond_false oaddr mask numel j : peel_cond oaddr mask numel j = false -> j < numel -> (Z.land (oaddr + Z.of_nat j) mask =? 0)%Z = true.
Proof. unfold peel_cond. intros H Hlt. destruct (Nat.ltb_spec j numel); [|lia]. simpl in H. apply negb_false_iff in H. exact H. Qed.
Lemma peel_cond_ge oaddr mask numel j : numel <= j -> peel_cond oaddr mask numel j = false.
Proof. unfold peel_cond. intros. destruct (Nat.ltb_spec j numel); simpl; auto; lia. Qed.

Lemma run_loop_fst_app numel st c : exists l, fst (run_loop numel st c) = fst st ++ l.
Proof.
  destruct st as [acts i], c as [[cond stride] body]. unfold run_loop.
  destruct (loop numel cond stride body i) as [l j]. exists l. reflexivity.
Qed.

(** ** Packed bytes of a code sequence *)
Definition byte_of (dout : dtype) (C : nat -> Z) (k : nat) : Z :=
  match dout with
  | DT_UINT4 => (C (2 * k)%nat + 16 * C (2 * k + 1)%nat)%Z
  | DT_UINT2 => (C (4 * k)%nat + 4 * C (4 * k + 1)%nat + 16 * C (4 * k + 2)%nat + 64 * C (4 * k + 3)%nat)%Z
  | _ => C k
  end.
Definition cut (numel : nat) (C : nat -> Z) (i : nat) : Z := if Nat.ltb i numel then C i else 0%Z.

Lemma cut_lt numel C i : i < numel -> cut numel C i = C i.
Proof. intros H. unfold cut. destruct (Nat.ltb_spec i numel); auto; lia. Qed.
Lemma cut_ge numel C i : numel <= i -> cut numel C i = 0%Z.
Proof. intros H. unfold cut. destruct (Nat.ltb_spec i numel); auto; lia. Qed.

Definition kernel_ok (inm outm : mem) (dout : dtype) (numel : nat) (C : nat -> Z) (acts : list action) : Prop :=
  tiles 0 (bytes_for dout numel) acts /\ Forall (act_ok inm outm (byte_of dout (cut numel C))) acts.

Lemma bytes_for_u8 n : bytes_for DT_UINT8 n = n.
Proof. unfold bytes_for. cbn [bit_size]. lia. Qed.
Lemma bytes_for_u4 n : bytes_for DT_UINT4 n = (n + 1) / 2.
Proof. unfold bytes_for. cbn [bit_size]. lia. Qed.
Lemma bytes_for_u2 n : bytes_for DT_UINT2 n = (n + 3) / 4.
Proof. unfold bytes_for. cbn [bit_size]. lia. Qed.
Lemma div2_half i : Nat.div2 i = i / 2.
Proof. apply Nat.div2_div. Qed.
Lemma quarter_div i : quarter_idx i = i / 4.
Proof. unfold quarter_idx. rewrite !div2_half, Nat.div_div by lia. reflexivity. Qed.

Lemma land_mask k z : (0 <= k)%Z -> (Z.land z (2 ^ k - 1) =? 0)%Z = true -> (z mod 2 ^ k = 0)%Z.
Proof. intros Hk H. rewrite Z.sub_1_r, <- Z.ones_equiv, Z.land_ones in H by auto. lia. Qed.

(** Where a block loop that starts at index [p] stops. *)
Definition blk_end (p n numel : nat) : nat := p + n * ((numel - p) / n).
Lemma blk_end_le p n numel : p <= numel -> blk_end p n numel <= numel.
Proof. intros H. unfold blk_end. destruct (Nat.eq_dec n 0) as [->|Hn]; [lia|]. pose proof (Nat.mul_div_le (numel - p) n Hn). lia. Qed.
Lemma blk_end_stop p n numel i : n >= 1 -> p <= i <= numel -> (i - p) mod n = 0 -> numel <= i + (n - 1) -> i = blk_end p n numel.
Proof.
  intros Hn Hi Hm He. unfold blk_end. pose proof (Nat.div_mod (i - p) n) as D. rewrite Hm in D.
  assert ((numel - p) / n = (i - p) / n); [|nia].
  symmetry. apply Nat.div_unique with (r := numel - i); nia.
Qed.
Lemma blk_end_in p n numel i : n >= 1 -> p <= i -> (i - p) mod n = 0 -> i + n <= numel -> i + n <= blk_end p n numel.
Proof.
  intros Hn Hi Hm He. unfold blk_end. pose proof (Nat.div_mod (i - p) n) as D. rewrite Hm in D.
  assert ((i - p) / n + 1 <= (numel - p) / n); [|nia]. apply Nat.div_le_lower_bound; nia.
Qed.
Lemma blk_step p n i : p <= i -> (i - p) mod n = 0 -> n >= 1 -> p <= i + n /\ (i + n - p) mod n = 0.
Proof. intros H1 H2 H3. split; [lia|]. replace (i + n - p) with (i - p + 1 * n) by lia. rewrite Nat.mod_add by lia. auto. Qed.

(** the number of elements before the first aligned output address *)
Definition peel_len (oaddr al : Z) (numel : nat) : nat := Nat.min numel (Z.to_nat ((- oaddr) mod al)).
Lemma peel_len_le oaddr al n : peel_len oaddr al n <= n.
Proof. unfold peel_len. lia. Qed.

Section Quant.
Variables (inm outm : mem) (din : dtype) (numel : nat) (C : nat -> Z).
(** [V i]: element [i] is handled by the vector loop. *)
Variable V : nat -> bool.
Hypothesis Hfp : is_fp din.
Hypothesis Hbytes : Forall is_byte inm.
Hypothesis Hin : esize din * numel <= length inm.

Notation x i := (elem_at din inm i).

Lemma esize_pos : esize din = 4 \/ esize din = 2.
Proof. destruct Hfp as [-> | ->]; cbn; auto. Qed.

Lemma ld_sub k n i : k < n -> esize din * i + esize din * n <= length inm ->
  ld din (sub (k * esize din) (esize din) (slice (esize din * i) (n * esize din) inm)) = x (i + k).
Proof.
  intros Hk Hb. rewrite sub_slice by nia. replace (esize din * i + k * esize din) with (esize din * (i + k)) by lia.
  apply ld_slice; auto.
Qed.

(** *** uint8 *)
Section U8.
Hypothesis Hout : numel <= length outm.
Variable q : f32 -> res Z.
Hypothesis Hq : forall i, i < numel -> V i = false -> q (x i) = Ok (C i).
Notation Q := (act_ok inm outm (byte_of DT_UINT8 (cut numel C))).

Lemma act_u8_ok i : i < numel -> V i = false -> Q (act_u8 din q i).
Proof.
  intros Hi HV. unfold act_ok, act_u8. cbn [a_ioff a_ilen a_ooff a_olen a_fn].
  split; [nia|]. split; [lia|]. rewrite ld_slice by auto. rewrite Hq by auto.
  cbn [bind seq map byte_of]. rewrite cut_lt by auto. reflexivity.
Qed.

Lemma act_block_u8_ok n f i :
  i + n <= numel ->
  f (slice (esize din * i) (esize din * n) inm) = map C (seq i n) ->
  Q (act_block din n n id_idx f i).
Proof.
  intros Hi Hf. unfold act_ok, act_block, id_idx. cbn [a_ioff a_ilen a_ooff a_olen a_fn].
  split; [nia|]. split; [lia|]. rewrite Hf. f_equal. apply map_ext_in. intros k Hk. apply in_seq in Hk.
  cbn [byte_of]. rewrite cut_lt by lia. reflexivity.
Qed.

Lemma act_block_stream_u8_ok oaddr al n f i :
  i + n <= numel -> ((oaddr + Z.of_nat i) mod al = 0)%Z ->
  f (slice (esize din * i) (esize din * n) inm) = map C (seq i n) ->
  Q (act_block_stream oaddr al din n n f i).
Proof.
  intros Hi Ha Hf. unfold act_ok, act_block_stream. cbn [a_ioff a_ilen a_ooff a_olen a_fn].
  split; [nia|]. split; [lia|]. rewrite Ha, Z.eqb_refl, Hf. f_equal. apply map_ext_in. intros k Hk. apply in_seq in Hk.
  cbn [byte_of]. rewrite cut_lt by lia. reflexivity.
Qed.

(** no vector element from index [i] on *)
Definition Ple (i : nat) : Prop := i <= numel /\ forall j, i <= j < numel -> V j = false.
Definition Pal (p : nat) (oaddr al : Z) (i : nat) : Prop := i = p /\ (i < numel -> ((oaddr + Z.of_nat i) mod al = 0)%Z).

Lemma u8_scalar_loop st : St Ple Q (fun i => i) st ->
  St Ple Q (fun i => i) (run_loop numel st (blk_cond numel 1, 1, act_u8 din q)) /\
  snd (run_loop numel st (blk_cond numel 1, 1, act_u8 din q)) = numel.
Proof.
  intros HS. destruct (run_loop_St Ple Q (fun i => i) numel st (blk_cond numel 1) 1 (act_u8 din q)) as [H1 H2]; auto.
  - intros i [Hi Hj] Hc. unfold blk_cond in Hc. unfold Ple in *. split; [split; [lia|intros; apply Hj; lia]|]. split; [apply act_u8_ok; [lia|apply Hj; lia]|]. split; reflexivity.
  - intros. apply blk_cond_ge; auto.
  - split; auto. destruct H1 as ((H1 & _) & _). apply blk_cond_false in H2. lia.
Qed.

Lemma u8_peel oaddr mask al : (0 < al)%Z -> (forall z, (Z.land z mask =? 0)%Z = (z mod al =? 0)%Z) ->
  (forall j, j < peel_len oaddr al numel -> V j = false) ->
  St (Pal (peel_len oaddr al numel) oaddr al) Q (fun i => i) (run_loop numel ([], 0) (peel_cond oaddr mask numel, 1, act_u8 din q)).
Proof.
  intros Hal Hm HV. set (p := peel_len oaddr al numel) in *. pose proof (peel_len_le oaddr al numel) as Hp. fold p in Hp.
  assert (HM : (0 <= (- oaddr) mod al < al)%Z) by (apply Z.mod_pos_bound; auto).
  assert (HE : ((oaddr + (- oaddr) mod al) mod al = 0)%Z) by (rewrite Z.add_mod_idemp_r by lia; rewrite Z.add_opp_diag_r; apply Z.mod_0_l; lia).
  destruct (run_loop_St (fun i => i <= p) Q (fun i => i) numel ([], 0) (peel_cond oaddr mask numel) 1 (act_u8 din q)) as [H1 H2]; auto.
  - apply St_nil. lia.
  - intros i Hi Hc. unfold peel_cond in Hc. apply andb_prop in Hc. destruct Hc as [Hc Ha]. rewrite Hm in Ha.
    assert (i < p). { destruct (Nat.eq_dec i p) as [->|]; [|lia]. exfalso. unfold p, peel_len in *.
      rewrite Nat.min_r in Ha by lia. rewrite Z2Nat.id in Ha by lia. rewrite HE in Ha. discriminate. }
    split; [lia|]. split; [apply act_u8_ok; [lia|apply HV; auto]|]. split; reflexivity.
  - intros. apply peel_cond_ge; auto.
  - apply (St_weaken _ _ _ _ _ H1). clear H1. intros H1. revert H1 H2. generalize (snd (run_loop numel ([], 0) (peel_cond oaddr mask numel, 1, act_u8 din q))).
    intros i Hi H2. assert (Ea : i < numel -> ((oaddr + Z.of_nat i) mod al = 0)%Z).
    { intros L. pose proof (peel_cond_false _ _ _ _ H2 L) as K. rewrite Hm in K. apply Z.eqb_eq in K. exact K. }
    split; [|exact Ea]. destruct (Nat.eq_dec i p) as [|Ne]; auto. exfalso.
    assert (L : i < numel) by lia. specialize (Ea L).
    assert (Hlt : (Z.of_nat i < (- oaddr) mod al)%Z) by (unfold p, peel_len in *; lia).
    apply Z.mod_divide in Ea; [|lia]. destruct Ea as [c Hc].
    assert (Hu : ((- oaddr) mod al = Z.of_nat i)%Z); [|lia].
    symmetry. apply Z.mod_unique with (q := (- c)%Z); [left; lia|]. lia.
Qed.

Lemma u8_stream_loop p oaddr al n f st : (0 < al)%Z -> n >= 1 -> (Z.of_nat n mod al = 0)%Z -> p <= numel ->
  (forall i, p <= i -> i + n <= blk_end p n numel -> f (slice (esize din * i) (esize din * n) inm) = map C (seq i n)) ->
  St (Pal p oaddr al) Q (fun i => i) st ->
  St (fun i => i = blk_end p n numel) Q (fun i => i) (run_loop numel st (blk_cond numel n, n, act_block_stream oaddr al din n n f)).
Proof.
  intros Hal Hn Hna Hp Hf HS.
  destruct (run_loop_St (fun i => p <= i <= numel /\ (i - p) mod n = 0 /\ (i < numel -> ((oaddr + Z.of_nat i) mod al = 0)%Z)) Q (fun i => i) numel st
     (blk_cond numel n) n (act_block_stream oaddr al din n n f)) as [H1 H2]; auto.
  - apply (St_weaken _ _ _ _ _ HS). intros [-> Ha]. split; [lia|]. rewrite Nat.sub_diag, Nat.mod_0_l by lia. auto.
  - intros i (Hi1 & Hi3 & Hi2) Hc. unfold blk_cond in Hc. destruct (blk_step p n i) as [S1 S2]; try lia; auto. split; [|split].
    + split; [lia|]. split; auto. intros _. rewrite Nat2Z.inj_add, Z.add_assoc, Z.add_mod, Hna, Hi2 by lia. rewrite Z.add_0_l. apply Z.mod_0_l. lia.
    + apply act_block_stream_u8_ok; [lia|apply Hi2; lia|apply Hf; [lia|apply blk_end_in; auto; lia]].
    + split; reflexivity.
  - intros. apply blk_cond_ge; auto.
  - apply (St_weaken _ _ _ _ _ H1). intros (H & H' & _). apply blk_cond_false in H2. apply blk_end_stop; auto.
Qed.

Lemma u8_block_loop p n f st : n >= 1 -> p <= numel ->
  (forall i, p <= i -> i + n <= blk_end p n numel -> f (slice (esize din * i) (esize din * n) inm) = map C (seq i n)) ->
  St (fun i => i = p) Q (fun i => i) st ->
  St (fun i => i = blk_end p n numel) Q (fun i => i) (run_loop numel st (blk_cond numel n, n, act_block din n n id_idx f)).
Proof.
  intros Hn Hp Hf HS.
  destruct (run_loop_St (fun i => p <= i <= numel /\ (i - p) mod n = 0) Q (fun i => i) numel st (blk_cond numel n) n (act_block din n n id_idx f)) as [H1 H2]; auto.
  - apply (St_weaken _ _ _ _ _ HS). intros ->. split; [lia|]. rewrite Nat.sub_diag, Nat.mod_0_l by lia. auto.
  - intros i [Hi Hm] Hc. unfold blk_cond in Hc. destruct (blk_step p n i) as [S1 S2]; try lia; auto. split; [split; [lia|auto]|]. split; [|split; reflexivity].
    apply act_block_u8_ok; [lia|]. apply Hf; [lia|apply blk_end_in; auto; lia].
  - intros. apply blk_cond_ge; auto.
  - apply (St_weaken _ _ _ _ _ H1). intros (H & H'). apply blk_cond_false in H2. apply blk_end_stop; auto.
Qed.

Lemma u8_done st : St Ple Q (fun i => i) st -> snd st = numel -> kernel_ok inm outm DT_UINT8 numel C (fst st).
Proof.
  intros (_ & H2 & H3) E. split; auto. rewrite bytes_for_u8. rewrite E in H3. exact H3.
Qed.
End U8.

(** *** uint4 *)
Section U4.
Hypothesis Hout : (numel + 1) / 2 <= length outm.
Hypothesis HC : forall i, i < numel -> (0 <= C i <= 15)%Z.
Variable q : f32 -> res Z.
Hypothesis Hq : forall i, i < numel -> V i = false -> q (x i) = Ok (C i).
Hypothesis Hz : forall i, i < numel -> V i = false -> exists z, q f_zero = Ok z /\ (0 <= z <= 15)%Z.
Notation Q := (act_ok inm outm (byte_of DT_UINT4 (cut numel C))).
Definition P2 (i : nat) : Prop := i <= numel /\ i mod 2 = 0 /\ forall j, i <= j < numel -> V j = false.

Lemma act_u4_pair_ok i : P2 i -> i + 1 < numel -> Q (act_u4_pair din q i).
Proof.
  intros (_ & Hm & HV) Hi. unfold act_ok, act_u4_pair. cbn [a_ioff a_ilen a_ooff a_olen a_fn].
  pose proof esize_pos as He.
  split; [nia|]. split; [rewrite div2_half; lia|].
  pose proof (ld_sub 0 2 i) as L0. pose proof (ld_sub 1 2 i) as L1.
  cbn [Nat.mul] in L0, L1. rewrite !Nat.add_0_r in L0, L1. cbn [Nat.mul]. rewrite !Nat.add_0_r.
  rewrite L0 by nia. rewrite L1 by nia. rewrite ?Nat.add_0_r. rewrite !Hq by (try apply HV; lia).
  cbn [bind seq map byte_of]. rewrite div2_half.
  replace (2 * (i / 2)) with i by lia. rewrite !cut_lt by lia.
  rewrite pack2_eq by (apply HC; lia). reflexivity.
Qed.

Lemma act_u4_odd_ok i : P2 i -> numel <= i + 1 -> i < numel -> Q (act_u4_odd din q numel i).
Proof.
  intros (_ & Hm & HV) H1 H2. unfold act_ok, act_u4_odd. cbn [a_ioff a_ilen a_ooff a_olen a_fn].
  pose proof esize_pos as He.
  split; [nia|]. split; [rewrite div2_half; lia|].
  rewrite ld_slice by auto. replace (numel - 1) with i by lia. rewrite Hq by (try apply HV; lia).
  destruct (Hz i H2 (HV i ltac:(lia))) as (z & -> & Hzr). cbn [bind seq map byte_of]. rewrite div2_half.
  replace (2 * (i / 2)) with i by lia. rewrite cut_lt, cut_ge by lia.
  pose proof (HC i H2). rewrite pack2_eq by auto.
  change 15%Z with (Z.ones 4). rewrite Z.land_ones by lia. change (2 ^ 4)%Z with 16%Z.
  f_equal. f_equal. lia.
Qed.

Lemma u4_block_loop n f : n >= 1 -> n mod 2 = 0 ->
  (forall i, i + n <= blk_end 0 n numel -> f (slice (esize din * i) (esize din * n) inm) = map (fun k => (C (i + 2 * k)%nat + 16 * C (i + 2 * k + 1)%nat)%Z) (seq 0 (n / 2))) ->
  (forall j, blk_end 0 n numel <= j < numel -> V j = false) ->
  St P2 Q half_idx (run_loop numel ([], 0) (blk_cond numel n, n, act_block din n (n / 2) half_idx f)).
Proof.
  intros Hn Hn2 Hf HV.
  destruct (run_loop_St (fun i => i <= numel /\ i mod 2 = 0 /\ i mod n = 0) Q half_idx numel ([], 0) (blk_cond numel n) n (act_block din n (n / 2) half_idx f)) as [H1 H2]; auto.
  - apply St_nil. rewrite !Nat.mod_0_l by lia. lia.
  - intros i (Hi & Hm & Hmn) Hc. unfold blk_cond in Hc.
    assert (Hmn' : (i - 0) mod n = 0) by (rewrite Nat.sub_0_r; auto).
    split; [split; [lia|split; [lia|]]; destruct (blk_step 0 n i) as [_ S2]; auto; try lia; rewrite Nat.sub_0_r in S2; auto|]. split.
    + assert (Hfi := Hf i ltac:(apply blk_end_in; auto; lia)).
      unfold act_ok, act_block, half_idx. cbn [a_ioff a_ilen a_ooff a_olen a_fn]. rewrite div2_half.
      split; [nia|]. clear Hmn Hmn'. split; [lia|]. rewrite Hfi. f_equal.
      replace (seq (i / 2) (n / 2)) with (map (fun k => i / 2 + k) (seq 0 (n / 2))).
      2:{ generalize (i / 2) (n / 2). clear. intros a b. revert a. induction b as [|b IH]; intros a; simpl; auto.
          f_equal; [lia|]. rewrite <- (IH (S a)). rewrite <- seq_shift, map_map. apply map_ext. intros; lia. }
      rewrite map_map. apply map_ext_in. intros k Hk. apply in_seq in Hk. cbn [byte_of].
      replace (2 * (i / 2 + k)) with (i + 2 * k) by lia. rewrite !cut_lt by lia. reflexivity.
    + clear Hmn Hmn'. unfold act_block, half_idx. cbn [a_ooff a_olen]. rewrite !div2_half. lia.
  - intros. apply blk_cond_ge; auto.
  - apply (St_weaken _ _ _ _ _ H1). intros (H & H' & H''). apply blk_cond_false in H2. split; [auto|split; [auto|]].
    intros j Hj. apply HV. rewrite <- (blk_end_stop 0 n numel _ Hn (conj (Nat.le_0_l _) H)); auto. rewrite Nat.sub_0_r. auto.
Qed.

Lemma u4_finish_ok st : St P2 Q half_idx st ->
  kernel_ok inm outm DT_UINT4 numel C (u4_finish din q numel (run_loop numel st (blk_cond numel 2, 2, act_u4_pair din q))).
Proof.
  intros HS.
  destruct (run_loop_St P2 Q half_idx numel st (blk_cond numel 2) 2 (act_u4_pair din q)) as [H1 H2]; auto.
  - intros i Hi Hc. unfold blk_cond in Hc. destruct Hi as (Hi & Hm & HV). split; [split; [lia|split; [lia|intros; apply HV; lia]]|]. split.
    + apply act_u4_pair_ok; [split; auto|lia].
    + unfold act_u4_pair, half_idx. cbn [a_ooff a_olen]. rewrite !div2_half. lia.
  - intros. apply blk_cond_ge; auto.
  - remember (run_loop numel st (blk_cond numel 2, 2, act_u4_pair din q)) as st'.
    destruct H1 as ((Hi & Hm & HV) & HF & HT). apply blk_cond_false in H2. cbn [Nat.sub] in H2.
    unfold u4_finish, kernel_ok. rewrite bytes_for_u4. destruct (Nat.odd numel) eqn:Eo.
    + assert (Ho : numel mod 2 = 1). { apply Nat.odd_spec in Eo. destruct Eo. lia. }
      assert (snd st' + 1 = numel) by lia.
      split.
      * eapply tiles_app; [exact HT|]. constructor; [reflexivity|].
        cbn [a_olen act_u4_odd]. unfold half_idx. rewrite div2_half.
        replace (snd st' / 2 + 1) with ((numel + 1) / 2) by lia. constructor.
      * apply Forall_app. split; auto. constructor; auto. apply act_u4_odd_ok; [split; auto|lia|lia].
    + assert (Ho : numel mod 2 = 0).
      { assert (Ee : Nat.even numel = true) by (rewrite <- Nat.negb_odd, Eo; reflexivity). apply Nat.even_spec in Ee. destruct Ee. lia. }
      rewrite app_nil_r. split; auto.
      unfold half_idx in HT. rewrite !div2_half in HT. replace ((numel + 1) / 2) with (snd st' / 2) by lia. exact HT.
Qed.
End U4.

(** *** uint2 *)
Section U2.
Hypothesis Hout : (numel + 3) / 4 <= length outm.
Hypothesis HC : forall i, i < numel -> (0 <= C i <= 3)%Z.
Variable q : f32 -> res Z.
Hypothesis Hq : forall i, i < numel -> V i = false -> q (x i) = Ok (C i).
Variable zq : res Z.
Hypothesis Hz : forall i, i < numel -> V i = false -> exists z, zq = Ok z.
Notation Q := (act_ok inm outm (byte_of DT_UINT2 (cut numel C))).
Definition P4 (i : nat) : Prop := i <= numel /\ i mod 4 = 0 /\ forall j, i <= j < numel -> V j = false.

Lemma act_u2_quad_ok i : P4 i -> i + 3 < numel -> Q (act_u2_quad din q i).
Proof.
  intros (_ & Hm & HV) Hi. unfold act_ok, act_u2_quad. cbn [a_ioff a_ilen a_ooff a_olen a_fn].
  pose proof esize_pos as He. fold (quarter_idx i). rewrite quarter_div.
  split; [nia|]. split; [lia|].
  pose proof (ld_sub 0 4 i) as L0. pose proof (ld_sub 1 4 i) as L1. pose proof (ld_sub 2 4 i) as L2. pose proof (ld_sub 3 4 i) as L3.
  replace (0 * esize din) with 0 in L0 by lia. replace (1 * esize din) with (esize din) in L1 by lia.
  rewrite L0, L1, L2, L3 by nia. rewrite !Nat.add_0_r. rewrite !Hq by (try apply HV; lia).
  cbn [bind seq map byte_of]. 
  replace (4 * (i / 4)) with i by lia. rewrite !cut_lt by lia.
  rewrite pack4_eq by (apply HC; lia). reflexivity.
Qed.

Lemma u2_tail_one_ok i : i < numel -> V i = false -> u2_tail_one q zq (x i) = Ok (C i).
Proof.
  intros Hi HVi. unfold u2_tail_one. rewrite Hq by auto. destruct (Hz i Hi HVi) as (z & ->). cbn [bind].
  rewrite land3 by (apply HC; auto). reflexivity.
Qed.

Lemma act_u2_tail_ok i : P4 i -> numel <= i + 3 -> i < numel -> Q (act_u2_tail din q zq numel i).
Proof.
  intros (_ & Hm & HV) H1 H2.
  assert (Hr : numel mod 4 = numel - i) by lia.
  unfold act_ok, act_u2_tail. rewrite Hr. cbn [a_ioff a_ilen a_ooff a_olen a_fn].
  pose proof esize_pos as He. fold (quarter_idx i). rewrite quarter_div.
  split; [nia|]. split; [lia|].
  assert (L : forall k, k < numel - i -> ld din (sub (k * esize din) (esize din) (slice (esize din * i) ((numel - i) * esize din) inm)) = x (i + k)).
  { intros k Hk. apply ld_sub; nia. }
  rewrite (L 0) by lia. rewrite Nat.add_0_r. rewrite (u2_tail_one_ok i) by (try apply HV; lia).
  cbn [seq map byte_of]. replace (4 * (i / 4)) with i by lia. rewrite (cut_lt _ _ i) by lia.
  rewrite (cut_ge _ _ (i + 3)) by lia. rewrite Z.mul_0_r, Z.add_0_r.
  pose proof (HC i H2) as B0.
  destruct (Nat.leb_spec 3 (numel - i)) as [L3|L3]; destruct (Nat.leb_spec 2 (numel - i)) as [L2|L2]; try lia.
  - rewrite (L 2), (L 1) by lia. rewrite !u2_tail_one_ok by (try apply HV; lia). cbn [bind]. rewrite !cut_lt by lia.
    pose proof (HC (i + 1)) as B1. pose proof (HC (i + 2)) as B2.
    f_equal. f_equal. rewrite !Z.shiftl_mul_pow2 by lia.
    rewrite Z.lor_comm, (Z.lor_comm (_ * 2 ^ 4)). rewrite (Z.mul_comm _ (2 ^ 2)), (Z.mul_comm _ (2 ^ 4)).
    rewrite Z.lor_assoc. rewrite (lor_add _ _ 2) by lia. rewrite (lor_add _ _ 4) by lia. lia.
  - rewrite (L 1) by lia. rewrite !u2_tail_one_ok by (try apply HV; lia). cbn [bind]. rewrite (cut_ge _ _ (i + 2)) by lia. rewrite cut_lt by lia.
    pose proof (HC (i + 1)) as B1.
    f_equal. f_equal. rewrite !Z.shiftl_mul_pow2 by lia. rewrite Z.lor_0_l.
    rewrite Z.lor_comm, (Z.mul_comm _ (2 ^ 2)). rewrite (lor_add _ _ 2) by lia. lia.
  - cbn [bind]. rewrite !cut_ge by lia. rewrite Z.lor_0_l. f_equal. f_equal. lia.
Qed.

Lemma u2_block_loop n f : n >= 1 -> n mod 4 = 0 ->
  (forall i, i + n <= blk_end 0 n numel -> f (slice (esize din * i) (esize din * n) inm) =
     map (fun k => (C (i + 4 * k)%nat + 4 * C (i + 4 * k + 1)%nat + 16 * C (i + 4 * k + 2)%nat + 64 * C (i + 4 * k + 3)%nat)%Z) (seq 0 (n / 4))) ->
  (forall j, blk_end 0 n numel <= j < numel -> V j = false) ->
  St P4 Q quarter_idx (run_loop numel ([], 0) (blk_cond numel n, n, act_block din n (n / 4) quarter_idx f)).
Proof.
  intros Hn Hn2 Hf HV.
  destruct (run_loop_St (fun i => i <= numel /\ i mod 4 = 0 /\ i mod n = 0) Q quarter_idx numel ([], 0) (blk_cond numel n) n (act_block din n (n / 4) quarter_idx f)) as [H1 H2]; auto.
  - apply St_nil. rewrite !Nat.mod_0_l by lia. lia.
  - intros i (Hi & Hm & Hmn) Hc. unfold blk_cond in Hc.
    assert (Hmn' : (i - 0) mod n = 0) by (rewrite Nat.sub_0_r; auto).
    split; [split; [lia|split; [lia|]]; destruct (blk_step 0 n i) as [_ S2]; auto; try lia; rewrite Nat.sub_0_r in S2; auto|]. split.
    + assert (Hfi := Hf i ltac:(apply blk_end_in; auto; lia)).
      unfold act_ok, act_block. cbn [a_ioff a_ilen a_ooff a_olen a_fn]. rewrite quarter_div.
      split; [nia|]. clear Hmn Hmn'. split; [lia|]. rewrite Hfi. f_equal.
      replace (seq (i / 4) (n / 4)) with (map (fun k => i / 4 + k) (seq 0 (n / 4))).
      2:{ generalize (i / 4) (n / 4). clear. intros a b. revert a. induction b as [|b IH]; intros a; simpl; auto.
          f_equal; [lia|]. rewrite <- (IH (S a)). rewrite <- seq_shift, map_map. apply map_ext. intros; lia. }
      rewrite map_map. apply map_ext_in. intros k Hk. apply in_seq in Hk. cbn [byte_of].
      replace (4 * (i / 4 + k)) with (i + 4 * k) by lia. rewrite !cut_lt by lia. reflexivity.
    + clear Hmn Hmn'. unfold act_block. cbn [a_ooff a_olen]. rewrite !quarter_div. lia.
  - intros. apply blk_cond_ge; auto.
  - apply (St_weaken _ _ _ _ _ H1). intros (H & H' & H''). apply blk_cond_false in H2. split; [auto|split; [auto|]].
    intros j Hj. apply HV. rewrite <- (blk_end_stop 0 n numel _ Hn (conj (Nat.le_0_l _) H)); auto. rewrite Nat.sub_0_r. auto.
Qed.

Lemma u2_finish_ok st : St P4 Q quarter_idx st ->
  kernel_ok inm outm DT_UINT2 numel C (u2_finish din q zq numel (run_loop numel st (blk_cond numel 4, 4, act_u2_quad din q))).
Proof.
  intros HS.
  destruct (run_loop_St P4 Q quarter_idx numel st (blk_cond numel 4) 4 (act_u2_quad din q)) as [H1 H2]; auto.
  - intros i Hi Hc. unfold blk_cond in Hc. destruct Hi as (Hi & Hm & HV). split; [split; [lia|split; [lia|intros; apply HV; lia]]|]. split.
    + apply act_u2_quad_ok; [split; auto|lia].
    + unfold act_u2_quad. cbn [a_ooff a_olen]. fold (quarter_idx i). rewrite !quarter_div. lia.
  - intros. apply blk_cond_ge; auto.
  - remember (run_loop numel st (blk_cond numel 4, 4, act_u2_quad din q)) as st'.
    destruct H1 as ((Hi & Hm & HV) & HF & HT). apply blk_cond_false in H2. cbn [Nat.sub] in H2.
    unfold u2_finish, kernel_ok. rewrite bytes_for_u2. destruct (Nat.eqb_spec (numel mod 4) 0) as [Eo|Eo].
    + rewrite app_nil_r. split; auto. rewrite !quarter_div in HT.
      replace ((numel + 3) / 4) with (snd st' / 4) by lia. exact HT.
    + split.
      * eapply tiles_app; [exact HT|]. constructor; [reflexivity|].
        cbn [a_olen act_u2_tail]. rewrite quarter_div.
        replace (snd st' / 4 + 1) with ((numel + 3) / 4) by lia. constructor.
      * apply Forall_app. split; auto. constructor; auto. apply act_u2_tail_ok; [split; auto|lia|lia].
Qed.
End U2.
End Quant.
