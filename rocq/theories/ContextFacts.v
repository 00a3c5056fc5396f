(** ContextFacts.v -- the partition tiles the element range; the jobs of a call together tile the output span. *)
From Coq Require Import ZArith List Lia Bool Arith ZifyBool ZifyNat.
From Verif Require Import Base Floats Simd Dtypes Spec QuantKernels DequantKernels ExecFacts QuantFacts QuantKernelFacts
  QuantGenericFacts DequantFacts DequantGenericFacts Context.
Import ListNotations.

Ltac Zify.zify_post_hook ::= Z.div_mod_to_equations.

(** first element of the range of thread [t]; [part_bound pe n nt nt = n] *)
Definition part_bound (pe n nt t : nat) : nat := if t =? nt then n else pe * (n * t / nt / pe).

Section Bounds.
Variables (pe n nt : nat).
Hypothesis Hpe : pe > 0.
Hypothesis Hnt : nt > 0.
Notation b := (part_bound pe n nt).

Lemma raw_le t : t <= nt -> n * t / nt <= n.
Proof. intros H. apply Nat.div_le_upper_bound; nia. Qed.
Lemma align_le v : pe * (v / pe) <= v.
Proof. apply Nat.mul_div_le. lia. Qed.

Lemma part_0 : b 0 = 0.
Proof. unfold part_bound. destruct (Nat.eqb_spec 0 nt); [lia|]. rewrite Nat.mul_0_r, Nat.div_0_l by lia. rewrite Nat.div_0_l by lia. lia. Qed.
Lemma part_last : b nt = n.
Proof. unfold part_bound. rewrite Nat.eqb_refl. reflexivity. Qed.
Lemma part_le t : t <= nt -> b t <= n.
Proof.
  intros H. unfold part_bound. destruct (t =? nt); auto.
  pose proof (raw_le t H). pose proof (align_le (n * t / nt)). lia.
Qed.
Lemma part_mono t : t < nt -> b t <= b (S t).
Proof.
  intros H. unfold part_bound at 2. destruct (Nat.eqb_spec (S t) nt).
  - apply part_le. lia.
  - unfold part_bound. destruct (Nat.eqb_spec t nt); [lia|].
    apply Nat.mul_le_mono_l, Nat.div_le_mono; [lia|]. apply Nat.div_le_mono; [lia|]. nia.
Qed.
Lemma part_aligned t : t < nt -> exists k, b t = pe * k.
Proof. intros H. unfold part_bound. destruct (Nat.eqb_spec t nt); [lia|]. eauto. Qed.
Lemma part_mono' t u : t <= u <= nt -> b t <= b u.
Proof.
  intros [H1 H2]. induction u as [|u IH]; [replace t with 0 by lia; auto|].
  destruct (Nat.eq_dec t (S u)) as [->|Hne]; auto. pose proof (part_mono u). lia.
Qed.
End Bounds.

Lemma quot_div_nat a b : (Z.quot (Z.of_nat a) (Z.of_nat b) = Z.of_nat (a / b))%Z.
Proof. rewrite Nat2Z.inj_div. destruct b; [destruct a; reflexivity|]. apply Z.quot_div_nonneg; lia. Qed.
Lemma rem_mod_nat a b : b <> 0 -> (Z.rem (Z.of_nat a) (Z.of_nat b) = Z.of_nat (a mod b))%Z.
Proof. intros H. rewrite Nat2Z.inj_mod. apply Z.rem_mod_nonneg; lia. Qed.

Definition desc_n (d : descriptor) (n : nat) : Prop := d_numel d = Z.of_nat n.

Theorem partition_row_ok d n nt t pe :
  d_numel d = Z.of_nat n -> pack_elems d = Z.of_nat pe -> pe > 0 -> t < nt ->
  (Z.of_nat n * Z.of_nat nt < 2 ^ 63)%Z -> (Z.of_nat nt < 2 ^ 63)%Z ->
  partition_row d (Z.of_nat t) (Z.of_nat nt) =
  Ok (if part_bound pe n nt (S t) <=? part_bound pe n nt t then None
      else Some (Z.of_nat (part_bound pe n nt t), Z.of_nat (part_bound pe n nt (S t) - part_bound pe n nt t))).
Proof.
  intros Hn Hpe Hp0 Ht Hov Hov2. unfold partition_row. rewrite Hn, Hpe.
  replace (Z.of_nat t + 1)%Z with (Z.of_nat (S t)) by lia.
  rewrite <- !Nat2Z.inj_mul.
  assert (I0 : i64 (Z.of_nat (n * t)) = Ok (Z.of_nat (n * t))) by (unfold i64, in_i64; assert (n * t <= n * nt) by nia; destruct (_ && _) eqn:E; auto; lia).
  assert (I1 : i64 (Z.of_nat (S t)) = Ok (Z.of_nat (S t))) by (unfold i64, in_i64; destruct (_ && _) eqn:E; auto; lia).
  assert (I2 : i64 (Z.of_nat (n * S t)) = Ok (Z.of_nat (n * S t))).
  { unfold i64, in_i64. assert (n * S t <= n * nt) by nia. destruct (_ && _) eqn:E; auto; lia. }
  rewrite I0, I1. cbn [bind]. rewrite <- Nat2Z.inj_mul. rewrite I2. cbn [bind].
  replace (Z.max 1 (Z.of_nat nt)) with (Z.of_nat nt) by lia.
  rewrite !quot_div_nat.
  assert (AL : forall v, (if (Z.of_nat pe =? 1)%Z then Z.of_nat v else (Z.of_nat v - Z.rem (Z.of_nat v) (Z.of_nat pe))%Z) = Z.of_nat (pe * (v / pe))).
  { intros v. destruct (Z.eqb_spec (Z.of_nat pe) 1) as [E|E].
    - replace pe with 1 by lia. rewrite Nat.div_1_r. lia.
    - rewrite rem_mod_nat by lia. pose proof (Nat.div_mod v pe). pose proof (Nat.mod_le v pe). lia. }
  assert (B1 : (if (Z.of_nat pe =? 1)%Z then Z.of_nat (n * t / nt) else if (Z.of_nat pe =? 1)%Z then Z.of_nat (n * t / nt) else (Z.of_nat (n * t / nt) - Z.rem (Z.of_nat (n * t / nt)) (Z.of_nat pe))%Z) = Z.of_nat (part_bound pe n nt t)).
  { unfold part_bound. destruct (Nat.eqb_spec t nt); [lia|]. rewrite <- AL. destruct (Z.of_nat pe =? 1)%Z; reflexivity. }
  assert (B2 : (if ((Z.of_nat (S t) =? Z.of_nat nt) || (Z.of_nat pe =? 1))%Z then Z.of_nat (n * S t / nt) else if (Z.of_nat pe =? 1)%Z then Z.of_nat (n * S t / nt) else (Z.of_nat (n * S t / nt) - Z.rem (Z.of_nat (n * S t / nt)) (Z.of_nat pe))%Z) = Z.of_nat (part_bound pe n nt (S t))).
  { unfold part_bound. destruct (Nat.eqb_spec (S t) nt) as [E|E].
    - replace (Z.of_nat (S t) =? Z.of_nat nt)%Z with true by lia. cbn [orb]. rewrite E. rewrite Nat.div_mul by lia. reflexivity.
    - replace (Z.of_nat (S t) =? Z.of_nat nt)%Z with false by lia. cbn [orb]. rewrite <- AL. destruct (Z.of_nat pe =? 1)%Z; reflexivity. }
  rewrite B1, B2. clear.
  destruct (Nat.leb_spec (part_bound pe n nt (S t)) (part_bound pe n nt t)); destruct (Z.leb_spec (Z.of_nat (part_bound pe n nt (S t))) (Z.of_nat (part_bound pe n nt t))); try lia; auto.
  do 3 f_equal. lia.
Qed.

(** ** Collecting jobs *)
Lemma sequence_ok {T} (f : nat -> res T) (g : nat -> T) l : (forall t, In t l -> f t = Ok (g t)) -> sequence (map f l) = Ok (map g l).
Proof.
  induction l as [|t l IH]; intros H; simpl; auto.
  rewrite H by (left; auto). cbn [bind]. rewrite IH by (intros; apply H; right; auto). reflexivity.
Qed.

Lemma jobs_tile (b : nat -> nat) (pos : nat -> nat) (J : nat -> list action) nt : 
  (forall t, t < nt -> tiles (pos (b t)) (pos (b (S t))) (J t)) ->
  forall u, u <= nt -> tiles (pos (b 0)) (pos (b u)) (concat (map J (seq 0 u))).
Proof.
  intros H. induction u as [|u IH]; intros Hu; [constructor|].
  rewrite seq_S, map_app, concat_app. eapply tiles_app; [apply IH; lia|].
  simpl. rewrite app_nil_r. apply H. lia.
Qed.

Lemma jobs_Forall (Q : action -> Prop) (J : nat -> list action) nt : (forall t, t < nt -> Forall Q (J t)) -> Forall Q (concat (map J (seq 0 nt))).
Proof.
  intros H. apply Forall_concat. apply Forall_forall. intros l Hl. apply in_map_iff in Hl. destruct Hl as (t & <- & Ht).
  apply in_seq in Ht. apply H. lia.
Qed.

(** which thread owns element i *)
Fixpoint owner_aux (b : nat -> nat) (i : nat) (fuel t : nat) : nat :=
  match fuel with O => t | S f => if i <? b (S t) then t else owner_aux b i f (S t) end.
Definition owner (b : nat -> nat) (nt i : nat) : nat := owner_aux b i nt 0.

Lemma owner_unique b nt i t : (forall u v, u <= v <= nt -> b u <= b v) -> t < nt -> b t <= i < b (S t) -> owner b nt i = t.
Proof.
  intros Hm Ht Hi. unfold owner.
  assert (G : forall f s, s <= t -> t < s + f -> owner_aux b i f s = t).
  { induction f as [|f IH]; intros s H1 H2; [lia|]. cbn [owner_aux].
    destruct (Nat.ltb_spec i (b (S s))) as [H|H].
    - destruct (Nat.eq_dec s t); auto. assert (b (S s) <= b t) by (apply Hm; lia). lia.
    - apply IH; [|lia]. destruct (Nat.eq_dec s t); [subst; lia|lia]. }
  apply G; lia.
Qed.
