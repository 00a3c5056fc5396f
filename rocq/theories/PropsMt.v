(** PropsMt.v -- C45: for every seed and every history, the generator behind the stochastic threshold delivers 64-bit outputs, never gets stuck,
    and a thread's thresholds never stay at zero. *)
From Coq Require Import ZArith NArith List Lia Bool Arith ZifyBool ZifyNat Reals Lra.
From Flocq Require Import Core.
From Verif Require Import Base Floats Dtypes Spec Rng PropsRng Mt19937.
Import ListNotations.
Local Open Scope Z_scope.

(** ** 64-bit words *)
Lemma word_bits x : 0 <= x < 2 ^ 64 <-> 0 <= x /\ forall i, 64 <= i -> Z.testbit x i = false.
Proof.
  split.
  - intros [H0 H1]. split; auto. intros i Hi. rewrite <- (Z.mod_small x (2 ^ 64)) by lia. apply Z.mod_pow2_bits_high. lia.
  - intros [H0 H]. split; auto. replace x with (x mod 2 ^ 64); [apply Z.mod_pos_bound; lia|].
    apply Z.bits_inj'. intros i Hi. destruct (Z_lt_ge_dec i 64); [apply Z.mod_pow2_bits_low; lia|].
    rewrite Z.mod_pow2_bits_high by lia. symmetry. apply H. lia.
Qed.
Lemma word_lxor a b : 0 <= a < 2 ^ 64 -> 0 <= b < 2 ^ 64 -> 0 <= Z.lxor a b < 2 ^ 64.
Proof. rewrite !word_bits. intros [A HA] [B HB]. split; [apply Z.lxor_nonneg; tauto|]. intros i Hi. rewrite Z.lxor_spec, HA, HB by lia. reflexivity. Qed.
Lemma word_land a b : 0 <= a -> 0 <= b < 2 ^ 64 -> 0 <= Z.land a b < 2 ^ 64.
Proof. rewrite !word_bits. intros A [B HB]. split; [apply Z.land_nonneg; tauto|]. intros i Hi. rewrite Z.land_spec, HB by lia. apply andb_false_r. Qed.
Lemma word_lor a b : 0 <= a < 2 ^ 64 -> 0 <= b < 2 ^ 64 -> 0 <= Z.lor a b < 2 ^ 64.
Proof. rewrite !word_bits. intros [A HA] [B HB]. split; [apply Z.lor_nonneg; tauto|]. intros i Hi. rewrite Z.lor_spec, HA, HB by lia. reflexivity. Qed.
Lemma word_shiftr a k : 0 <= k -> 0 <= a < 2 ^ 64 -> 0 <= Z.shiftr a k < 2 ^ 64.
Proof.
  intros Hk. rewrite !word_bits. intros [A HA]. split; [apply Z.shiftr_nonneg; auto|]. intros i Hi. rewrite Z.shiftr_spec by lia. apply HA. lia.
Qed.
Lemma word_wrap x : 0 <= wrap_u64 x < 2 ^ 64.
Proof. unfold wrap_u64. change 18446744073709551616 with (2 ^ 64). apply Z.mod_pos_bound. lia. Qed.

Lemma mt_mul_word y : 0 <= y < 2 ^ 64 -> 0 <= mt_mul y < 2 ^ 64.
Proof. intros H. unfold mt_mul. apply word_lxor; [apply word_shiftr; auto; lia|]. unfold mt_a. destruct (Z.odd y); lia. Qed.
(** the matrix A is invertible: its top row makes a nonzero *)
Lemma mt_mul_zero y : 0 <= y < 2 ^ 64 -> mt_mul y = 0 -> y = 0.
Proof.
  intros H E. unfold mt_mul in E. apply Z.lxor_eq in E. rewrite Z.shiftr_div_pow2 in E by lia. change (2 ^ 1) with 2 in E.
  pose proof (Z.div2_odd y) as M. rewrite Z.div2_div in M. unfold mt_a in E. destruct (Z.odd y); cbn [Z.b2z] in M; lia.
Qed.
(** the two halves of a word *)
Lemma halves_zero x y : 0 <= x < 2 ^ 64 -> Z.lor (Z.land x mt_upper) (Z.land y mt_lower) = 0 -> Z.land x mt_upper = 0 /\ Z.land y mt_lower = 0.
Proof. intros _ H. apply Z.lor_eq_0_iff in H. auto. Qed.
Lemma halves_all x : 0 <= x < 2 ^ 64 -> Z.land x mt_upper = 0 -> Z.land x mt_lower = 0 -> x = 0.
Proof.
  intros H U L. assert (E : Z.land x (Z.ones 64) = x). { rewrite Z.land_ones by lia. apply Z.mod_small. auto. }
  rewrite <- E. change (Z.ones 64) with (Z.lor mt_upper mt_lower). rewrite Z.land_lor_distr_r, U, L. reflexivity.
Qed.
Lemma halves_join x : 0 <= x < 2 ^ 64 -> Z.lor (Z.land x mt_upper) (Z.land x mt_lower) = x.
Proof.
  intros H. rewrite <- Z.land_lor_distr_r. change (Z.lor mt_upper mt_lower) with (Z.ones 64). rewrite Z.land_ones by lia. apply Z.mod_small. auto.
Qed.

(** ** tempering is injective: each of its four steps is *)
Lemma xorshift_right u d x y : 0 < u -> 0 <= x < 2 ^ 64 -> 0 <= y < 2 ^ 64 ->
  Z.lxor x (Z.land (Z.shiftr x u) d) = Z.lxor y (Z.land (Z.shiftr y u) d) -> x = y.
Proof.
  intros Hu Hx Hy E. rewrite word_bits in Hx, Hy. destruct Hx as [_ Hx], Hy as [_ Hy].
  assert (P : forall k : nat, forall i, 0 <= i -> 64 - Z.of_nat k <= i -> Z.testbit x i = Z.testbit y i).
  { induction k as [|k IH]; intros i Hi Hk; [rewrite Hx, Hy by lia; reflexivity|].
    assert (B : Z.testbit (Z.lxor x (Z.land (Z.shiftr x u) d)) i = Z.testbit (Z.lxor y (Z.land (Z.shiftr y u) d)) i) by (rewrite E; reflexivity).
    rewrite !Z.lxor_spec, !Z.land_spec, !Z.shiftr_spec in B by lia. rewrite (IH (i + u)) in B by lia.
    destruct (Z.testbit x i), (Z.testbit y i), (Z.testbit y (i + u) && Z.testbit d i); cbn in B; congruence. }
  apply Z.bits_inj'. intros i Hi. apply (P 64%nat); lia.
Qed.
Lemma xorshift_left s b x y : 0 < s -> Z.lxor x (Z.land (Z.shiftl x s) b) = Z.lxor y (Z.land (Z.shiftl y s) b) -> x = y.
Proof.
  intros Hs E.
  assert (P : forall k : nat, forall i, 0 <= i -> i < Z.of_nat k -> Z.testbit x i = Z.testbit y i).
  { induction k as [|k IH]; intros i Hi Hk; [lia|].
    assert (B : Z.testbit (Z.lxor x (Z.land (Z.shiftl x s) b)) i = Z.testbit (Z.lxor y (Z.land (Z.shiftl y s) b)) i) by (rewrite E; reflexivity).
    rewrite !Z.lxor_spec, !Z.land_spec, !Z.shiftl_spec in B by lia.
    assert (Q : Z.testbit x (i - s) = Z.testbit y (i - s)). { destruct (Z_lt_ge_dec (i - s) 0); [rewrite !Z.testbit_neg_r by lia; reflexivity|]. apply IH; lia. }
    rewrite Q in B. destruct (Z.testbit x i), (Z.testbit y i), (Z.testbit y (i - s) && Z.testbit b i); cbn in B; congruence. }
  apply Z.bits_inj'. intros i Hi. apply (P (Z.to_nat (i + 1))); lia.
Qed.
Lemma temper_word x : 0 <= x < 2 ^ 64 -> 0 <= mt_temper x < 2 ^ 64.
Proof.
  intros H. unfold mt_temper. cbv zeta.
  set (z1 := Z.lxor x _). assert (H1 : 0 <= z1 < 2 ^ 64) by (apply word_lxor; auto; apply word_land; [apply Z.shiftr_nonneg; lia|lia]).
  set (z2 := Z.lxor z1 _). assert (H2 : 0 <= z2 < 2 ^ 64) by (apply word_lxor; auto; apply word_land; [apply Z.shiftl_nonneg; lia|lia]).
  set (z3 := Z.lxor z2 _). assert (H3 : 0 <= z3 < 2 ^ 64) by (apply word_lxor; auto; apply word_land; [apply Z.shiftl_nonneg; lia|lia]).
  apply word_lxor; auto. apply word_shiftr; auto; lia.
Qed.
Lemma temper_inj x y : 0 <= x < 2 ^ 64 -> 0 <= y < 2 ^ 64 -> mt_temper x = mt_temper y -> x = y.
Proof.
  intros Hx Hy. unfold mt_temper. cbv zeta.
  set (x1 := Z.lxor x _). assert (X1 : 0 <= x1 < 2 ^ 64) by (apply word_lxor; auto; apply word_land; [apply Z.shiftr_nonneg; lia|lia]).
  set (x2 := Z.lxor x1 _). assert (X2 : 0 <= x2 < 2 ^ 64) by (apply word_lxor; auto; apply word_land; [apply Z.shiftl_nonneg; lia|lia]).
  set (x3 := Z.lxor x2 _). assert (X3 : 0 <= x3 < 2 ^ 64) by (apply word_lxor; auto; apply word_land; [apply Z.shiftl_nonneg; lia|lia]).
  set (y1 := Z.lxor y _). assert (Y1 : 0 <= y1 < 2 ^ 64) by (apply word_lxor; auto; apply word_land; [apply Z.shiftr_nonneg; lia|lia]).
  set (y2 := Z.lxor y1 _). assert (Y2 : 0 <= y2 < 2 ^ 64) by (apply word_lxor; auto; apply word_land; [apply Z.shiftl_nonneg; lia|lia]).
  set (y3 := Z.lxor y2 _). assert (Y3 : 0 <= y3 < 2 ^ 64) by (apply word_lxor; auto; apply word_land; [apply Z.shiftl_nonneg; lia|lia]).
  intros E.
  assert (E3 : x3 = y3).
  { apply (xorshift_right 43 (Z.ones 64)); auto; [lia|]. rewrite !Z.land_ones by lia.
    rewrite !Z.mod_small by (apply word_shiftr; auto; lia). exact E. }
  apply xorshift_left in E3; [|lia]. apply xorshift_left in E3; [|lia]. apply xorshift_right in E3; auto. lia.
Qed.
Lemma temper_zero : mt_temper 0 = 0. Proof. reflexivity. Qed.

(** ** the word sequence X_0, X_1, ... *)
Definition is_state (st : list Z) : Prop := length st = mt_n /\ Forall (fun x => 0 <= x < 2 ^ 64) st.
Lemma fill_ok k i p : length (mt_fill k i p) = k /\ Forall (fun x => 0 <= x < 2 ^ 64) (mt_fill k i p).
Proof.
  revert i p. induction k as [|k IH]; intros i p; [split; [reflexivity|constructor]|]. cbn [mt_fill]. cbv zeta.
  destruct (IH (i + 1) (wrap_u64 (6364136223846793005 * Z.lxor p (Z.shiftr p 62) + i))) as [L F]. split; [cbn [length]; auto|].
  constructor; auto. apply word_wrap.
Qed.
Lemma seed_ok s : is_state (mt_seed s).
Proof.
  unfold mt_seed. cbv zeta. destruct (fill_ok (mt_n - 1) 1 (wrap_u64 s)) as [L F]. split.
  - cbn [length]. rewrite L. reflexivity.
  - constructor; auto. apply word_wrap.
Qed.
Lemma state_nth st i : is_state st -> 0 <= nth i st 0 < 2 ^ 64.
Proof.
  intros [L F]. destruct (Nat.lt_ge_cases i (length st)) as [H|H].
  - rewrite Forall_forall in F. apply F, nth_In. auto.
  - rewrite nth_overflow by auto. lia.
Qed.
Lemma next_word st : is_state st -> 0 <= mt_next st < 2 ^ 64.
Proof.
  intros H. unfold mt_next. apply word_lxor; [apply state_nth; auto|]. apply mt_mul_word, word_lor; apply word_land; try (unfold mt_upper, mt_lower; lia);
    apply state_nth; auto.
Qed.
Lemma step_ok st : is_state st -> is_state (mt_step st).
Proof.
  intros H. pose proof (next_word st H) as N. destruct H as [L F]. unfold mt_step. destruct st as [|x st]; [discriminate|]. cbn [tl]. split.
  - rewrite app_length. cbn [length] in *. lia.
  - apply Forall_app. split; [inversion F; auto|constructor; auto].
Qed.
Lemma state_ok s k : is_state (mt_state s k).
Proof. induction k; [apply seed_ok|apply step_ok; auto]. Qed.

(** X_j: the oldest word of the state after j steps *)
Definition mt_word (s : Z) (j : nat) : Z := nth 0 (mt_state s j) 0.
Lemma step_nth st i : is_state st -> (S i < mt_n)%nat -> nth i (mt_step st) 0 = nth (S i) st 0.
Proof.
  intros [L _] H. unfold mt_step. destruct st as [|x st]; [discriminate|]. cbn [tl nth]. cbn [length] in L. rewrite app_nth1 by lia. reflexivity.
Qed.
Lemma state_word s k i : (i < mt_n)%nat -> nth i (mt_state s k) 0 = mt_word s (k + i).
Proof.
  revert k. induction i as [|i IH]; intros k H.
  - rewrite Nat.add_0_r. reflexivity.
  - rewrite <- step_nth by (auto using state_ok). change (mt_step (mt_state s k)) with (mt_state s (S k)). rewrite IH by lia. f_equal. lia.
Qed.
Lemma next_is_word s k : mt_next (mt_state s k) = mt_word s (k + mt_n).
Proof.
  replace (k + mt_n)%nat with (S k + 311)%nat by (unfold mt_n; lia). rewrite <- state_word by (unfold mt_n; lia).
  cbn [mt_state]. unfold mt_step at 1. pose proof (state_ok s k) as [L _]. destruct (mt_state s k) as [|x st]; [discriminate|]. cbn [tl].
  cbn [length] in L. rewrite app_nth2; unfold mt_n in L; [|lia]. replace (311 - length st)%nat with 0%nat by lia. reflexivity.
Qed.
Lemma word_word s j : 0 <= mt_word s j < 2 ^ 64.
Proof. apply state_nth, state_ok. Qed.
(** the recurrence *)
Lemma word_rec s k : mt_word s (k + mt_n) =
  Z.lxor (mt_word s (k + mt_m)) (mt_mul (Z.lor (Z.land (mt_word s k) mt_upper) (Z.land (mt_word s (k + 1)) mt_lower))).
Proof.
  rewrite <- next_is_word. unfold mt_next. rewrite !state_word by (unfold mt_n, mt_m; lia). rewrite Nat.add_0_r. reflexivity.
Qed.
Lemma output_word s k : mt_output s k = mt_temper (mt_word s (k + mt_n)).
Proof. unfold mt_output. rewrite next_is_word. reflexivity. Qed.

(** A window of 312 zero words would reach back to the seed, but the third word of a seed is never zero after a zero second word. *)
Lemma seed_words s : mt_word s 1 = 0 -> mt_word s 2 = 0 -> False.
Proof.
  intros E1 E2. replace (mt_word s 1) with (nth 1 (mt_state s 0) 0) in E1 by (apply state_word; unfold mt_n; lia).
  replace (mt_word s 2) with (nth 2 (mt_state s 0) 0) in E2 by (apply state_word; unfold mt_n; lia).
  cbn [mt_state] in E1, E2. unfold mt_seed in E1, E2. cbv zeta in E1, E2. change (mt_n - 1)%nat with (S (S 309)) in E1, E2.
  cbn [mt_fill nth] in E1, E2. cbv zeta in E1, E2. rewrite E1 in E2. discriminate.
Qed.
Lemma no_zero_window s k : ~ forall j, (j < mt_n)%nat -> mt_word s (k + j) = 0.
Proof.
  induction k as [|k IH]; intros H.
  - apply (seed_words s); [apply (H 1%nat)|apply (H 2%nat)]; unfold mt_n; lia.
  - destruct k as [|k].
    + apply (seed_words s); [apply (H 0%nat)|apply (H 1%nat)]; unfold mt_n; lia.
    + apply IH. intros j Hj. destruct j as [|j]; [|specialize (H j); replace (S k + S j)%nat with (S (S k) + j)%nat by lia; apply H; lia].
      rewrite Nat.add_0_r.
      (* step k+1 gives the upper half of X_(k+1), step k its lower half *)
      assert (R : forall q, mt_word s (q + mt_n) = 0 -> mt_word s (q + mt_m) = 0 -> Z.land (mt_word s q) mt_upper = 0 /\ Z.land (mt_word s (q + 1)) mt_lower = 0).
      { intros q A B. pose proof (word_rec s q) as E. rewrite A, B, Z.lxor_0_l in E. symmetry in E. apply mt_mul_zero in E.
        - apply (halves_zero (mt_word s q) (mt_word s (q + 1))); auto using word_word.
        - apply word_lor; apply word_land; try apply word_word; unfold mt_upper, mt_lower; lia. }
      assert (Z0 : forall i, (S (S k) <= i < S (S k) + mt_n)%nat -> mt_word s i = 0).
      { intros i Hi. specialize (H (i - S (S k))%nat). replace (S (S k) + (i - S (S k)))%nat with i in H by lia. apply H. lia. }
      assert (U : Z.land (mt_word s (S k)) mt_upper = 0) by (apply (R (S k)); apply Z0; unfold mt_n, mt_m; lia).
      destruct (Z.eq_dec (mt_word s (k + mt_n)) 0) as [N|N].
      2:{ exfalso. apply N. destruct (Nat.lt_ge_cases (k + mt_n) (S (S k))) as [Q|Q]; [unfold mt_n in Q; lia|]. apply Z0. unfold mt_n; lia. }
      assert (L : Z.land (mt_word s (k + 1)) mt_lower = 0) by (apply (R k); auto; apply Z0; unfold mt_n, mt_m; lia).
      replace (k + 1)%nat with (S k) in L by lia. apply halves_all; auto using word_word.
Qed.

(** ** C45.  Every output is a 64-bit number, so that the theorems of C30 apply to it. *)
Theorem C45_outputs_64_bit s k : output64 (mt_output s k).
Proof. unfold output64. rewrite output_word. apply temper_word, word_word. Qed.

(** For every seed and every point of the sequence, one of the next 312 outputs is not zero. *)
Lemma some_output_nonzero s k : exists j, (j < 312)%nat /\ mt_output s (k + j) <> 0.
Proof.
  destruct (existsb (fun j => negb (mt_output s (k + j) =? 0)) (seq 0 312)) eqn:E.
  - apply existsb_exists in E. destruct E as (j & Hj & N). apply in_seq in Hj. exists j. split; lia.
  - exfalso. apply (no_zero_window s (k + mt_n)). intros j Hj. apply temper_inj; auto using word_word; try lia.
    rewrite temper_zero. replace (k + mt_n + j)%nat with (k + j + mt_n)%nat by lia. rewrite <- output_word.
    destruct (Z.eq_dec (mt_output s (k + j)) 0) as [|N]; auto. exfalso.
    assert (T : existsb (fun j => negb (mt_output s (k + j) =? 0)) (seq 0 312) = true); [|congruence].
    apply existsb_exists. exists j. split; [apply in_seq; unfold mt_n in Hj; lia|lia].
Qed.
(** For every seed and every point of the sequence, the next 313 outputs are not all equal. *)
Theorem C45_never_constant s k c : ~ forall j, (j < 313)%nat -> mt_output s (k + j) = c.
Proof.
  intros H. set (w := mt_word s (k + mt_n)).
  assert (W : forall j, (j < 313)%nat -> mt_word s (k + mt_n + j) = w).
  { intros j Hj. apply temper_inj; try apply word_word. replace (k + mt_n + j)%nat with (k + j + mt_n)%nat by lia. unfold w. rewrite <- !output_word.
    rewrite H by auto. specialize (H 0%nat ltac:(lia)). rewrite Nat.add_0_r in H. auto. }
  pose proof (word_rec s (k + mt_n)) as E. rewrite (W mt_n), (W mt_m), (W 1%nat) in E by (unfold mt_n, mt_m; lia). fold w in E.
  assert (Hw : 0 <= w < 2 ^ 64) by apply word_word. rewrite halves_join in E by auto.
  assert (Z0 : w = 0).
  { apply mt_mul_zero; auto. assert (Q : Z.lxor w w = Z.lxor w (Z.lxor w (mt_mul w))) by (rewrite <- E; reflexivity).
    rewrite <- Z.lxor_assoc, Z.lxor_nilpotent, Z.lxor_0_l in Q. auto. }
  apply (no_zero_window s (k + mt_n)). intros j Hj. rewrite W by (unfold mt_n in Hj; lia). exact Z0.
Qed.

Lemma draw_positive draw u : a_draw draw -> output64 u -> u <> 0 -> (0 < val (draw u))%R.
Proof.
  intros HD H N. destruct (draw_val draw u HD H) as (_ & _ & V). pose proof (bpow_gt_0 radix2 64) as P6. pose proof (bpow_gt_0 radix2 (-24)) as P24.
  destruct V as [->|[_ ->]].
  - apply Rdiv_lt_0_compat; auto. apply Rlt_le_trans with 1%R; [lra|].
    rewrite <- (FloatFacts.RN32_fmt 1); [apply FloatFacts.RN32_le, IZR_le; unfold output64 in H; lia|].
    change 1%R with (bpow radix2 0). apply generic_format_bpow'; [apply FLT_exp_valid; reflexivity|]. unfold FLT_exp. lia.
  - change (bpow radix2 (-24)) with (/ 16777216)%R. lra.
Qed.
Lemma nth_stochastic l j : (j < stochastic_calls l)%nat -> exists i, (i < length l)%nat /\ nth_error l i = Some RM_STOCHASTIC /\ stochastic_calls (firstn i l) = j.
Proof.
  revert j. induction l as [|c l IH]; intros j H; [cbn in H; lia|]. destruct c; cbn [stochastic_calls filter length] in H.
  - destruct (IH j H) as (i & Hi & E & Q). exists (S i). cbn [length nth_error firstn]. split; [lia|]. split; auto.
  - destruct j as [|j].
    + exists 0%nat. cbn. split; [lia|]. auto.
    + unfold stochastic_calls in H. cbn [filter length] in H. destruct (IH j) as (i & Hi & E & Q); [unfold stochastic_calls; lia|].
      exists (S i). cbn [length nth_error firstn]. split; [lia|]. split; auto. unfold stochastic_calls in *. cbn [filter length]. lia.
Qed.

(** For every seed, every history of calls on a thread and every stretch [from, upto) of it with at least 312 stochastic calls, one of these
    calls gets a threshold above zero: stochastic rounding never degenerates to rounding every inexact element away from zero. *)
Theorem C45_threshold_not_stuck draw s calls from upto : a_draw draw -> (312 <= stochastic_calls (firstn (upto - from) (skipn from calls)))%nat ->
  exists i t, (from <= i < upto)%nat /\ nth_error calls i = Some RM_STOCHASTIC /\
    nth_error (thresholds draw calls (mt_output s)) i = Some t /\ (0 < val t)%R.
Proof.
  intros HD HS. set (seg := firstn (upto - from) (skipn from calls)) in *.
  destruct (some_output_nonzero s (stochastic_calls (firstn from calls))) as (j & Hj & N).
  destruct (nth_stochastic seg j ltac:(lia)) as (i & Hi & E & C).
  assert (Li : (i < upto - from)%nat) by (unfold seg in Hi; rewrite firstn_length in Hi; lia).
  assert (Ec : nth_error calls (from + i) = Some RM_STOCHASTIC).
  { rewrite <- E. unfold seg. rewrite <- (firstn_skipn from calls) at 1.
    assert (Lf : (from <= length calls)%nat).
    { destruct (Nat.le_gt_cases from (length calls)); auto. unfold seg in Hi. rewrite skipn_all2, firstn_nil in Hi by lia. cbn in Hi. lia. }
    rewrite nth_error_app2; rewrite firstn_length, Nat.min_l by auto; [|lia]. replace (from + i - from)%nat with i by lia.
    revert Li. generalize (skipn from calls) (upto - from)%nat. clear. intros l. revert i. induction l as [|x l IH]; intros i n H.
    - destruct i, n; reflexivity.
    - destruct n; [lia|]. destruct i; cbn; auto. apply IH. lia. }
  exists (from + i)%nat, (draw (mt_output s (stochastic_calls (firstn from calls) + j))). split; [lia|]. split; auto. split.
  - rewrite (C30_history draw calls (mt_output s) _ _ Ec). do 3 f_equal. rewrite <- C. unfold seg.
    clear - Li. unfold stochastic_calls. rewrite <- app_length, <- filter_app. do 2 f_equal.
    rewrite <- (firstn_skipn from calls) at 1. destruct (Nat.le_gt_cases from (length calls)) as [L|L].
    + rewrite firstn_app, firstn_length, Nat.min_l by auto. rewrite firstn_all2 by (rewrite firstn_length; lia).
      replace (from + i - from)%nat with i by lia. rewrite firstn_firstn, Nat.min_l by lia. reflexivity.
    + rewrite (firstn_all2 calls) by lia. rewrite skipn_all2 by lia. rewrite app_nil_r, !firstn_nil, app_nil_r. apply firstn_all2. lia.
  - apply draw_positive; auto. apply C45_outputs_64_bit.
Qed.

(** The seed has only 32 bits: whatever the number of the draw, some (indeed almost every) 64-bit output is never produced, so a thread's draws
    are not uniform over the 64-bit numbers. *)
Theorem C45_uniform_seed_refuted k : exists u, output64 u /\ forall seed, 0 <= seed < 2 ^ 32 -> mt_output seed k <> u.
Proof.
  assert (EN : exists N : nat, Z.of_nat N = 2 ^ 32) by (exists (Z.to_nat (2 ^ 32)); rewrite Z2Nat.id; [reflexivity|discriminate]).
  destruct EN as (N & HZ). set (outs := map (fun i => mt_output (Z.of_nat i) k) (seq 0 N)).
  destruct (Forall_Exists_dec (fun i => In (Z.of_nat i) outs) (fun i => in_dec Z.eq_dec (Z.of_nat i) outs) (seq 0 (S N))) as [F|E].
  - exfalso. assert (L : (length (map Z.of_nat (seq 0 (S N))) <= length outs)%nat).
    { apply NoDup_incl_length.
      - apply FinFun.Injective_map_NoDup; [intros a b; lia|apply seq_NoDup].
      - intros x Hx. apply in_map_iff in Hx. destruct Hx as (i & <- & Hi). rewrite Forall_forall in F. apply F; auto. }
    unfold outs in L. rewrite !map_length, !seq_length in L. lia.
  - apply Exists_exists in E. destruct E as (i & Hi & HN). exists (Z.of_nat i). apply in_seq in Hi. split; [unfold output64; lia|].
    intros seed Hs E. apply HN. apply in_map_iff. exists (Z.to_nat seed). split; [rewrite Z2Nat.id by lia; auto|].
    apply in_seq. lia.
Qed.

(** The model against the check value of the C++ standard ([rand.predef]: the 10000th output of a default-seeded engine, seed 5489). *)
Definition mt_iter (n : N) (st : list Z) : list Z := N.iter n mt_step st.
Lemma mt_iter_state s n : mt_iter n (mt_seed s) = mt_state s (N.to_nat n).
Proof. unfold mt_iter. induction n as [|n IH] using N.peano_ind; [reflexivity|]. rewrite N.iter_succ, IH, N2Nat.inj_succ. reflexivity. Qed.
Theorem C45_standard_check_value : mt_output 5489 (N.to_nat 9999) = 9981545732273789042.
Proof. unfold mt_output. rewrite <- mt_iter_state. vm_compute. reflexivity. Qed.
