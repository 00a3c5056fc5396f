(** PropsMtStd.v -- C45: the generator is the engine the C++ standard calls std::mt19937_64, for every seed and every output. *)
From Coq Require Import ZArith List Lia Bool Arith.
From Verif Require Import Base Floats Dtypes Rng Mt19937 PropsMt.
Import ListNotations.
Local Open Scope Z_scope.

(** ** Specification: mersenne_twister_engine<UIntType, w, n, m, r, a, u, d, s, b, t, c, l, f> as in [rand.eng.mers].
    The words X_0, X_1, ...: the first n come from the seed (paragraph 6), the others from the transition algorithm (paragraph 2). *)
Definition mersenne_words (w : Z) (n m : nat) (r a f seed : Z) (X : nat -> Z) : Prop :=
  X 0%nat = seed mod 2 ^ w /\
  (forall i, (1 <= i < n)%nat -> X i = (f * Z.lxor (X (i - 1)%nat) (X (i - 1)%nat / 2 ^ (w - 2)) + Z.of_nat i) mod 2 ^ w) /\
  (forall i, (* the upper w-r bits of X_i and the lower r bits of X_(i+1) *)
     let Y := X i / 2 ^ r * 2 ^ r + X (S i) mod 2 ^ r in
     X (i + n)%nat = Z.lxor (X (i + m)%nat) (Z.lxor (Y / 2) (if Z.eqb (Y mod 2) 1 then a else 0))).
(** The generation algorithm (paragraph 3) applied to one word; shifts to the left lose the bits above w. *)
Definition mersenne_output (w u d s b t c l x : Z) : Z :=
  let z1 := Z.lxor x (Z.land (x / 2 ^ u) d) in
  let z2 := Z.lxor z1 (Z.land (z1 * 2 ^ s mod 2 ^ w) b) in
  let z3 := Z.lxor z2 (Z.land (z2 * 2 ^ t mod 2 ^ w) c) in
  Z.lxor z3 (z3 / 2 ^ l).

Lemma fill_nth k : forall i p j, (j < k)%nat ->
  nth j (mt_fill k i p) 0 = wrap_u64 (6364136223846793005 * Z.lxor (nth j (p :: mt_fill k i p) 0) (Z.shiftr (nth j (p :: mt_fill k i p) 0) 62) + (i + Z.of_nat j)).
Proof.
  induction k as [|k IH]; intros i p j Hj; [lia|]. cbn [mt_fill]. cbv zeta. destruct j as [|j].
  - cbn [nth]. rewrite Z.add_0_r. reflexivity.
  - cbn [nth]. rewrite IH by lia. replace (i + 1 + Z.of_nat j) with (i + Z.of_nat (S j)) by lia. reflexivity.
Qed.
Lemma seed_nth s j : (S j < mt_n)%nat ->
  nth (S j) (mt_seed s) 0 = wrap_u64 (6364136223846793005 * Z.lxor (nth j (mt_seed s) 0) (Z.shiftr (nth j (mt_seed s) 0) 62) + (1 + Z.of_nat j)).
Proof.
  intros Hj. assert (Hj' : (j < mt_n - 1)%nat) by lia. unfold mt_seed. cbv zeta. revert Hj'. generalize (mt_n - 1)%nat, (wrap_u64 s). intros k p Hj'.
  rewrite <- fill_nth by auto. reflexivity.
Qed.
Lemma halves x y : 0 <= x < 2 ^ 64 -> Z.lor (Z.land x mt_upper) (Z.land y mt_lower) = x / 2 ^ 31 * 2 ^ 31 + y mod 2 ^ 31.
Proof.
  intros Hx. change mt_lower with (Z.ones 31). rewrite Z.land_ones by lia.
  assert (U : Z.land x mt_upper = x / 2 ^ 31 * 2 ^ 31).
  { rewrite <- Z.shiftr_div_pow2, <- Z.shiftl_mul_pow2, <- Z.ldiff_ones_r by lia. apply word_bits in Hx. destruct Hx as [_ Hx].
    apply Z.bits_inj'. intros i Hi. rewrite Z.land_spec, Z.ldiff_spec.
    destruct (Z_lt_dec i 64) as [L|L]; [|rewrite (Hx i) by lia; reflexivity]. f_equal.
    assert (C : forallb (fun k => Bool.eqb (Z.testbit mt_upper (Z.of_nat k)) (negb (Z.testbit (Z.ones 31) (Z.of_nat k)))) (seq 0 64) = true) by (vm_compute; reflexivity).
    rewrite forallb_forall in C. specialize (C (Z.to_nat i) ltac:(apply in_seq; lia)). rewrite Z2Nat.id in C by lia. apply Bool.eqb_prop. exact C. }
  rewrite U. set (q := x / 2 ^ 31). pose proof (Z.mod_pos_bound y (2 ^ 31) ltac:(lia)) as Hm. set (v := y mod 2 ^ 31) in *. clearbody q v.
  assert (D : Z.land (q * 2 ^ 31) v = 0).
  { apply Z.bits_inj'. intros i Hi. rewrite Z.land_spec, Z.bits_0. destruct (Z_lt_dec i 31) as [L|L].
    - rewrite Z.mul_pow2_bits_low by lia. reflexivity.
    - rewrite <- (Z.mod_small v (2 ^ 31)) by lia. rewrite Z.mod_pow2_bits_high by lia. apply andb_false_r. }
  rewrite <- (Z.lxor_lor _ _ D), <- (Z.add_nocarry_lxor _ _ D). reflexivity.
Qed.
Lemma land_shift z k b : 0 <= k -> 0 <= b < 2 ^ 64 -> Z.land (Z.shiftl z k) b = Z.land (z * 2 ^ k mod 2 ^ 64) b.
Proof.
  intros Hk Hb. apply word_bits in Hb. destruct Hb as [_ Hb]. rewrite <- Z.shiftl_mul_pow2 by lia.
  apply Z.bits_inj'. intros i Hi. rewrite !Z.land_spec. destruct (Z_lt_dec i 64) as [L|L].
  - rewrite Z.mod_pow2_bits_low by lia. reflexivity.
  - rewrite (Hb i) by lia. rewrite !andb_false_r. reflexivity.
Qed.

(** ** Every output of the model's generator is the corresponding output of std::mt19937_64 ([rand.predef]) with that seed. *)
Theorem C45_matches_standard seed :
  exists X, mersenne_words 64 312 156 31 0xb5026f5aa96619e9 6364136223846793005 seed X /\
    forall k, mt_output seed k =
      mersenne_output 64 29 0x5555555555555555 17 0x71d67fffeda60000 37 0xfff7eee000000000 43 (X (k + 312)%nat).
Proof.
  exists (mt_word seed). split; [split; [|split]|].
  - unfold mt_word. cbn [mt_state]. unfold mt_seed. cbv zeta. cbn [nth]. reflexivity.
  - intros i Hi. replace i with (0 + i)%nat at 1 by lia. replace (i - 1)%nat with (0 + (i - 1))%nat by lia.
    rewrite <- !state_word by (unfold mt_n; lia). cbn [mt_state]. destruct i as [|j]; [lia|]. replace (S j - 1)%nat with j by lia.
    rewrite seed_nth by (unfold mt_n; lia). rewrite Z.shiftr_div_pow2 by lia. change (64 - 2) with 62. replace (Z.of_nat (S j)) with (1 + Z.of_nat j) by lia. reflexivity.
  - intros i Y. change 312%nat with mt_n. change 156%nat with mt_m. rewrite word_rec. f_equal. rewrite halves by apply word_word.
    replace (i + 1)%nat with (S i) by lia. change (_ + _) with Y at 1. unfold mt_mul. rewrite Z.shiftr_div_pow2 by lia. change (2 ^ 1) with 2.
    rewrite Zmod_odd. destruct (Z.odd Y); reflexivity.
  - intros k. rewrite output_word. unfold mt_temper, mersenne_output. change 312%nat with mt_n. cbv zeta.
    rewrite !land_shift by lia. rewrite !Z.shiftr_div_pow2 by lia. reflexivity.
Qed.
(** The specification determines the words, so the theorem above pins every output. *)
Theorem C45_standard_unique (n m : nat) w r a f seed X X' : (0 < m < n)%nat ->
  mersenne_words w n m r a f seed X -> mersenne_words w n m r a f seed X' -> forall k, X k = X' k.
Proof.
  intros Hm (H0 & Hs & Hr) (H0' & Hs' & Hr') k. induction k as [k IH] using lt_wf_ind.
  destruct (Nat.eq_dec k 0) as [->|Nk]; [congruence|]. destruct (Nat.lt_ge_cases k n) as [L|L].
  - assert (E : X (k - 1)%nat = X' (k - 1)%nat) by (apply IH; clear - Nk; lia). assert (R : (1 <= k < n)%nat) by (clear - Nk L; lia).
    rewrite (Hs k R), (Hs' k R), E. reflexivity.
  - assert (E : k = (k - n + n)%nat) by (clear - L; lia). specialize (Hr (k - n)%nat). specialize (Hr' (k - n)%nat). rewrite <- E in Hr, Hr'. cbv zeta in Hr, Hr'.
    assert (E1 : X (k - n)%nat = X' (k - n)%nat) by (apply IH; clear - L Hm; lia). assert (E2 : X (S (k - n)) = X' (S (k - n))) by (apply IH; clear - L Hm; lia).
    assert (E3 : X (k - n + m)%nat = X' (k - n + m)%nat) by (apply IH; clear - L Hm; lia). rewrite E1, E2, E3 in Hr. rewrite Hr, Hr'. reflexivity.
Qed.
