(** LoopFacts.v -- the loops of the kernels, without fuel, and the explicit list of their iterations. *)
From Coq Require Import ZArith List Lia Bool Arith ZifyBool ZifyNat.
From Verif Require Import Base Floats Simd Dtypes QuantKernels ExecFacts QuantKernelFacts.
Import ListNotations.

(** ** Fuel-free semantics of [for (; cond(i); i += stride) body(i)] and of consecutive loops that share [i].
    A derivation exists only if the loop stops. *)
Inductive c_loop (cond : nat -> bool) (stride : nat) (body : nat -> action) : nat -> list action -> nat -> Prop :=
| cl_stop i : cond i = false -> c_loop cond stride body i [] i
| cl_iter i l j : cond i = true -> c_loop cond stride body (i + stride) l j -> c_loop cond stride body i (body i :: l) j.
Inductive c_seq : list ((nat -> bool) * nat * (nat -> action)) -> nat -> list action -> nat -> Prop :=
| cs_nil i : c_seq [] i [] i
| cs_cons cond stride body ls i l j l' k :
    c_loop cond stride body i l j -> c_seq ls j l' k -> c_seq ((cond, stride, body) :: ls) i (l ++ l') k.

Lemma c_loop_det cond stride body i l j : c_loop cond stride body i l j ->
  forall l' j', c_loop cond stride body i l' j' -> l = l' /\ j = j'.
Proof.
  induction 1 as [i H|i l j H HL IH]; intros l' j' H'; inversion H'; subst; try congruence; auto.
  destruct (IH _ _ H1) as [-> ->]. auto.
Qed.
Lemma c_seq_det ls i l j : c_seq ls i l j -> forall l' j', c_seq ls i l' j' -> l = l' /\ j = j'.
Proof.
  induction 1 as [i|cond stride body ls i l j l' k HL HS IH]; intros m k' H'; inversion H'; subst; auto.
  destruct (c_loop_det _ _ _ _ _ _ HL _ _ H6) as [-> ->]. destruct (IH _ _ H7) as [-> ->]. auto.
Qed.

(** each iteration moves the index forward by at least one *)
Lemma c_loop_length cond stride body i l j : stride >= 1 -> c_loop cond stride body i l j -> i + length l <= j.
Proof. intros Hs. induction 1 as [i H|i l j H HL IH]; cbn [length]; lia. Qed.

Definition good_loop (numel : nat) (c : (nat -> bool) * nat * (nat -> action)) : Prop :=
  snd (fst c) >= 1 /\ forall j, numel <= j -> fst (fst c) j = false.

Lemma loop_c_loop fuel cond stride body numel : forall i, stride >= 1 -> (forall j, numel <= j -> cond j = false) -> numel <= i + fuel ->
  c_loop cond stride body i (fst (loop fuel cond stride body i)) (snd (loop fuel cond stride body i)).
Proof.
  induction fuel as [|f IH]; intros i Hs Hc Hf; cbn [loop].
  - cbn [fst snd]. apply cl_stop. apply Hc. lia.
  - destruct (cond i) eqn:E; [|apply cl_stop; auto].
    assert (Hf2 : numel <= i + stride + f) by lia. specialize (IH (i + stride) Hs Hc Hf2). destruct (loop f cond stride body (i + stride)) as [l j]. constructor; auto.
Qed.

Lemma fold_c_seq numel ls : Forall (good_loop numel) ls -> forall st,
  exists l, fst (fold_left (run_loop numel) ls st) = fst st ++ l /\ c_seq ls (snd st) l (snd (fold_left (run_loop numel) ls st)).
Proof.
  induction 1 as [|[[c s] b] ls [Hs Hc] H IH]; intros [acts i]; cbn [fold_left fst snd] in *.
  - exists []. rewrite app_nil_r. split; auto. constructor.
  - unfold run_loop at 2 4. assert (Hle : numel <= i + numel) by lia. pose proof (loop_c_loop numel c s b numel i Hs Hc Hle) as HL.
    destruct (loop numel c s b i) as [l j]. cbn [fst snd] in *. destruct (IH (acts ++ l, j)) as (m & E & HS). cbn [fst snd] in *.
    exists (l ++ m). split; [rewrite E, app_assoc; reflexivity|]. econstructor; eauto.
Qed.

Lemma seq_loops_c_seq numel ls : Forall (good_loop numel) ls ->
  c_seq ls 0 (fst (seq_loops numel ls)) (snd (seq_loops numel ls)).
Proof.
  intros H. unfold seq_loops. destruct (fold_c_seq numel ls H ([], 0)) as (l & E & HS). cbn [fst snd app] in *. rewrite E. exact HS.
Qed.

Lemma good_blk numel n body : n >= 1 -> good_loop numel (blk_cond numel n, n, body).
Proof. intros H. split; cbn [fst snd]; auto. intros j Hj. unfold blk_cond. apply Nat.ltb_ge. lia. Qed.
Lemma good_peel numel oaddr mask body : good_loop numel (peel_cond oaddr mask numel, 1, body).
Proof. split; cbn [fst snd]; auto. intros j Hj. unfold peel_cond. apply andb_false_iff. left. apply Nat.ltb_ge. lia. Qed.

(** ** Explicit iterations of a block loop *)
Lemma loop_blk numel n body fuel : n >= 1 -> forall i, numel <= i + fuel -> i <= numel ->
  loop fuel (blk_cond numel n) n body i = (map (fun k => body (i + n * k)) (seq 0 ((numel - i) / n)), blk_end i n numel).
Proof.
  intros Hn. induction fuel as [|f IH]; intros i Hf Hi; cbn [loop].
  - replace i with numel by lia. unfold blk_end. rewrite Nat.sub_diag, Nat.div_0_l by lia. cbn [seq map]. rewrite Nat.mul_0_r, Nat.add_0_r. reflexivity.
  - unfold blk_cond. destruct (Nat.ltb_spec (i + (n - 1)) numel) as [H|H].
    + change (fun i0 => i0 + (n - 1) <? numel) with (blk_cond numel n). rewrite IH by lia.
      assert (E : (numel - i) / n = S ((numel - (i + n)) / n)).
      { replace (numel - i) with (numel - (i + n) + 1 * n) by lia. rewrite Nat.div_add by lia. lia. }
      unfold blk_end. rewrite E. f_equal; [|lia].
      cbn [seq map]. rewrite Nat.mul_0_r, Nat.add_0_r. f_equal.
      rewrite <- seq_shift, map_map. apply map_ext. intros k. f_equal. lia.
    + unfold blk_end. rewrite Nat.div_small by lia. cbn [seq map]. rewrite Nat.mul_0_r, Nat.add_0_r. reflexivity.
Qed.
Lemma run_loop_blk numel n body acts i : n >= 1 -> i <= numel ->
  run_loop numel (acts, i) (blk_cond numel n, n, body) =
  (acts ++ map (fun k => body (i + n * k)) (seq 0 ((numel - i) / n)), blk_end i n numel).
Proof. intros Hn Hi. unfold run_loop. rewrite loop_blk by lia. reflexivity. Qed.

(** and of the alignment loop *)
Lemma loop_peel numel oaddr mask al body : (0 < al)%Z -> (forall z, (Z.land z mask =? 0)%Z = (z mod al =? 0)%Z) ->
  forall fuel i, numel <= i + fuel -> i <= peel_len oaddr al numel ->
  loop fuel (peel_cond oaddr mask numel) 1 body i = (map body (seq i (peel_len oaddr al numel - i)), peel_len oaddr al numel).
Proof.
  intros Hal Hm. set (p := peel_len oaddr al numel). pose proof (peel_len_le oaddr al numel) as Hp. fold p in Hp.
  assert (HM : (0 <= (- oaddr) mod al < al)%Z) by (apply Z.mod_pos_bound; auto).
  assert (HE : ((oaddr + (- oaddr) mod al) mod al = 0)%Z) by (rewrite Z.add_mod_idemp_r by lia; rewrite Z.add_opp_diag_r; apply Z.mod_0_l; lia).
  induction fuel as [|f IH]; intros i Hf Hi; cbn [loop].
  - replace i with p by lia. rewrite Nat.sub_diag. reflexivity.
  - destruct (peel_cond oaddr mask numel i) eqn:E.
    + unfold peel_cond in E. apply andb_prop in E. destruct E as [Hc Ha]. rewrite Hm in Ha.
      assert (i < p). { destruct (Nat.eq_dec i p) as [Ei|]; [|lia]. exfalso. rewrite Ei in *. unfold p, peel_len in *.
        rewrite Nat.min_r in Ha by lia. rewrite Z2Nat.id in Ha by lia. rewrite HE in Ha. discriminate. }
      rewrite IH by lia. f_equal. replace (p - i) with (S (p - (i + 1))) by lia. cbn [seq map]. rewrite Nat.add_1_r. reflexivity.
    + assert (i = p); [|subst i; rewrite Nat.sub_diag; reflexivity].
      destruct (Nat.eq_dec i p) as [|Ne]; auto. exfalso.
      assert (L : i < numel) by lia. pose proof (peel_cond_false _ _ _ _ E L) as K. rewrite Hm in K. apply Z.eqb_eq in K.
      assert (Hlt : (Z.of_nat i < (- oaddr) mod al)%Z) by (unfold p, peel_len in *; lia).
      apply Z.mod_divide in K; [|lia]. destruct K as [c Hc].
      assert (Hu : ((- oaddr) mod al = Z.of_nat i)%Z); [|lia].
      symmetry. apply Z.mod_unique with (q := (- c)%Z); [left; lia|]. lia.
Qed.
Lemma run_loop_peel numel oaddr mask al body acts : (0 < al)%Z -> (forall z, (Z.land z mask =? 0)%Z = (z mod al =? 0)%Z) ->
  run_loop numel (acts, 0) (peel_cond oaddr mask numel, 1, body) = (acts ++ map body (seq 0 (peel_len oaddr al numel)), peel_len oaddr al numel).
Proof.
  intros Hal Hm. unfold run_loop. rewrite (loop_peel numel oaddr mask al body) by (auto; lia). rewrite Nat.sub_0_r. reflexivity.
Qed.

Lemma mask15 z : (Z.land z 15 =? 0)%Z = (z mod 16 =? 0)%Z.
Proof. change 15%Z with (Z.ones 4). rewrite Z.land_ones by lia. reflexivity. Qed.
Lemma mask31 z : (Z.land z 31 =? 0)%Z = (z mod 32 =? 0)%Z.
Proof. change 31%Z with (Z.ones 5). rewrite Z.land_ones by lia. reflexivity. Qed.
