(** DequantFacts.v -- the dequantization kernels tile their output and store the dequantized elements. *)
From Coq Require Import ZArith List Lia Bool Arith ZifyBool ZifyNat.
From Verif Require Import Base Floats Simd Dtypes Spec QuantKernels DequantKernels ExecFacts QuantFacts QuantKernelFacts QuantGenericFacts.
Import ListNotations.

Ltac Zify.zify_post_hook ::= Z.div_mod_to_equations.

(** ** Elements of [e] bytes *)
Definition byteE (e : nat) (E : nat -> mem) (k : nat) : Z := nth (k mod e) (E (k / e)) 0%Z.

Lemma map_byteE e E : forall n i, e > 0 -> (forall j, i <= j < i + n -> length (E j) = e) ->
  map (byteE e E) (seq (e * i) (e * n)) = flat_map E (seq i n).
Proof.
  induction n as [|n IH]; intros i He HL.
  - rewrite Nat.mul_0_r. reflexivity.
  - replace (e * S n) with (e + e * n) by lia. rewrite seq_app, map_app. cbn [seq flat_map].
    replace (e * i + e) with (e * S i) by lia. rewrite IH by (intros; auto; apply HL; lia). f_equal.
    apply list_ext.
    + rewrite map_length, seq_length, HL by lia. reflexivity.
    + rewrite map_length, seq_length. intros k Hk. rewrite nth_map_seq by lia. unfold byteE.
      rewrite (Nat.mul_comm e i). rewrite Nat.add_comm, Nat.mod_add, Nat.mod_small by lia.
      rewrite Nat.div_add, Nat.div_small by lia. reflexivity.
Qed.

Lemma flat_map_length_const {A} (E : A -> mem) e l : (forall j, In j l -> length (E j) = e) -> length (flat_map E l) = e * length l.
Proof.
  induction l as [|a l IH]; intros H; simpl; [lia|]. rewrite app_length, H, IH by (simpl; auto; intros; apply H; simpl; auto). lia.
Qed.

(** an action that stores elements i .. i+n-1 *)
Lemma elem_act_ok inm outm e E i n ioff ilen fn :
  e > 0 -> (forall j, i <= j < i + n -> length (E j) = e) ->
  ioff + ilen <= length inm -> e * i + e * n <= length outm ->
  fn (slice ioff ilen inm) (slice (e * i) (e * n) outm) = Ok (flat_map E (seq i n)) ->
  act_ok inm outm (byteE e E) (mk_action ioff ilen (e * i) (e * n) fn).
Proof.
  intros He HL Hi Ho Hf. unfold act_ok. cbn [a_ioff a_ilen a_ooff a_olen a_fn]. split; auto. split; auto.
  rewrite Hf. rewrite map_byteE by auto. reflexivity.
Qed.

(** ** Codes held by bytes *)
Definition codes_of (d : dtype) (b : mem) : list Z :=
  match d with
  | DT_UINT4 => flat_map (fun x => [x mod 16; x / 16]%Z) b
  | DT_UINT2 => flat_map (fun x => [x mod 4; x / 4 mod 4; x / 16 mod 4; x / 64]%Z) b
  | _ => b
  end.
Definition per_byte (d : dtype) : nat := match d with DT_UINT4 => 2 | DT_UINT2 => 4 | _ => 1 end.

Lemma nth_is_byte m k : Forall is_byte m -> is_byte (nth k m 0%Z).
Proof.
  intros H. destruct (Nat.lt_ge_cases k (length m)) as [Hk|Hk].
  - rewrite Forall_forall in H. apply H, nth_In; auto.
  - rewrite nth_overflow by auto. unfold is_byte. lia.
Qed.

Lemma code_at_u8 m i : Forall is_byte m -> code_at DT_UINT8 m i = nth i m 0%Z.
Proof.
  intros H. unfold code_at. cbn [bit_size]. replace (i * 8 / 8) with i by lia. replace (i * 8 mod 8) with 0 by lia.
  pose proof (nth_is_byte m i H) as B. unfold is_byte in B. change (2 ^ Z.of_nat 0)%Z with 1%Z. change (2 ^ Z.of_nat 8)%Z with 256%Z.
  rewrite Z.div_1_r. apply Z.mod_small. lia.
Qed.
Lemma code_at_u4 m j k : k < 2 -> code_at DT_UINT4 m (2 * j + k) = ((nth j m 0 / 2 ^ (4 * Z.of_nat k)) mod 16)%Z.
Proof.
  intros H. unfold code_at. cbn [bit_size]. replace ((2 * j + k) * 4 / 8) with j by lia.
  replace ((2 * j + k) * 4 mod 8) with (4 * k) by lia. rewrite Nat2Z.inj_mul. reflexivity.
Qed.
Lemma code_at_u2 m j k : k < 4 -> code_at DT_UINT2 m (4 * j + k) = ((nth j m 0 / 2 ^ (2 * Z.of_nat k)) mod 4)%Z.
Proof.
  intros H. unfold code_at. cbn [bit_size]. replace ((4 * j + k) * 2 / 8) with j by lia.
  replace ((4 * j + k) * 2 mod 8) with (2 * k) by lia. rewrite Nat2Z.inj_mul. reflexivity.
Qed.

Lemma slice_S off n m : off < length m -> slice off (S n) m = nth off m 0%Z :: slice (S off) n m.
Proof.
  intros H. unfold slice. revert m H. induction off as [|off IH]; intros m H.
  - destruct m; simpl in *; [lia|reflexivity].
  - destruct m; simpl in *; [lia|]. apply IH. lia.
Qed.

Lemma codes_slice d m : is_q d -> Forall is_byte m -> forall n j, j + n <= length m ->
  codes_of d (slice j n m) = map (code_at d m) (seq (per_byte d * j) (per_byte d * n)).
Proof.
  intros Hd Hm. induction n as [|n IH]; intros j Hj.
  - rewrite Nat.mul_0_r. destruct Hd as [->|[->| ->]]; reflexivity.
  - rewrite slice_S by lia. specialize (IH (S j)).
    pose proof (nth_is_byte m j Hm) as B. unfold is_byte in B.
    destruct Hd as [->|[->| ->]]; cbn [codes_of per_byte] in *.
    + cbn [flat_map]. rewrite IH by lia. replace (4 * S n) with (4 + 4 * n) by lia. cbn [Nat.add].
      cbn [seq map]. replace (S (S (S (S (4 * j))))) with (4 * S j) by lia.
      cbn [app]. rewrite <- (Nat.add_0_r (4 * j)) at 1. rewrite code_at_u2 by lia.
      replace (S (4 * j)) with (4 * j + 1) by lia. rewrite code_at_u2 by lia.
      replace (S (4 * j + 1)) with (4 * j + 2) by lia. rewrite code_at_u2 by lia.
      replace (S (4 * j + 2)) with (4 * j + 3) by lia. rewrite code_at_u2 by lia.
      change (2 ^ (2 * Z.of_nat 0))%Z with 1%Z. change (2 ^ (2 * Z.of_nat 1))%Z with 4%Z.
      change (2 ^ (2 * Z.of_nat 2))%Z with 16%Z. change (2 ^ (2 * Z.of_nat 3))%Z with 64%Z.
      rewrite Z.div_1_r. rewrite (Z.mod_small (_ / 64)) by lia. reflexivity.
    + cbn [flat_map]. rewrite IH by lia. replace (2 * S n) with (2 + 2 * n) by lia. cbn [Nat.add].
      cbn [seq map]. replace (S (S (2 * j))) with (2 * S j) by lia.
      cbn [app]. rewrite <- (Nat.add_0_r (2 * j)) at 1. rewrite code_at_u4 by lia.
      replace (S (2 * j)) with (2 * j + 1) by lia. rewrite code_at_u4 by lia.
      change (2 ^ (4 * Z.of_nat 0))%Z with 1%Z. change (2 ^ (4 * Z.of_nat 1))%Z with 16%Z.
      rewrite Z.div_1_r. rewrite (Z.mod_small (_ / 16)) by lia. reflexivity.
    + rewrite IH by lia. replace (1 * S n) with (S (1 * n)) by lia. cbn [seq map].
      rewrite !Nat.mul_1_l, code_at_u8 by auto. reflexivity.
Qed.

(** ** Nibbles of a byte vector *)
Lemma land15_mod z : Z.land z 15 = (z mod 16)%Z.
Proof. change 15%Z with (Z.ones 4). rewrite Z.land_ones by lia. reflexivity. Qed.
Lemma land3_mod z : Z.land z 3 = (z mod 4)%Z.
Proof. change 3%Z with (Z.ones 2). rewrite Z.land_ones by lia. reflexivity. Qed.

Lemma nib_lo_eq v : nib_lo v = map (fun x => x mod 16)%Z v.
Proof.
  unfold nib_lo, and_si, set1. induction v as [|x v IH]; simpl; auto. rewrite land15_mod, IH. reflexivity.
Qed.
Lemma nib_hi_eq : forall n v, length v = 2 * n -> Forall is_byte v -> nib_hi v = map (fun x => x / 16)%Z v.
Proof.
  unfold nib_hi, and_si, set1. induction n as [|n IH]; intros v HL HB.
  - destruct v; simpl in *; [reflexivity|lia].
  - destruct v as [|a [|b v]]; simpl in HL; try lia.
    inversion HB as [|? ? Ha HB']; subst. inversion HB' as [|? ? Hb HB'']; subst. unfold is_byte in Ha, Hb.
    cbn [srli_epi16 length repeat]. cbn [le_bytes app map2 map]. rewrite IH by (auto; lia).
    rewrite !land15_mod. rewrite Z.shiftr_div_pow2 by lia. change (2 ^ 4)%Z with 16%Z.
    f_equal; [lia|]. f_equal. lia.
Qed.

Lemma nib_t_eq v : length v = 16 -> Forall is_byte v ->
  nib_t0 v ++ nib_t1 v = codes_of DT_UINT4 v /\ length (nib_t0 v) = 16 /\ length (nib_t1 v) = 16 /\
  nib_t0 v = codes_of DT_UINT4 (firstn 8 v) /\ nib_t1 v = codes_of DT_UINT4 (skipn 8 v).
Proof.
  intros HL HB. unfold nib_t0, nib_t1. rewrite nib_lo_eq, (nib_hi_eq 8) by auto.
  explode v 16. repeat split; reflexivity.
Qed.

Lemma codes_of_app d a b : codes_of d (a ++ b) = codes_of d a ++ codes_of d b.
Proof. destruct d; cbn [codes_of]; auto; apply flat_map_app. Qed.

Lemma sub_split4 (b : mem) : length b = 64 -> b = sub (16 * 0) 16 b ++ sub (16 * 1) 16 b ++ sub (16 * 2) 16 b ++ sub (16 * 3) 16 b.
Proof.
  intros HL. unfold sub. cbn [Nat.mul Nat.add]. rewrite skipn_O.
  rewrite <- (firstn_skipn 16 b) at 1. f_equal.
  rewrite <- (firstn_skipn 16 (skipn 16 b)) at 1. f_equal. rewrite skipn_skipn'. cbn [Nat.add].
  rewrite <- (firstn_skipn 16 (skipn 32 b)) at 1. f_equal. rewrite skipn_skipn'. cbn [Nat.add].
  rewrite firstn_all2; auto. rewrite skipn_length. lia.
Qed.
Lemma sub_split2 (b : mem) n : length b = n + n -> b = sub 0 n b ++ sub n n b.
Proof.
  intros HL. unfold sub. rewrite skipn_O. rewrite <- (firstn_skipn n b) at 1. f_equal.
  rewrite firstn_all2; auto. rewrite skipn_length. lia.
Qed.
Lemma Forall_sub (P : Z -> Prop) a l b : Forall P b -> Forall P (sub a l b).
Proof. apply Forall_slice. Qed.
Lemma sub_length a l (b : mem) : a + l <= length b -> length (sub a l b) = l.
Proof. apply slice_length. Qed.

(** ** Code registers of the vector blocks *)
Definition regs_ok (d : dtype) (ilen ln : nat) (regs : mem -> list (list Z)) : Prop :=
  forall b, length b = ilen -> Forall is_byte b ->
    concat (regs b) = codes_of d b /\ Forall (fun r => length r = ln) (regs b).

Lemma firstn_all' {A} n (l : list A) : length l = n -> firstn n l = l.
Proof. intros <-. apply firstn_all. Qed.

Lemma regs_u8_avx512_ok : regs_ok DT_UINT8 64 16 regs_u8_avx512.
Proof.
  intros b HL HB. unfold regs_u8_avx512, cvtepu8_epi32. cbn [map concat codes_of].
  rewrite !firstn_all' by (apply sub_length; lia). split.
  - rewrite app_nil_r. symmetry. apply sub_split4; auto.
  - repeat constructor; apply sub_length; lia.
Qed.

Lemma expand_u8_avx2_ok v : length v = 32 -> concat (expand_u8_avx2 v) = v /\ Forall (fun r => length r = 8) (expand_u8_avx2 v).
Proof.
  intros HL. explode v 32. split; [reflexivity|]. repeat constructor.
Qed.
Lemma regs_u8_avx2_ok : regs_ok DT_UINT8 64 8 regs_u8_avx2.
Proof.
  intros b HL HB. unfold regs_u8_avx2. cbn [codes_of].
  destruct (expand_u8_avx2_ok (sub 0 32 b)) as [A1 A2]; [apply sub_length; lia|].
  destruct (expand_u8_avx2_ok (sub 32 32 b)) as [B1 B2]; [apply sub_length; lia|].
  split.
  - rewrite concat_app, A1, B1. symmetry. apply sub_split2; auto.
  - apply Forall_app; auto.
Qed.
Lemma wrap32_small z : (0 <= z < 2147483648)%Z -> wrap32 z = z.
Proof. intros H. unfold wrap32. rewrite Z.mod_small by lia. lia. Qed.
Lemma s16_small z : (0 <= z < 32768)%Z -> s16 z = z.
Proof. intros H. unfold s16. rewrite Z.mod_small by lia. lia. Qed.
Lemma expand16_sse_ok v : length v = 16 -> Forall is_byte v ->
  concat (expand16_sse v) = v /\ Forall (fun r => length r = 4) (expand16_sse v).
Proof.
  intros HL HB.
  assert (E : concat (expand16_sse v) = map (fun z => wrap32 (z + 256 * (0 + 256 * (0 + 256 * (0 + 256 * 0)))))%Z v /\
              Forall (fun r => length r = 4) (expand16_sse v)).
  { clear HB. explode v 16. split; [reflexivity|]. repeat constructor. }
  destruct E as [E1 E2]. split; auto. rewrite E1. clear E1 E2 HL.
  induction HB as [|z v Hz HB IH]; [reflexivity|]. cbn [map]. rewrite IH. f_equal.
  unfold is_byte in Hz. rewrite wrap32_small by lia. lia.
Qed.
Lemma regs_u8_sse_ok : regs_ok DT_UINT8 64 4 regs_u8_sse.
Proof.
  intros b HL HB. unfold regs_u8_sse. cbn [codes_of flat_map].
  destruct (expand16_sse_ok (sub (16 * 0) 16 b)) as [A1 A2]; [apply sub_length; lia|apply Forall_sub; auto|].
  destruct (expand16_sse_ok (sub (16 * 1) 16 b)) as [B1 B2]; [apply sub_length; lia|apply Forall_sub; auto|].
  destruct (expand16_sse_ok (sub (16 * 2) 16 b)) as [C1 C2]; [apply sub_length; lia|apply Forall_sub; auto|].
  destruct (expand16_sse_ok (sub (16 * 3) 16 b)) as [D1 D2]; [apply sub_length; lia|apply Forall_sub; auto|].
  rewrite app_nil_r. split.
  - rewrite !concat_app, A1, B1, C1, D1. symmetry. apply sub_split4; auto.
  - repeat (apply Forall_app; split; auto).
Qed.
Lemma map_s16_bytes v : Forall is_byte v -> map s16 v = v.
Proof. induction 1 as [|z v Hz HB IH]; [reflexivity|]. cbn [map]. rewrite IH, s16_small; auto. unfold is_byte in Hz. lia. Qed.
Lemma regs_u8_neon_ok : regs_ok DT_UINT8 16 4 regs_u8_neon.
Proof.
  intros b HL HB. unfold regs_u8_neon. cbn [codes_of map concat].
  rewrite !map_s16_bytes by (apply Forall_sub; auto). split.
  - rewrite app_nil_r. explode b 16. reflexivity.
  - repeat constructor; apply sub_length; lia.
Qed.

Lemma regs_u4_avx512_ok : regs_ok DT_UINT4 64 16 regs_u4_avx512.
Proof.
  intros b HL HB. unfold regs_u4_avx512.
  assert (HS : forall k, k < 4 -> length (sub (16 * k) 16 b) = 16 /\ Forall is_byte (sub (16 * k) 16 b)).
  { intros k Hk. split; [apply sub_length; lia|apply Forall_sub; auto]. }
  assert (HT : forall k, k < 4 -> nib_t0 (sub (16 * k) 16 b) ++ nib_t1 (sub (16 * k) 16 b) = codes_of DT_UINT4 (sub (16 * k) 16 b) /\
     length (nib_t0 (sub (16 * k) 16 b)) = 16 /\ length (nib_t1 (sub (16 * k) 16 b)) = 16).
  { intros k Hk. destruct (HS k Hk) as [L F]. destruct (nib_t_eq _ L F) as (A1 & A2 & A3 & _). auto. }
  destruct (HT 0) as (A1 & A2 & A3); [lia|]. destruct (HT 1) as (B1 & B2 & B3); [lia|].
  destruct (HT 2) as (C1 & C2 & C3); [lia|]. destruct (HT 3) as (D1 & D2 & D3); [lia|].
  assert (EC : codes_of DT_UINT4 b = codes_of DT_UINT4 (sub (16 * 0) 16 b) ++ codes_of DT_UINT4 (sub (16 * 1) 16 b) ++ codes_of DT_UINT4 (sub (16 * 2) 16 b) ++ codes_of DT_UINT4 (sub (16 * 3) 16 b)).
  { rewrite (sub_split4 b HL) at 1. rewrite !codes_of_app. reflexivity. }
  rewrite EC, <- A1, <- B1, <- C1, <- D1. clear EC.
  clear A1 B1 C1 D1 HS HT HB.
  set (a0 := nib_t0 (sub (16 * 0) 16 b)) in *. set (a1 := nib_t1 (sub (16 * 0) 16 b)) in *.
  set (b0 := nib_t0 (sub (16 * 1) 16 b)) in *. set (b1 := nib_t1 (sub (16 * 1) 16 b)) in *.
  set (c0 := nib_t0 (sub (16 * 2) 16 b)) in *. set (c1 := nib_t1 (sub (16 * 2) 16 b)) in *.
  set (d0 := nib_t0 (sub (16 * 3) 16 b)) in *. set (d1 := nib_t1 (sub (16 * 3) 16 b)) in *.
  clearbody a0 a1 b0 b1 c0 c1 d0 d1. clear b HL.
  assert (S4 : forall p q r s : list Z, length p = 16 -> length q = 16 -> length r = 16 -> length s = 16 ->
    map (fun k => cvtepu8_epi32 16 (sub (16 * k) 16 (p ++ q ++ r ++ s))) [0; 1; 2; 3] = [p; q; r; s]).
  { intros p q r s P Q R S. explode p 16. explode q 16. explode r 16. explode s 16. reflexivity. }
  rewrite !S4 by auto. cbn [app concat]. rewrite app_nil_r, <- !app_assoc. split; [reflexivity|]. repeat (constructor; [assumption|]). constructor.
Qed.

Lemma regs_u4_avx2_ok : regs_ok DT_UINT4 32 8 regs_u4_avx2.
Proof.
  intros b HL HB. unfold regs_u4_avx2.
  destruct (nib_t_eq (sub 0 16 b)) as (A1 & A2 & A3 & _); [apply sub_length; lia|apply Forall_sub; auto|].
  destruct (nib_t_eq (sub 16 16 b)) as (B1 & B2 & B3 & _); [apply sub_length; lia|apply Forall_sub; auto|].
  assert (EC : codes_of DT_UINT4 b = codes_of DT_UINT4 (sub 0 16 b) ++ codes_of DT_UINT4 (sub 16 16 b)).
  { rewrite (sub_split2 b 16 HL) at 1. apply codes_of_app. }
  rewrite EC, <- A1, <- B1. clear EC A1 B1.
  generalize dependent (nib_t0 (sub 0 16 b)). generalize dependent (nib_t1 (sub 0 16 b)).
  generalize dependent (nib_t0 (sub 16 16 b)). generalize dependent (nib_t1 (sub 16 16 b)).
  intros b1 B3 b0 B2 a1 A3 a0 A2.
  assert (E20 : permute2x128_20 (a0 ++ b0) (a1 ++ b1) = a0 ++ a1).
  { unfold permute2x128_20. rewrite !firstn_app, A2, A3, Nat.sub_diag, !firstn_O, !app_nil_r, !firstn_all' by auto. reflexivity. }
  assert (E31 : permute2x128_31 (a0 ++ b0) (a1 ++ b1) = b0 ++ b1).
  { unfold permute2x128_31. rewrite !skipn_app, A2, A3, Nat.sub_diag, !skipn_O, !skipn_all2 by lia. reflexivity. }
  rewrite E20, E31.
  destruct (expand_u8_avx2_ok (a0 ++ a1)) as [X1 X2]; [rewrite app_length; lia|].
  destruct (expand_u8_avx2_ok (b0 ++ b1)) as [Y1 Y2]; [rewrite app_length; lia|].
  split; [rewrite concat_app, X1, Y1; reflexivity|apply Forall_app; auto].
Qed.

Lemma codes_u4_is_byte b : Forall is_byte b -> Forall is_byte (codes_of DT_UINT4 b).
Proof.
  induction 1 as [|x b Hx HB IH]; [constructor|]. cbn [codes_of flat_map app]. unfold is_byte in *.
  constructor; [lia|]. constructor; [lia|]. exact IH.
Qed.
Lemma process16_sse_ok v : length v = 16 -> Forall is_byte v -> concat (process16_sse v) = v /\ Forall (fun r => length r = 4) (process16_sse v).
Proof.
  intros HL HB.
  assert (E : concat (process16_sse v) = map s16 v /\ Forall (fun r => length r = 4) (process16_sse v)).
  { clear HB. explode v 16. split; [reflexivity|]. repeat constructor. }
  destruct E as [E1 E2]. split; auto. rewrite E1. apply map_s16_bytes; auto.
Qed.
Lemma regs_u4_sse_ok : regs_ok DT_UINT4 16 4 regs_u4_sse.
Proof.
  intros b HL HB. unfold regs_u4_sse.
  destruct (nib_t_eq b HL HB) as (A1 & A2 & A3 & A4 & A5).
  assert (F0 : Forall is_byte (nib_t0 b)).
  { rewrite A4. apply codes_u4_is_byte. apply Forall_forall. intros x Hx. rewrite Forall_forall in HB. apply HB.
    rewrite <- (firstn_skipn 8 b). apply in_or_app. auto. }
  assert (F1 : Forall is_byte (nib_t1 b)).
  { rewrite A5. apply codes_u4_is_byte. apply Forall_forall. intros x Hx. rewrite Forall_forall in HB. apply HB.
    rewrite <- (firstn_skipn 8 b). apply in_or_app. auto. }
  destruct (process16_sse_ok _ A2 F0) as [X1 X2]. destruct (process16_sse_ok _ A3 F1) as [Y1 Y2].
  rewrite concat_app, X1, Y1. split; [exact A1|apply Forall_app; auto].
Qed.

(** 2-bit codes by table lookup *)
Lemma lut_ok z : (0 <= z < 16)%Z ->
  (if Z.testbit z 7 then 0 else nth (Z.to_nat (Z.land z 15)) LUT0 0)%Z = (z mod 4)%Z /\
  (if Z.testbit z 7 then 0 else nth (Z.to_nat (Z.land z 15)) LUT1 0)%Z = (z / 4)%Z.
Proof.
  intros H. assert (C : exists n, n < 16 /\ z = Z.of_nat n) by (exists (Z.to_nat z); lia).
  destruct C as (n & Hn & ->). do 16 (destruct n as [|n]; [split; reflexivity|]). lia.
Qed.
Lemma shuffle_lut0 l : Forall (fun z => 0 <= z < 16)%Z l -> shuffle_epi8 LUT0 l = map (fun z => z mod 4)%Z l.
Proof. induction 1 as [|z l Hz Hl IH]; [reflexivity|]. unfold shuffle_epi8 in *. cbn [map]. rewrite IH. f_equal. apply lut_ok; auto. Qed.
Lemma shuffle_lut1 l : Forall (fun z => 0 <= z < 16)%Z l -> shuffle_epi8 LUT1 l = map (fun z => z / 4)%Z l.
Proof. induction 1 as [|z l Hz Hl IH]; [reflexivity|]. unfold shuffle_epi8 in *. cbn [map]. rewrite IH. f_equal. apply lut_ok; auto. Qed.

Lemma u2_16bytes_ok b : length b = 16 -> Forall is_byte b ->
  concat (u2_16bytes b) = codes_of DT_UINT2 b /\ Forall (fun r => length r = 16) (u2_16bytes b).
Proof.
  intros HL HB.
  assert (FL : Forall (fun z => 0 <= z < 16)%Z (map (fun x => x mod 16)%Z b)).
  { apply Forall_forall. intros z Hz. apply in_map_iff in Hz. destruct Hz as (x & <- & _). lia. }
  assert (FH : Forall (fun z => 0 <= z < 16)%Z (map (fun x => x / 16)%Z b)).
  { apply Forall_forall. intros z Hz. apply in_map_iff in Hz. destruct Hz as (x & <- & Hx).
    rewrite Forall_forall in HB. specialize (HB x Hx). unfold is_byte in HB. lia. }
  unfold u2_16bytes. rewrite nib_lo_eq, (nib_hi_eq 8) by auto.
  rewrite !shuffle_lut0, !shuffle_lut1 by auto. rewrite !map_map.
  assert (E : codes_of DT_UINT2 b = flat_map (fun x => [x mod 16 mod 4; x mod 16 / 4; x / 16 mod 4; x / 16 / 4]%Z) b).
  { cbn [codes_of]. clear -HB. induction HB as [|x b Hx HB IH]; [reflexivity|]. cbn [flat_map]. rewrite IH. cbn [app].
    unfold is_byte in Hx. f_equal; [lia|]. f_equal; [lia|]. f_equal. f_equal. lia. }
  rewrite E. clear E FL FH HB. explode b 16. split; [reflexivity|]. repeat constructor.
Qed.
Lemma regs_u2_avx512_ok : regs_ok DT_UINT2 64 16 regs_u2_avx512.
Proof.
  intros b HL HB. unfold regs_u2_avx512. cbn [flat_map].
  destruct (u2_16bytes_ok (sub (16 * 0) 16 b)) as [A1 A2]; [apply sub_length; lia|apply Forall_sub; auto|].
  destruct (u2_16bytes_ok (sub (16 * 1) 16 b)) as [B1 B2]; [apply sub_length; lia|apply Forall_sub; auto|].
  destruct (u2_16bytes_ok (sub (16 * 2) 16 b)) as [C1 C2]; [apply sub_length; lia|apply Forall_sub; auto|].
  destruct (u2_16bytes_ok (sub (16 * 3) 16 b)) as [D1 D2]; [apply sub_length; lia|apply Forall_sub; auto|].
  rewrite app_nil_r. split.
  - rewrite !concat_app, A1, B1, C1, D1. rewrite <- !codes_of_app. f_equal. symmetry. apply sub_split4; auto.
  - repeat (apply Forall_app; split; auto).
Qed.

(** ** Register stores, element by element *)
Definition el_f32 (op : reduce_op) (lane : Z -> f32) (q : Z) (old : mem) : mem :=
  le_bytes 4 (bits_of_f32 (match op with RO_SET => lane q | RO_ADD => fadd (lane q) (ld_f32 old) end)).
Definition el_bf16 (A : arch) (op : reduce_op) (lane : Z -> f32) (q : Z) (old : mem) : mem :=
  le_bytes 2 (cvt_ps_to_bf16 A (match op with RO_SET => lane q | RO_ADD => fadd (lane q) (f32_of_bits ((Z.shiftl (le_val old) 16) mod 4294967296)) end)).
Definition lane_mul (scale : f32) (zp : Z) (q : Z) : f32 := fmul (f32_of_Z (wrap32 (q - zp))) scale.
Definition lane_fma (scale : f32) (zp : Z) (q : Z) : f32 := ffma (f32_of_Z q) scale (vbias scale zp).

Lemma lanes_mul_map n scale zp q : length q = n -> lanes_mul n scale zp q = map (lane_mul scale zp) q.
Proof.
  intros <-. unfold lanes_mul, mul_ps, cvtepi32_ps, sub_epi32, set1, lane_mul.
  induction q as [|x q IH]; simpl; auto. f_equal. exact IH.
Qed.
Lemma lanes_fma_map n scale zp q : length q = n -> lanes_fma n scale zp q = map (lane_fma scale zp) q.
Proof.
  intros <-. unfold lanes_fma, cvtepi32_ps, set1, lane_fma.
  induction q as [|x q IH]; simpl; auto. f_equal. exact IH.
Qed.

Lemma chunks_cons {A} k (l : list A) : k > 0 -> l <> [] -> chunks k l = firstn k l :: chunks k (skipn k l).
Proof.
  intros Hk Hl. unfold chunks. destruct l as [|x l]; [congruence|]. cbn [length chunks_aux]. f_equal.
  apply chunks_aux_more; auto; rewrite skipn_length; cbn [length]; lia.
Qed.

Definition el_ok (e : nat) (el : Z -> mem -> mem) (g : list Z -> mem -> mem) (ln : nat) : Prop :=
  forall r o, length r = ln -> length o = e * ln -> g r o = concat (map2 el r (chunks e o)).

Lemma reg_f32_ok op lanes lane ln : (forall q, length q = ln -> lanes q = map lane q) -> el_ok 4 (el_f32 op lane) (reg_f32 op lanes) ln.
Proof.
  intros Hl r o Hr Ho. unfold reg_f32, store_ps. rewrite Hl by auto. clear Hl. revert r o Hr Ho.
  induction ln as [|ln IH]; intros r o Hr Ho.
  - destruct r; [|discriminate]. destruct op; reflexivity.
  - destruct r as [|q r]; [discriminate|]. injection Hr as Hr.
    destruct o as [|o0 [|o1 [|o2 [|o3 o]]]]; simpl in Ho; try lia.
    rewrite (chunks_cons 4) by (lia || discriminate). cbn [firstn skipn map2 concat].
    rewrite <- (IH r o) by (auto; lia).
    destruct op; cbn [map flat_map]; [reflexivity|].
    unfold loadu_ps. rewrite (chunks_cons 4) by (lia || discriminate). cbn [firstn skipn map add_ps map2 flat_map]. reflexivity.
Qed.
Lemma reg_bf16_ok A op lanes lane ln : (forall q, length q = ln -> lanes q = map lane q) -> el_ok 2 (el_bf16 A op lane) (reg_bf16 A op lanes) ln.
Proof.
  intros Hl r o Hr Ho. unfold reg_bf16, store_u16. rewrite Hl by auto. clear Hl. revert r o Hr Ho.
  induction ln as [|ln IH]; intros r o Hr Ho.
  - destruct r; [|discriminate]. destruct op; reflexivity.
  - destruct r as [|q r]; [discriminate|]. injection Hr as Hr.
    destruct o as [|o0 [|o1 o]]; simpl in Ho; try lia.
    rewrite (chunks_cons 2) by (lia || discriminate). cbn [firstn skipn map2 concat].
    rewrite <- (IH r o) by (auto; lia).
    destruct op; cbn [map flat_map]; [reflexivity|].
    unfold load_u16. rewrite (chunks_cons 2) by (lia || discriminate). cbn [firstn skipn map slli16_castps add_ps map2 flat_map]. reflexivity.
Qed.

Lemma map2_app {A B C} (f : A -> B -> C) l1 m1 l2 m2 : length l1 = length m1 -> map2 f (l1 ++ l2) (m1 ++ m2) = map2 f l1 m1 ++ map2 f l2 m2.
Proof.
  revert m1. induction l1 as [|a l1 IH]; intros [|b m1] H; try discriminate; simpl; auto. f_equal. apply IH. simpl in H. lia.
Qed.
Lemma map2_map {A B C D} (f : B -> C -> D) (g : A -> B) (h : A -> C) l : map2 f (map g l) (map h l) = map (fun x => f (g x) (h x)) l.
Proof. induction l as [|a l IH]; simpl; auto. f_equal. exact IH. Qed.

Lemma chunks_app {A} k n (a b : list A) : k > 0 -> length a = k * n -> chunks k (a ++ b) = chunks k a ++ chunks k b.
Proof.
  intros Hk. revert a. induction n as [|n IH]; intros a Ha.
  - destruct a; [reflexivity|]. simpl in Ha. lia.
  - assert (a <> []) by (intros ->; simpl in Ha; lia).
    rewrite (chunks_cons k a), (chunks_cons k (a ++ b)); auto.
    2:{ destruct a; [congruence|discriminate]. }
    rewrite firstn_app, skipn_app. replace (k - length a) with 0 by lia. rewrite firstn_O, skipn_O, app_nil_r.
    cbn [app]. f_equal. apply IH. rewrite skipn_length. lia.
Qed.
Lemma chunks_length {A} k n (a : list A) : k > 0 -> length a = k * n -> length (chunks k a) = n.
Proof.
  intros Hk. revert a. induction n as [|n IH]; intros a Ha.
  - destruct a; [reflexivity|]. simpl in Ha. lia.
  - assert (a <> []) by (intros ->; simpl in Ha; lia).
    rewrite chunks_cons by auto. cbn [length]. f_equal. apply IH. rewrite skipn_length. lia.
Qed.

Lemma emit_ok e el g ln : e > 0 -> el_ok e el g ln -> forall regs o,
  Forall (fun r => length r = ln) regs -> length o = e * ln * length regs ->
  emit (e * ln) g regs o = concat (map2 el (concat regs) (chunks e o)).
Proof.
  intros He Hg. induction regs as [|r rs IH]; intros o HF Ho.
  - destruct o; simpl in *; [reflexivity|lia].
  - inversion HF; subst. cbn [emit concat length] in *.
    assert (L1 : length (firstn (e * length r) o) = e * length r) by (rewrite firstn_length; nia).
    rewrite Hg by auto. rewrite IH by (auto; rewrite skipn_length; nia).
    rewrite <- concat_app. f_equal. rewrite <- map2_app.
    + f_equal. etransitivity; [symmetry; apply (chunks_app e (length r)); auto|]. rewrite firstn_skipn. reflexivity.
    + symmetry. apply chunks_length; auto.
Qed.

(** ** Kernels *)
Lemma block_end n numel j : n > 0 -> j mod n = 0 -> j <= numel -> numel < j + n -> j = n * (numel / n).
Proof.
  intros Hn Hm H1 H2. apply Nat.mod_divide in Hm; [|lia]. destruct Hm as [c ->].
  rewrite (Nat.mul_comm c n). f_equal. apply (Nat.div_unique _ _ _ (numel - c * n)); lia.
Qed.
Lemma block_in n numel i : n > 0 -> i mod n = 0 -> i + n <= numel -> i + n <= n * (numel / n).
Proof.
  intros Hn Hm H1. apply Nat.mod_divide in Hm; [|lia]. destruct Hm as [c ->].
  replace (c * n + n) with (n * S c) in * by lia. apply Nat.mul_le_mono_l.
  apply Nat.div_le_lower_bound; lia.
Qed.
Lemma flat_map_concat_map' {A} (f : A -> mem) l : flat_map f l = concat (map f l).
Proof. induction l; simpl; auto. f_equal; auto. Qed.

Lemma le_bytes_length n z : length (le_bytes n z) = n.
Proof. revert z. induction n; intros; simpl; auto. Qed.

Definition kernelE_ok (inm outm : mem) (e numel : nat) (E : nat -> mem) (acts : list action) : Prop :=
  tiles 0 (e * numel) acts /\ Forall (act_ok inm outm (byteE e E)) acts.

Lemma u2_elems_ok e step ptx p (F : nat -> mem) o : forall n k,
  (forall j, k <= j < k + n -> step_put step ptx (code2 p j) (sub (e * j) e o) = Ok (F j)) ->
  u2_elems e step ptx p k n o = Ok (flat_map F (seq k n)).
Proof.
  induction n as [|n IH]; intros k H; [reflexivity|]. cbn [u2_elems seq flat_map].
  rewrite H by lia. cbn [bind]. rewrite IH by (intros; apply H; lia). reflexivity.
Qed.

Lemma flat_map_seq_shift (F : nat -> mem) i n : flat_map (fun j => F (i + j)) (seq 0 n) = flat_map F (seq i n).
Proof.
  rewrite !flat_map_concat_map'. f_equal. rewrite <- map_map. f_equal.
  replace (seq i n) with (seq (i + 0) n) by (f_equal; lia). generalize 0. revert i. induction n as [|n IH]; intros i k; simpl; auto. f_equal.
  rewrite IH. f_equal. lia.
Qed.

Section Dq.
Variables (inm outm : mem) (din : dtype) (e numel : nat).
Hypothesis Hq : is_q din.
Hypothesis He : e = 4 \/ e = 2.
Hypothesis Hbytes : Forall is_byte inm.
Hypothesis Hin : bytes_for din numel <= length inm.
Hypothesis Hout : e * numel <= length outm.
Notation code i := (code_at din inm i).
Notation old i := (slice (e * i) e outm).
Variable E : nat -> mem.
Hypothesis HE : forall i, i < numel -> length (E i) = e.
Notation Q := (act_ok inm outm (byteE e E)).
Notation pos := (fun i => e * i).

Lemma e_pos : e > 0. Proof. destruct He; lia. Qed.

(** *** Vector loop *)
Section Vec.
Variables (n ilen ln : nat) (regs : mem -> list (list Z)) (el : Z -> mem -> mem) (g : list Z -> mem -> mem) (ioff : nat -> nat).
Hypothesis Hn : n > 0.
Hypothesis Hnp : n = per_byte din * ilen.
Hypothesis Hregs : regs_ok din ilen ln regs.
Hypothesis Hln : ln > 0.
Hypothesis Hg : el_ok e el g ln.
Hypothesis Hioff : forall i, i mod per_byte din = 0 -> per_byte din * ioff i = i.
Hypothesis HEv : forall i, i < n * (numel / n) -> E i = el (code i) (old i).

Definition Pv (i : nat) : Prop := i <= numel /\ i mod n = 0.

Lemma vec_act_ok i : Pv i -> i + n <= numel -> Q (dact_block e ilen n ioff (fun b o => emit (e * ln) g (regs b) o) i).
Proof.
  intros [Hi Hm] Hle. pose proof e_pos as Hep.
  assert (Hp : per_byte din = 1 \/ per_byte din = 2 \/ per_byte din = 4) by (destruct Hq as [->|[->| ->]]; cbn; auto).
  assert (Hpm : i mod per_byte din = 0).
  { apply Nat.mod_divide; [lia|]. apply Nat.mod_divide in Hm; [|lia]. destruct Hm as [c ->].
    exists (c * ilen). rewrite Hnp. lia. }
  pose proof (Hioff i Hpm) as Hi'.
  assert (Hb : ioff i + ilen <= length inm).
  { assert (per_byte din * (ioff i + ilen) <= numel) by lia.
    unfold bytes_for in Hin. destruct Hq as [->|[->| ->]]; cbn [bit_size per_byte] in *; lia. }
  apply elem_act_ok; auto.
  - intros j Hj. apply HE. lia.
  - nia.
  - f_equal.
    destruct (Hregs (slice (ioff i) ilen inm)) as [R1 R2]; [apply slice_length; lia|apply Forall_slice; auto|].
    assert (Hlen : length (regs (slice (ioff i) ilen inm)) * ln = n).
    { assert (L1 : length (concat (regs (slice (ioff i) ilen inm))) = n).
      { rewrite R1, codes_slice by auto. rewrite map_length, seq_length. lia. }
      rewrite <- L1. clear -R2. induction R2; simpl; auto. rewrite app_length. lia. }
    rewrite (emit_ok e el g ln) by (auto; rewrite slice_length; nia).
    rewrite R1, codes_slice by auto. rewrite <- Hnp, Hi'.
    rewrite chunks_slice by nia. rewrite map2_map, flat_map_concat_map'. f_equal.
    apply map_ext_in. intros j Hj. apply in_seq in Hj. symmetry. apply HEv.
    pose proof (block_in n numel i Hn Hm Hle). lia.
Qed.

Lemma vec_loop : 
  St (fun i => i = n * (numel / n)) Q pos
    (run_loop numel ([], 0) (blk_cond numel n, n, dact_block e ilen n ioff (fun b o => emit (e * ln) g (regs b) o))).
Proof.
  destruct (run_loop_St Pv Q pos numel ([], 0) (blk_cond numel n) n (dact_block e ilen n ioff (fun b o => emit (e * ln) g (regs b) o))) as [H1 H2].
  - apply St_nil. split; [lia|]. apply Nat.mod_0_l. lia.
  - intros i Hi Hc. unfold blk_cond in Hc. apply Nat.ltb_lt in Hc. split; [|split].
    + destruct Hi as [Hi Hm]. split; [lia|]. rewrite <- Nat.add_mod_idemp_l, Hm by lia. rewrite Nat.add_0_l. apply Nat.mod_same. lia.
    + apply vec_act_ok; auto. lia.
    + unfold dact_block. cbn [a_ooff a_olen]. split; [reflexivity|lia].
  - lia.
  - intros. apply blk_cond_ge; auto.
  - eapply St_weaken; [exact H1|]. intros [Hi Hm]. apply blk_cond_false in H2.
    apply block_end; auto; lia.
Qed.
End Vec.

(** *** Scalar loops starting at index [v] *)
Variables (step : Z -> res f32) (pt : f32 -> mem -> mem) (v : nat).
Hypothesis Hvn : v <= numel.
Hypothesis HEs : forall i, v <= i < numel -> step_put step pt (code i) (old i) = Ok (E i).

Lemma u8_scalar st : din = DT_UINT8 -> St (fun i => i = v) Q pos st ->
  kernelE_ok inm outm e numel E (fst (run_loop numel st (blk_cond numel 1, 1, dact_u8 e step pt))).
Proof.
  intros Hd HS. pose proof e_pos as Hep.
  destruct (run_loop_St (fun i => v <= i <= numel) Q pos numel st (blk_cond numel 1) 1 (dact_u8 e step pt)) as [H1 H2].
  - eapply St_weaken; [exact HS|]. intros ->. lia.
  - intros i Hi Hc. unfold blk_cond in Hc. apply Nat.ltb_lt in Hc. split; [lia|]. split; [|unfold dact_u8; cbn [a_ooff a_olen]; lia].
    unfold dact_u8. replace e with (e * 1) at 3 by lia. 
    rewrite Hd in Hin. rewrite bytes_for_u8 in Hin. apply elem_act_ok; auto; try lia; try nia.
    { intros j Hj. apply HE. lia. }
    cbn [seq flat_map]. rewrite app_nil_r, Nat.mul_1_r. rewrite nth_slice by lia. rewrite Nat.add_0_r.
    rewrite <- HEs by lia. f_equal. rewrite Hd. symmetry. apply code_at_u8. auto.
  - lia.
  - intros; apply blk_cond_ge; auto.
  - destruct H1 as (H3 & H4 & H5). apply blk_cond_false in H2. cbn [Nat.sub] in H2. split; auto.
    replace numel with (snd (run_loop numel st (blk_cond numel 1, 1, dact_u8 e step pt))) at 1 by lia.
    rewrite Nat.mul_0_r in H5. exact H5.
Qed.

Lemma u4_scalar st : din = DT_UINT4 -> v mod 2 = 0 -> St (fun i => i = v) Q pos st ->
  kernelE_ok inm outm e numel E (du4_finish e step pt numel (run_loop numel st (blk_cond numel 2, 2, dact_u4_pair e step pt))).
Proof.
  intros Hd Hv HS. pose proof e_pos as Hep.
  assert (Hin' : (numel + 1) / 2 <= length inm) by (rewrite <- bytes_for_u4, <- Hd; auto).
  destruct (run_loop_St (fun i => v <= i <= numel /\ i mod 2 = 0) Q pos numel st (blk_cond numel 2) 2 (dact_u4_pair e step pt)) as [H1 H2].
  - eapply St_weaken; [exact HS|]. intros ->. lia.
  - intros i [Hi Hm] Hc. unfold blk_cond in Hc. apply Nat.ltb_lt in Hc. cbn [Nat.sub] in Hc. split; [split; lia|].
    split; [|unfold dact_u4_pair; cbn [a_ooff a_olen]; lia].
    unfold dact_u4_pair. apply elem_act_ok; auto; rewrite ?div2_half; try lia; try nia.
    { intros j Hj. apply HE. lia. }
    cbn [seq flat_map]. rewrite app_nil_r. rewrite nth_slice by lia. rewrite Nat.add_0_r.
    assert (C0 : Z.land (nth (i / 2) inm 0%Z) 15 = code i).
    { rewrite Hd. replace i with (2 * (i / 2) + 0) at 2 by lia. rewrite code_at_u4 by lia.
      change (2 ^ (4 * Z.of_nat 0))%Z with 1%Z. rewrite Z.div_1_r. apply land15_mod. }
    assert (C1 : Z.shiftr (nth (i / 2) inm 0%Z) 4 = code (S i)).
    { rewrite Hd. replace (S i) with (2 * (i / 2) + 1) by lia. rewrite code_at_u4 by lia.
      pose proof (nth_is_byte inm (i / 2) Hbytes) as B. unfold is_byte in B. rewrite Z.shiftr_div_pow2 by lia.
      change (2 ^ (4 * Z.of_nat 1))%Z with 16%Z. change (2 ^ 4)%Z with 16%Z. rewrite Z.mod_small; lia. }
    rewrite C0, C1. rewrite !sub_slice by lia. rewrite Nat.add_0_r. replace (e * i + e) with (e * S i) by lia.
    rewrite !HEs by lia. reflexivity.
  - lia.
  - intros; apply blk_cond_ge; auto.
  - destruct H1 as ((H3 & H6) & H4 & H5). apply blk_cond_false in H2. cbn [Nat.sub] in H2.
    remember (run_loop numel st (blk_cond numel 2, 2, dact_u4_pair e step pt)) as st'.
    rewrite Nat.mul_0_r in H5. unfold du4_finish. destruct (Nat.odd numel) eqn:Eo.
    + assert (Ho : numel mod 2 = 1). { apply Nat.odd_spec in Eo. destruct Eo. lia. }
      assert (Hs : snd st' = numel - 1) by lia. split.
      * eapply tiles_app; [exact H5|]. constructor; [unfold dact_u4_odd; cbn [a_ooff]; rewrite Hs; reflexivity|].
        unfold dact_u4_odd; cbn [a_olen]. replace (e * snd st' + e) with (e * numel) by nia. constructor.
      * apply Forall_app. split; auto. constructor; [|constructor].
        unfold dact_u4_odd. replace e with (e * 1) at 3 by lia. rewrite Hs.
        apply elem_act_ok; auto; rewrite ?div2_half; try lia; try nia.
        { intros j Hj. apply HE. lia. }
        cbn [seq flat_map]. rewrite app_nil_r, Nat.mul_1_r. rewrite nth_slice by lia. rewrite Nat.add_0_r.
        rewrite <- HEs by lia. f_equal. rewrite Hd. replace (numel - 1) with (2 * ((numel - 1) / 2) + 0) at 2 by lia.
        rewrite code_at_u4 by lia. change (2 ^ (4 * Z.of_nat 0))%Z with 1%Z. rewrite Z.div_1_r. apply land15_mod.
    + assert (Ho : numel mod 2 = 0).
      { assert (Ee : Nat.even numel = true) by (rewrite <- Nat.negb_odd, Eo; reflexivity). apply Nat.even_spec in Ee. destruct Ee. lia. }
      rewrite app_nil_r. split; auto. replace numel with (snd st') by lia. auto.
Qed.

Lemma dact_u2_ok ptx n i : din = DT_UINT2 -> i mod 4 = 0 -> n <= 4 -> i + n <= numel -> i / 4 < length inm ->
  (forall j, i <= j < i + n -> step_put step ptx (code j) (old j) = Ok (E j)) ->
  Q (dact_u2 e step ptx n i).
Proof.
  clear Hvn HEs v pt. intros Hd Hm Hn Hi Hb Hx. pose proof e_pos as Hep. unfold dact_u2.
  change (Nat.div2 (Nat.div2 i)) with (quarter_idx i). rewrite quarter_div.
  apply elem_act_ok; auto; try lia; try nia.
  { intros j Hj. apply HE. lia. }
  rewrite nth_slice by lia. rewrite Nat.add_0_r.
  rewrite <- flat_map_seq_shift. apply u2_elems_ok. intros j Hj.
  rewrite sub_slice by nia. rewrite <- Nat.mul_add_distr_l. rewrite <- Hx by lia. f_equal.
  rewrite Hd. replace (i + j) with (4 * (i / 4) + j) by lia. rewrite code_at_u2 by lia.
  unfold code2. rewrite land3_mod, Z.shiftr_div_pow2 by lia. reflexivity.
Qed.

Lemma u2_quads st : din = DT_UINT2 -> v mod 4 = 0 -> St (fun i => i = v) Q pos st ->
  let st' := run_loop numel st (blk_cond numel 4, 4, dact_u2 e step pt 4) in
  (forall i, v <= i < 4 * (numel / 4) -> step_put step pt (code i) (old i) = Ok (E i)) ->
  St (fun i => i = 4 * (numel / 4)) Q pos st'.
Proof.
  clear HEs. intros Hd Hv HS st' HEq. subst st'. pose proof e_pos as Hep.
  assert (Hin' : (numel + 3) / 4 <= length inm) by (rewrite <- bytes_for_u2, <- Hd; auto).
  destruct (run_loop_St (fun i => v <= i <= numel /\ i mod 4 = 0) Q pos numel st (blk_cond numel 4) 4 (dact_u2 e step pt 4)) as [H1 H2].
  - eapply St_weaken; [exact HS|]. intros ->. lia.
  - intros i [Hi Hm] Hc. unfold blk_cond in Hc. apply Nat.ltb_lt in Hc. cbn [Nat.sub] in Hc. split; [split; lia|].
    split; [|unfold dact_u2; cbn [a_ooff a_olen]; lia].
    apply dact_u2_ok; auto; try lia. intros j Hj. apply HEq. lia.
  - lia.
  - intros; apply blk_cond_ge; auto.
  - eapply St_weaken; [exact H1|]. intros [Hi Hm]. apply blk_cond_false in H2. cbn [Nat.sub] in H2.
    apply block_end; auto; lia.
Qed.
End Dq.
