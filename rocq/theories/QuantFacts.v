(** QuantFacts.v -- the quantization kernels tile their output and store the packed codes. *)
From Coq Require Import ZArith List Lia Bool Arith ZifyBool ZifyNat.
From Verif Require Import Base Floats Simd Dtypes Spec QuantKernels ExecFacts.
Import ListNotations.

Ltac Zify.zify_post_hook ::= Z.div_mod_to_equations.

(** ** Slices and element loads *)
Lemma firstn_firstn_min {A} a b (l : list A) : a <= b -> firstn a (firstn b l) = firstn a l.
Proof. intros H. rewrite firstn_firstn. f_equal. lia. Qed.

Lemma skipn_firstn_comm' {A} a b (l : list A) : skipn a (firstn b l) = firstn (b - a) (skipn a l).
Proof. apply skipn_firstn_comm. Qed.

Lemma skipn_skipn' {A} a b (l : list A) : skipn a (skipn b l) = skipn (b + a) l.
Proof.
  revert l. induction b as [|b IH]; intros l; [reflexivity|]. destruct l; simpl; [apply skipn_nil|]. apply IH.
Qed.

Lemma sub_slice a l off len (m : mem) : a + l <= len -> sub a l (slice off len m) = slice (off + a) l m.
Proof.
  intros H. unfold sub, slice. rewrite skipn_firstn_comm', skipn_skipn', firstn_firstn_min by lia. reflexivity.
Qed.

Lemma chunks_aux_more {A} n (l : list A) : forall f f', n > 0 -> length l <= f -> length l <= f' ->
  chunks_aux f n l = chunks_aux f' n l.
Proof.
  intros f. revert l. induction f as [|f IH]; intros l f' Hn Hf Hf'.
  - destruct l; simpl in *; [|lia]. destruct f'; reflexivity.
  - destruct f' as [|f']; destruct l as [|x l]; auto; try (simpl in *; lia).
    cbn [chunks_aux]. f_equal. cbn [length] in Hf, Hf'. apply IH; auto; rewrite skipn_length; cbn [length]; lia.
Qed.

Lemma chunks_slice k : forall n i (m : mem), k > 0 -> k * i + k * n <= length m ->
  chunks k (slice (k * i) (k * n) m) = map (fun j => slice (k * j) k m) (seq i n).
Proof.
  induction n as [|n IH]; intros i m Hk Hb.
  - rewrite Nat.mul_0_r. unfold slice. simpl. reflexivity.
  - cbn [seq map]. rewrite <- IH by lia.
    unfold chunks. rewrite slice_length by lia.
    assert (L : length (slice (k * i) (k * S n) m) = k * S n) by (apply slice_length; lia).
    destruct (k * S n) as [|f] eqn:E; [lia|]. 
    rewrite <- E in *.
    replace (chunks_aux (k * S n) k (slice (k * i) (k * S n) m))
      with (chunks_aux (S f) k (slice (k * i) (k * S n) m)) by (f_equal; lia).
    cbn [chunks_aux]. destruct (slice (k * i) (k * S n) m) as [|x l] eqn:Es.
    { simpl in L. lia. }
    rewrite <- Es. f_equal.
    + unfold slice. rewrite firstn_firstn_min by lia. reflexivity.
    + unfold slice at 1. rewrite skipn_firstn_comm', skipn_skipn'.
      replace (k * S n - k) with (k * n) by lia. replace (k * i + k) with (k * S i) by lia.
      rewrite slice_length by lia.
      apply chunks_aux_more; auto; unfold slice; rewrite firstn_length, skipn_length; lia.
Qed.

Lemma loadu_ps_slice n i (m : mem) : 4 * i + 4 * n <= length m ->
  loadu_ps (slice (4 * i) (4 * n) m) = map (f32_at m) (seq i n).
Proof.
  intros H. unfold loadu_ps. rewrite chunks_slice by lia. rewrite map_map. reflexivity.
Qed.

Lemma load_u16_slice n i (m : mem) : 2 * i + 2 * n <= length m ->
  load_u16 (slice (2 * i) (2 * n) m) = map (bf16_at m) (seq i n).
Proof.
  intros H. unfold load_u16. rewrite chunks_slice by lia. rewrite map_map. reflexivity.
Qed.

Lemma le_val_range b : Forall is_byte b -> (0 <= le_val b < 256 ^ Z.of_nat (length b))%Z.
Proof.
  induction 1 as [|x b Hx Hb IH].
  - simpl. lia.
  - cbn [le_val length]. rewrite Nat2Z.inj_succ, Z.pow_succ_r by lia. unfold is_byte in Hx. lia.
Qed.

Lemma Forall_slice (P : Z -> Prop) off len m : Forall P m -> Forall P (slice off len m).
Proof.
  intros H. unfold slice. apply Forall_forall. intros x Hx. rewrite Forall_forall in H. apply H.
  rewrite <- (firstn_skipn off m). apply in_or_app. right.
  rewrite <- (firstn_skipn len (skipn off m)). apply in_or_app. left. exact Hx.
Qed.

Lemma bf16_at_range m i : Forall is_byte m -> (0 <= bf16_at m i < 65536)%Z.
Proof.
  intros H. unfold bf16_at. pose proof (le_val_range _ (Forall_slice _ (2 * i) 2 m H)) as R.
  assert (length (slice (2 * i) 2 m) <= 2) by (unfold slice; rewrite firstn_length; lia).
  assert (256 ^ Z.of_nat (length (slice (2 * i) 2 m)) <= 256 ^ 2)%Z by (apply Z.pow_le_mono_r; lia).
  change (256 ^ 2)%Z with 65536%Z in H1. lia.
Qed.

Lemma f32_at_bits_range m i : Forall is_byte m -> (0 <= le_val (slice (4 * i) 4 m) < 4294967296)%Z.
Proof.
  intros H. pose proof (le_val_range _ (Forall_slice _ (4 * i) 4 m H)) as R.
  assert (length (slice (4 * i) 4 m) <= 4) by (unfold slice; rewrite firstn_length; lia).
  assert (256 ^ Z.of_nat (length (slice (4 * i) 4 m)) <= 256 ^ 4)%Z by (apply Z.pow_le_mono_r; lia).
  change (256 ^ 4)%Z with 4294967296%Z in H1. lia.
Qed.

Definition is_fp (d : dtype) : Prop := d = DT_F32 \/ d = DT_BF16.

Lemma ld_slice d m i : is_fp d -> ld d (slice (esize d * i) (esize d) m) = elem_at d m i.
Proof.
  intros [-> | ->]; cbn [ld esize stride elem_at].
  - reflexivity.
  - unfold ld_bf16, f32_of_bf16. rewrite Z.shiftl_mul_pow2 by lia. reflexivity.
Qed.

Lemma slli16_at m l : Forall is_byte m ->
  slli16_castps (map (bf16_at m) l) = map (elem_at DT_BF16 m) l.
Proof.
  intros H. unfold slli16_castps. rewrite map_map. apply map_ext. intros j. cbn [elem_at].
  pose proof (bf16_at_range m j H). rewrite Z.shiftl_mul_pow2 by lia. f_equal.
  change (2 ^ 16)%Z with 65536%Z. apply Z.mod_small. lia.
Qed.

Lemma widen_slice n i m : Forall is_byte m -> 2 * i + 2 * n <= length m ->
  widen n (slice (2 * i) (2 * n) m) = map (elem_at DT_BF16 m) (seq i n).
Proof.
  intros Hb H. unfold widen, cvtepu16_epi32. rewrite load_u16_slice by auto.
  rewrite firstn_all2 by (rewrite map_length, seq_length; lia). apply slli16_at; auto.
Qed.

Lemma bf16lo_slice i m : Forall is_byte m -> 2 * i + 16 <= length m ->
  bf16lo (load_u16 (slice (2 * i) 16 m)) = map (elem_at DT_BF16 m) (seq i 4).
Proof.
  intros Hb H. change 16 with (2 * 8). rewrite load_u16_slice by lia. unfold bf16lo, cvtepu16_epi32. simpl firstn.
  exact (slli16_at m (seq i 4) Hb).
Qed.
Lemma bf16hi_slice i m : Forall is_byte m -> 2 * i + 16 <= length m ->
  bf16hi (load_u16 (slice (2 * i) 16 m)) = map (elem_at DT_BF16 m) (seq (i + 4) 4).
Proof.
  intros Hb H. change 16 with (2 * 8). rewrite load_u16_slice by lia.
  unfold bf16hi, bf16lo, cvtepu16_epi32, srli_si128_8_u16. simpl firstn.
  replace (i + 4) with (S (S (S (S i)))) by lia.
  exact (slli16_at m (seq (S (S (S (S i)))) 4) Hb).
Qed.

(** ** Vector lanes *)
Definition lane_x86 (mx : Z) (inv : f32) (zp : Z) (x : f32) : Z :=
  let y := fmul x inv in
  Z.max 0 (Z.min mx (wrap32 (cvttps (fadd y (if fge y f_zero then f_half else f_nhalf)) + zp))).
Definition lane_neon (inv : f32) (zp : Z) (x : f32) : Z :=
  sat_u8 (sat_i16 (wrap32 (vcvta (fmul x inv) + zp))).
(** the value a vector block stores for one element *)
Definition lane (A : arch) (mx : Z) (inv : f32) (zp : Z) (x : f32) : Z :=
  match A with NEON => lane_neon inv zp x | _ => lane_x86 mx inv zp x end.

Definition lane_raw (inv : f32) (zp : Z) (x : f32) : Z :=
  let y := fmul x inv in wrap32 (cvttps (fadd y (if fge y f_zero then f_half else f_nhalf)) + zp).

Lemma vround_map n inv zp xf : length xf = n -> vround n inv zp xf = map (lane_raw inv zp) xf.
Proof.
  intros <-. unfold vround, mul_ps, add_ps, cmpge_ps, cvttps_epi32, add_epi32, set1, lane_raw.
  induction xf as [|x xf IH]; simpl; auto. f_equal. exact IH.
Qed.

Lemma vclamp_maxmin_map n mx xi : length xi = n -> vclamp_maxmin n mx xi = map (fun z => Z.max 0 (Z.min mx z)) xi.
Proof.
  intros <-. unfold vclamp_maxmin, max_epi32, min_epi32, set1.
  induction xi as [|x xi IH]; simpl; auto. f_equal. exact IH.
Qed.
Lemma vclamp_minmax_map n mx xi : (0 <= mx)%Z -> length xi = n -> vclamp_minmax n mx xi = map (fun z => Z.max 0 (Z.min mx z)) xi.
Proof.
  intros Hm <-. unfold vclamp_minmax, max_epi32, min_epi32, set1.
  induction xi as [|x xi IH]; simpl; auto. f_equal; [lia|exact IH].
Qed.

Lemma qv_maxmin n mx inv zp xf : length xf = n ->
  vclamp_maxmin n mx (vround n inv zp xf) = map (lane_x86 mx inv zp) xf.
Proof.
  intros H. rewrite vround_map, vclamp_maxmin_map by (rewrite ?map_length; auto). rewrite map_map. reflexivity.
Qed.
Lemma qv_minmax n mx inv zp xf : (0 <= mx)%Z -> length xf = n ->
  vclamp_minmax n mx (vround n inv zp xf) = map (lane_x86 mx inv zp) xf.
Proof.
  intros Hm H. rewrite vround_map, vclamp_minmax_map by (rewrite ?map_length; auto). rewrite map_map. reflexivity.
Qed.

Lemma lane_x86_range mx inv zp x : (0 <= mx)%Z -> (0 <= lane_x86 mx inv zp x <= mx)%Z.
Proof. unfold lane_x86. lia. Qed.

(** ** Packing *)
Definition rng (mx : Z) (l : list Z) : Prop := Forall (fun z => 0 <= z <= mx)%Z l.
Lemma rng_map mx inv zp l : (0 <= mx)%Z -> rng mx (map (lane_x86 mx inv zp) l).
Proof. intros H. apply Forall_forall. intros z Hz. apply in_map_iff in Hz. destruct Hz as (x & <- & _). apply lane_x86_range; auto. Qed.

Lemma map_id_rng f mx l : (forall z, (0 <= z <= mx)%Z -> f z = z) -> rng mx l -> map f l = l.
Proof. intros Hf. induction 1; simpl; auto. f_equal; auto. Qed.

Lemma cvtusepi32_epi8_id l : rng 255 l -> cvtusepi32_epi8 l = l.
Proof. apply map_id_rng. intros z Hz. unfold u32. rewrite Z.mod_small by lia. lia. Qed.

Lemma explicit_list {A} (d : A) n (l : list A) : length l = n -> l = map (fun i => nth i l d) (seq 0 n).
Proof.
  intros <-. induction l as [|a l IH]; [reflexivity|]. cbn [length seq map nth]. f_equal.
  rewrite <- seq_shift, map_map. exact IH.
Qed.

Ltac explode l n :=
  let H := fresh in
  match goal with HL : length l = n |- _ => pose proof (explicit_list 0%Z n l HL) as H end;
  cbn [seq map] in H;
  repeat match goal with H : context [@nth Z ?i l 0%Z] |- _ => 
    let v := fresh "e" in set (v := @nth Z i l 0%Z) in H; clearbody v end;
  subst l.

Lemma pack_u8_avx2 a b c d : length a = 8 -> length b = 8 -> length c = 8 -> length d = 8 ->
  shuffle_epi8_256 (permute4x64 (packus_epi16_256 (packus_epi32_256 a b) (packus_epi32_256 c d)) 0xd8) shuffle_matrix
  = map (fun z => sat_u8 (s16 (sat_u16 z))) (a ++ b ++ c ++ d).
Proof.
  intros Ha Hb Hc Hd. explode a 8. explode b 8. explode c 8. explode d 8. reflexivity.
Qed.

Lemma sat_id z : (0 <= z <= 255)%Z -> sat_u8 (s16 (sat_u16 z)) = z.
Proof. intros H. unfold sat_u8, s16, sat_u16. lia. Qed.
Lemma sat_id' z : (0 <= z <= 255)%Z -> sat_u8 (s16 (sat_i16 z)) = z.
Proof. intros H. unfold sat_u8, s16, sat_i16. lia. Qed.

Lemma rng_app mx a b : rng mx a -> rng mx b -> rng mx (a ++ b).
Proof. apply (fun A B => proj2 (Forall_app _ _ _) (conj A B)). Qed.
Lemma rng_le mx mx' a : (mx <= mx')%Z -> rng mx a -> rng mx' a.
Proof. intros H. apply Forall_impl. intros; lia. Qed.
#[local] Hint Resolve rng_app : rng.

Lemma blk_u8_avx2_eq inv zp a b c d :
  length a = 8 -> length b = 8 -> length c = 8 -> length d = 8 ->
  blk_u8_avx2 inv zp a b c d = map (lane_x86 255 inv zp) (a ++ b ++ c ++ d).
Proof.
  intros Ha Hb Hc Hd. unfold blk_u8_avx2. rewrite !qv_maxmin by auto.
  rewrite pack_u8_avx2 by (rewrite map_length; auto). rewrite <- !map_app.
  apply (map_id_rng _ 255); [apply sat_id|]. apply rng_map; lia.
Qed.

Lemma blk_u8_sse_eq inv zp a b c d :
  length a = 4 -> length b = 4 -> length c = 4 -> length d = 4 ->
  blk_u8_sse inv zp a b c d = map (lane_x86 255 inv zp) (a ++ b ++ c ++ d).
Proof.
  intros Ha Hb Hc Hd. unfold blk_u8_sse. rewrite !qv_maxmin by auto.
  unfold packus_epi16, packus_epi32. rewrite !map_app, !map_map, <- !app_assoc.
  assert (E : forall l, map (fun x => sat_u8 (s16 (sat_u16 (lane_x86 255 inv zp x)))) l = map (lane_x86 255 inv zp) l).
  { intros l. apply map_ext. intros x. apply sat_id. apply lane_x86_range. lia. }
  rewrite !E. reflexivity.
Qed.

Lemma blk_u8_avx512_eq inv zp gs : Forall (fun g => length g = 16) gs ->
  blk_u8_avx512_groups inv zp gs = map (lane_x86 255 inv zp) (concat gs).
Proof.
  intros H. unfold blk_u8_avx512_groups. induction H as [|g gs Hg Hgs IH]; [reflexivity|].
  cbn [flat_map concat]. rewrite map_app, IH. f_equal.
  rewrite qv_maxmin by auto. apply cvtusepi32_epi8_id, rng_map. lia.
Qed.

(** nibbles *)
Lemma slli4_pair a b : (0 <= a <= 15)%Z -> (0 <= b <= 15)%Z ->
  le_bytes 2 ((Z.shiftl (a + 256 * b) 4) mod 65536) = [16 * a; 16 * b]%Z.
Proof.
  intros Ha Hb. rewrite Z.shiftl_mul_pow2 by lia. change (2 ^ 4)%Z with 16%Z. cbn [le_bytes].
  f_equal; [|f_equal]; lia.
Qed.

Lemma lor_add a b n : (0 <= n)%Z -> (0 <= a < 2 ^ n)%Z -> (0 <= b)%Z -> Z.lor a (2 ^ n * b) = (a + 2 ^ n * b)%Z.
Proof.
  intros Hn Ha Hb. rewrite <- Z.lxor_lor, <- Z.add_nocarry_lxor; auto.
  all: apply Z.bits_inj'; intros k Hk; rewrite Z.land_spec, Z.bits_0;
    rewrite (Z.mul_comm (2 ^ n)), <- Z.shiftl_mul_pow2, Z.shiftl_spec by lia;
    destruct (Z.lt_ge_cases k n) as [Hkn|Hkn];
    [ rewrite (Z.testbit_neg_r b) by lia; apply andb_false_r
    | rewrite <- (Z.mod_small a (2 ^ n)) by lia; rewrite Z.mod_pow2_bits_high by lia; reflexivity ].
Qed.
Lemma lor16 a b : (0 <= a <= 15)%Z -> (0 <= b)%Z -> Z.lor a (16 * b) = (a + 16 * b)%Z.
Proof. intros. apply (lor_add a b 4); lia. Qed.

Definition nib (l : list Z) (k : nat) : Z := (nth (2 * k) l 0 + 16 * nth (2 * k + 1) l 0)%Z.

Lemma nibble_pack_eq se so u8 : length u8 = 16 -> rng 15 u8 ->
  (se = shuf_even /\ so = shuf_odd) \/ (se = shuf_even512 /\ so = shuf_odd512) ->
  nibble_pack se so u8 = map (nib u8) (seq 0 8).
Proof.
  intros HL HR Hs.
  assert (HN : forall k, (0 <= nth k u8 0 <= 15)%Z).
  { intros k. destruct (Nat.lt_ge_cases k (length u8)) as [Hk|Hk].
    - unfold rng in HR. rewrite Forall_forall in HR. apply HR. apply nth_In; auto.
    - rewrite nth_overflow by auto. lia. }
  assert (E : nibble_pack se so u8 = firstn 8 (or_si (map (fun k => nth (2 * k) u8 0%Z) (seq 0 8) ++ repeat 0%Z 8)
       (slli_epi16 (map (fun k => nth (2 * k + 1) u8 0%Z) (seq 0 8) ++ repeat 0%Z 8) 4))).
  { unfold nibble_pack. destruct Hs as [[-> ->]|[-> ->]]; reflexivity. }
  rewrite E. cbn [seq map app repeat Nat.mul Nat.add].
  cbn [slli_epi16]. rewrite !slli4_pair by (try apply HN; lia).
  cbn [app or_si map2 firstn]. unfold nib. 
  rewrite !lor16 by apply HN. reflexivity.
Qed.

Lemma blk_u4_avx512_eq inv zp xf : length xf = 16 ->
  blk_u4_avx512 inv zp xf = map (nib (map (lane_x86 15 inv zp) xf)) (seq 0 8).
Proof.
  intros H. unfold blk_u4_avx512. rewrite qv_minmax by (auto; lia).
  assert (R : rng 15 (map (lane_x86 15 inv zp) xf)) by (apply rng_map; lia).
  rewrite cvtusepi32_epi8_id by (eapply rng_le; [|exact R]; lia).
  apply nibble_pack_eq; auto. rewrite map_length; auto.
Qed.

Lemma blk_u4_avx2_eq inv zp a b : length a = 8 -> length b = 8 ->
  blk_u4_avx2 inv zp a b = map (nib (map (lane_x86 15 inv zp) (a ++ b))) (seq 0 8).
Proof.
  intros Ha Hb. unfold blk_u4_avx2. rewrite !qv_minmax by (auto; lia).
  assert (R : forall l, rng 15 (map (lane_x86 15 inv zp) l)) by (intros; apply rng_map; lia).
  assert (E : packus_epi16 
     (packs_epi32 (firstn 4 (map (lane_x86 15 inv zp) a)) (skipn 4 (map (lane_x86 15 inv zp) a)))
     (packs_epi32 (firstn 4 (map (lane_x86 15 inv zp) b)) (skipn 4 (map (lane_x86 15 inv zp) b)))
     = map (lane_x86 15 inv zp) (a ++ b)).
  { unfold packus_epi16, packs_epi32. rewrite <- !map_app, !firstn_skipn, <- !map_app, !map_map.
    apply map_ext. intros x. apply sat_id'. pose proof (lane_x86_range 15 inv zp x). lia. }
  rewrite E. apply nibble_pack_eq; auto. rewrite map_length, app_length; lia.
Qed.

Lemma blk_u4_sse_eq inv zp a b c d :
  length a = 4 -> length b = 4 -> length c = 4 -> length d = 4 ->
  blk_u4_sse inv zp a b c d = map (nib (map (lane_x86 15 inv zp) (a ++ b ++ c ++ d))) (seq 0 8).
Proof.
  intros Ha Hb Hc Hd. unfold blk_u4_sse. rewrite !qv_maxmin by auto.
  assert (E : packus_epi16 
     (packs_epi32 (map (lane_x86 15 inv zp) a) (map (lane_x86 15 inv zp) b))
     (packs_epi32 (map (lane_x86 15 inv zp) c) (map (lane_x86 15 inv zp) d))
     = map (lane_x86 15 inv zp) (a ++ b ++ c ++ d)).
  { unfold packus_epi16, packs_epi32. rewrite <- !map_app, !map_map, <- !app_assoc.
    apply map_ext. intros x. apply sat_id'. pose proof (lane_x86_range 15 inv zp x). lia. }
  rewrite E. apply nibble_pack_eq; auto. 
  - rewrite map_length, !app_length; lia.
  - apply rng_map; lia.
Qed.

(** 2-bit packing *)
Definition quad (l : list Z) (k : nat) : Z :=
  (nth (4 * k) l 0 + 4 * nth (4 * k + 1) l 0 + 16 * nth (4 * k + 2) l 0 + 64 * nth (4 * k + 3) l 0)%Z.

Lemma land3 z : (0 <= z <= 3)%Z -> Z.land z 3 = z.
Proof. intros H. change 3%Z with (Z.ones 2). rewrite Z.land_ones by lia. apply Z.mod_small. change (2 ^ 2)%Z with 4%Z. lia. Qed.
Lemma land15 z : (0 <= z <= 15)%Z -> Z.land z 15 = z.
Proof. intros H. change 15%Z with (Z.ones 4). rewrite Z.land_ones by lia. apply Z.mod_small. change (2 ^ 4)%Z with 16%Z. lia. Qed.

Lemma quad_hadd a b c d : (0 <= a <= 3)%Z -> (0 <= b <= 3)%Z -> (0 <= c <= 3)%Z -> (0 <= d <= 3)%Z ->
  sat_u8 (s16 (s16 (sat_i16 (Z.land a 3 * 1 + Z.land b 3 * 4) + sat_i16 (Z.land c 3 * 16 + Z.land d 3 * 64)))) = (a + 4 * b + 16 * c + 64 * d)%Z.
Proof.
  intros. rewrite !land3 by auto. unfold sat_u8, s16, sat_i16. lia.
Qed.

Lemma blk_u2_avx512_eq inv zp b xf : widen 16 b = xf -> length xf = 16 ->
  blk_bf16_u2_avx512 inv zp b = map (quad (map (lane_x86 3 inv zp) xf)) (seq 0 4).
Proof.
  intros E HL. unfold blk_bf16_u2_avx512. rewrite E, qv_minmax by (auto; lia).
  assert (R : rng 3 (map (lane_x86 3 inv zp) xf)) by (apply rng_map; lia).
  rewrite cvtusepi32_epi8_id by (eapply rng_le; [|exact R]; lia).
  remember (map (lane_x86 3 inv zp) xf) as l.
  assert (HL' : length l = 16) by (subst l; rewrite map_length; auto). clear Heql E HL.
  explode l 16. unfold rng in R.
  repeat match goal with H : Forall _ (_ :: _) |- _ => inversion H; clear H; subst end.
  cbv [and_si map2 set1 repeat w0146 maddubs_epi16 hadd_epi16 hadd_half app packus_epi16 map firstn seq quad nth Nat.mul Nat.add].
  change (s8 1) with 1%Z. change (s8 4) with 4%Z. change (s8 16) with 16%Z. change (s8 64) with 64%Z.
  rewrite !quad_hadd by auto. reflexivity.
Qed.

Lemma pack2_eq a b : (0 <= a <= 15)%Z -> (0 <= b <= 15)%Z -> pack2 a b = (a + 16 * b)%Z.
Proof.
  intros. unfold pack2. rewrite !land15 by auto. rewrite Z.shiftl_mul_pow2 by lia. rewrite Z.mul_comm. apply (lor_add a b 4); lia.
Qed.
Lemma pack4_eq a b c d : (0 <= a <= 3)%Z -> (0 <= b <= 3)%Z -> (0 <= c <= 3)%Z -> (0 <= d <= 3)%Z ->
  pack4 a b c d = (a + 4 * b + 16 * c + 64 * d)%Z.
Proof.
  intros. unfold pack4. rewrite !land3 by auto. rewrite !Z.shiftl_mul_pow2 by lia.
  rewrite (Z.mul_comm b), (Z.mul_comm c), (Z.mul_comm d).
  rewrite (lor_add a b 2) by lia. rewrite (lor_add (a + 2^2 * b) c 4) by lia. rewrite (lor_add _ d 6) by lia. lia.
Qed.
