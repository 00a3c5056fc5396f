(** PropsAnyThreads.v -- C04, C13, C14, C29, C31 without conditions on the other elements: when the thread count, the address and the CPU cannot matter,
    whatever the data, the scale and the zero point are; C11 and C15 for stochastic rounding. *)
From Coq Require Import ZArith List Lia Bool Arith ZifyBool ZifyNat Reals Lra.
From Flocq Require Import Core Binary Bits.
From Verif Require Import Base Floats Simd Dtypes Spec ApiSpec QuantKernels DequantKernels ExecFacts FloatFacts QuantFacts QuantKernelFacts DequantFacts Context Api
  PropsQuantize Schedule PropsMemory FloatFacts2 FloatFacts3 PropsDequantize PropsRoundTrip PathSpec PropsPaths PropsExtreme RoundTripFacts PropsIdempotent PropsBadScale PropsRoundTripTypes
  AnyInputSpec PropsAnyInput PropsBf16Zero QuantLanes.
Import ListNotations.

Lemma some_or_none n (code : nat -> option Z) : (exists i, i < n /\ code i = None) \/ (forall i, i < n -> code i <> None).
Proof.
  induction n as [|n [(i & Hi & E)|H]]; [right; intros; lia|left; exists i; split; auto; lia|].
  destruct (code n) as [c|] eqn:E; [right|left; exists n; split; auto].
  intros i Hi. destruct (Nat.eq_dec i n) as [->|]; [congruence|apply H; lia].
Qed.

(** the outcome is a function of the per-element results *)
Lemma same_outcome A A' nt nt' oaddr oaddr' din dout scale zp rm thr thr' inm outm outm' r r' :
  buffers_ok nt din dout inm outm -> buffers_ok nt' din dout inm outm' -> (rm = RM_STOCHASTIC -> threshold thr) -> (rm = RM_STOCHASTIC -> threshold thr') -> (- 2 ^ 63 <= zp < 2 ^ 63)%Z ->
  (forall i, i < numel din (length inm) ->
     quantize_result A nt oaddr din dout rm thr scale zp inm i = quantize_result A' nt' oaddr' din dout rm thr' scale zp inm i) ->
  returns inm outm (quantize_call A nt oaddr din dout scale zp rm thr inm outm) r ->
  returns inm outm' (quantize_call A' nt' oaddr' din dout scale zp rm thr' inm outm') r' -> r = r'.
Proof.
  intros HB HB' Ht Ht' Hz E HR HR'. pose proof HB as (Hf & Hq & _ & L & _). pose proof HB' as (_ & _ & _ & L' & _).
  destruct (C36_complete _ _ _ _ _ _ _ _ _ _ _ _ HB Ht Hz HR) as [U1 O1]. destruct (C36_complete _ _ _ _ _ _ _ _ _ _ _ _ HB' Ht' Hz HR') as [U2 O2].
  set (n := numel din (length inm)) in *.
  destruct (some_or_none n (quantize_result A nt oaddr din dout rm thr scale zp inm)) as [(i & Hi & N)|S].
  - rewrite U1, U2; auto; exists i; split; auto. rewrite <- E; auto.
  - destruct O1 as (o & -> & Lo & C & B); auto. destruct O2 as (o' & -> & Lo' & C' & B'); [intros i Hi; rewrite <- E; auto|].
    f_equal. assert (LL : length o = length o') by congruence.
    apply list_ext; auto. intros k Hk. rewrite B, B' by lia. unfold packed_byte. f_equal. apply map_ext_in. intros j _. cbv zeta.
    destruct (Nat.ltb_spec (codes_per_byte dout * k + j) n) as [Hl|Hl]; auto.
    assert (code_at dout o (codes_per_byte dout * k + j) = code_at dout o' (codes_per_byte dout * k + j)) as ->; auto.
    specialize (C _ Hl). specialize (C' _ Hl). rewrite E in C by auto. congruence.
Qed.

(** ** C04, stochastic rounding: thread count, kernel set, output address and old output bytes never matter -- for all data, scales and zero points. *)
Theorem C04_stochastic_any_data A A' nt nt' oaddr oaddr' din dout scale zp thr inm outm outm' r r' :
  buffers_ok nt din dout inm outm -> buffers_ok nt' din dout inm outm' -> threshold thr -> (- 2 ^ 63 <= zp < 2 ^ 63)%Z ->
  returns inm outm (quantize_call A nt oaddr din dout scale zp RM_STOCHASTIC thr inm outm) r ->
  returns inm outm' (quantize_call A' nt' oaddr' din dout scale zp RM_STOCHASTIC thr inm outm') r' -> r = r'.
Proof. intros HB HB' Ht Hz HR HR'. exact (same_outcome A A' nt nt' oaddr oaddr' din dout scale zp RM_STOCHASTIC thr thr inm outm outm' r r' HB HB' (fun _ => Ht) (fun _ => Ht) Hz (fun i _ => eq_refl) HR HR'). Qed.

(** ** C04, nearest rounding: only the paths matter.  If every element takes the same kind of path in both calls, the results are the same for all data. *)
Theorem C04_nearest_same_paths A A' nt nt' oaddr oaddr' din dout scale zp thr thr' inm outm outm' r r' :
  buffers_ok nt din dout inm outm -> buffers_ok nt' din dout inm outm' -> (- 2 ^ 63 <= zp < 2 ^ 63)%Z ->
  (forall i, i < numel din (length inm) ->
     let v := vector_path A din dout oaddr (numel din (length inm)) nt i in
     v = vector_path A' din dout oaddr' (numel din (length inm)) nt' i /\ (v = true -> (A = NEON <-> A' = NEON))) ->
  returns inm outm (quantize_call A nt oaddr din dout scale zp RM_NEAREST thr inm outm) r ->
  returns inm outm' (quantize_call A' nt' oaddr' din dout scale zp RM_NEAREST thr' inm outm') r' -> r = r'.
Proof.
  intros HB HB' Hz HV HR HR'.
  eapply (same_outcome A A' nt nt' oaddr oaddr' din dout scale zp RM_NEAREST thr thr' inm outm outm'); eauto; try discriminate.
  intros i Hi. destruct (HV i Hi) as [E K]. unfold quantize_result. rewrite <- E. destruct (vector_path A _ _ _ _ _ _); auto. specialize (K eq_refl).
  unfold vector_result. cbv zeta. destruct A, A'; auto; destruct K as [K1 K2]; try (specialize (K1 eq_refl)); try (specialize (K2 eq_refl)); discriminate.
Qed.

(** ** C29: the stored code comes from the scaled value cut off, or the next integer away from zero; integers are kept. *)
Theorem C29_neighbour A nt oaddr din dout scale zp thr inm outm r :
  buffers_ok nt din dout inm outm -> good_scale scale -> (Z.abs zp <= 2 ^ 62)%Z -> threshold thr ->
  (forall i, i < numel din (length inm) -> quantizable scale (elem_at din inm i)) ->
  returns inm outm (quantize_call A nt oaddr din dout scale zp RM_STOCHASTIC thr inm outm) r ->
  exists o, r = Ok o /\ forall i, i < numel din (length inm) ->
    let y := RN32 (val (elem_at din inm i) * RN32 (1 / val scale)) in
    exists t, code_at dout o i = clamp 0 (2 ^ Z.of_nat (bit_size dout) - 1) (t + zp) /\
      (t = Ztrunc y \/ t = (if Rlt_bool y 0 then Ztrunc y - 1 else Ztrunc y + 1)%Z) /\
      (Rabs (IZR t - y) <= 1)%R /\ (forall k, y = IZR k -> t = k).
Proof.
  intros HB Hs Hz Ht HI HR. destruct (C29_quantize_stochastic _ _ _ _ _ _ _ _ _ _ _ HB Hs Hz Ht HI HR) as (o & -> & _ & HC).
  exists o. split; auto. intros i Hi y. exists (stoch_round (val thr) y). rewrite HC by auto. split; [reflexivity|].
  destruct Ht as [_ [T0 T1]]. clearbody y. clear - T0 T1. unfold stoch_round.
  pose proof (Zfloor_lb (Rabs y)) as L. pose proof (Zfloor_ub (Rabs y)) as U. unfold Ztrunc.
  assert (E : (if Rlt_bool y 0 then Zceil y else Zfloor y) = (if Rlt_bool y 0 then - Zfloor (Rabs y) else Zfloor (Rabs y))%Z).
  { destruct (Rlt_bool_spec y 0) as [N|N]; [rewrite Rabs_left by auto; reflexivity|rewrite Rabs_pos_eq by auto; reflexivity]. }
  rewrite E. clear E.
  assert (I : forall k, y = IZR k -> Zfloor (Rabs y) = Z.abs k /\ Rabs y = IZR (Z.abs k)).
  { intros k ->. rewrite <- abs_IZR. rewrite Zfloor_IZR. auto. }
  set (f := Zfloor (Rabs y)) in *.
  destruct (Rlt_bool_spec (val thr) (Rabs y - IZR f)) as [C|C]; destruct (Rlt_bool_spec y 0) as [N|N]; (split; [lia|split]).
  all: try (rewrite ?opp_IZR, ?plus_IZR; first [rewrite Rabs_left in L, U by lra | rewrite (Rabs_pos_eq y) in L, U by lra]; apply Rabs_le; lra).
  all: intros k Ek; destruct (I k Ek) as [F V].
  - rewrite V, F in C. lra.
  - rewrite V, F in C. lra.
  - rewrite F. subst y. apply lt_IZR in N. lia.
  - rewrite F. subst y. apply le_IZR in N. lia.
Qed.

(** ** C31 for all data: equal inputs get equal codes in one stochastic call whenever the call is defined. *)
Theorem C31_any_data A nt oaddr din dout scale zp thr inm outm r :
  buffers_ok nt din dout inm outm -> threshold thr -> (- 2 ^ 63 <= zp < 2 ^ 63)%Z ->
  returns inm outm (quantize_call A nt oaddr din dout scale zp RM_STOCHASTIC thr inm outm) r ->
  r = UB \/ exists o, r = Ok o /\ forall i j, i < numel din (length inm) -> j < numel din (length inm) ->
    elem_at din inm i = elem_at din inm j -> code_at dout o i = code_at dout o j.
Proof.
  intros HB Ht Hz HR. destruct (C36_complete _ _ _ _ _ _ _ _ _ _ _ _ HB (fun _ => Ht) Hz HR) as [U O].
  destruct (some_or_none (numel din (length inm)) (quantize_result A nt oaddr din dout RM_STOCHASTIC thr scale zp inm)) as [N|S]; [left; auto|right].
  destruct (O S) as (o & -> & _ & C & _). exists o. split; auto. intros i j Hi Hj E. pose proof (C i Hi) as Ci. pose proof (C j Hj) as Cj.
  unfold quantize_result in Ci, Cj. rewrite E in Ci. rewrite Ci in Cj. injection Cj. auto.
Qed.

(** ** C11 for stochastic rounding: a call that is defined is monotone, for every threshold, over all elements. *)
Lemma stoch_round_mono t y y' : (y <= y')%R -> (stoch_round t y <= stoch_round t y')%Z.
Proof.
  assert (P : forall a b, (0 <= a <= b)%R -> (Zfloor a + (if Rlt_bool t (a - IZR (Zfloor a)) then 1 else 0) <= Zfloor b + (if Rlt_bool t (b - IZR (Zfloor b)) then 1 else 0))%Z).
  { intros a b H. pose proof (Zfloor_le a b (proj2 H)) as L. destruct (Z.eq_dec (Zfloor a) (Zfloor b)) as [E|N].
    - rewrite E. destruct (Rlt_bool_spec t (a - IZR (Zfloor b))) as [C|C]; destruct (Rlt_bool_spec t (b - IZR (Zfloor b))) as [C'|C']; try lia. exfalso. lra.
    - destruct (Rlt_bool t _); destruct (Rlt_bool t _); lia. }
  assert (N : forall a, (0 <= a)%R -> (0 <= Zfloor a)%Z) by (intros a Ha; apply (Zfloor_lub 0); auto).
  assert (E : forall a, stoch_round t a = (if Rlt_bool a 0 then - (Zfloor (Rabs a) + (if Rlt_bool t (Rabs a - IZR (Zfloor (Rabs a))) then 1 else 0))
                                         else Zfloor (Rabs a) + (if Rlt_bool t (Rabs a - IZR (Zfloor (Rabs a))) then 1 else 0))%Z).
  { intros a. unfold stoch_round. destruct (Rlt_bool t _); destruct (Rlt_bool a 0); lia. }
  intros H. rewrite !E. destruct (Rlt_bool_spec y 0) as [A|A]; destruct (Rlt_bool_spec y' 0) as [B|B].
  - rewrite !Rabs_left by auto. specialize (P (- y')%R (- y)%R ltac:(lra)). lia.
  - pose proof (N (Rabs y) (Rabs_pos y)). pose proof (N (Rabs y') (Rabs_pos y')). destruct (Rlt_bool t _); destruct (Rlt_bool t _); lia.
  - lra.
  - rewrite !Rabs_pos_eq by lra. apply P. lra.
Qed.
Theorem C11_stochastic_monotone A nt oaddr din dout scale zp thr inm outm o :
  buffers_ok nt din dout inm outm -> good_scale scale -> (0 < val scale)%R -> threshold thr -> (- 2 ^ 63 <= zp < 2 ^ 63)%Z ->
  returns inm outm (quantize_call A nt oaddr din dout scale zp RM_STOCHASTIC thr inm outm) (Ok o) ->
  forall i j, i < numel din (length inm) -> j < numel din (length inm) ->
    (val (elem_at din inm i) <= val (elem_at din inm j))%R -> (code_at dout o i <= code_at dout o j)%Z.
Proof.
  intros HB Hs Hp Ht Hz HR i j Hi Hj Hx. destruct (C36_stochastic_every_input _ _ _ _ _ _ _ _ _ _ _ HB Hs Ht Hz HR) as [U O].
  assert (D : forall i, i < numel din (length inm) -> stoch_defined scale zp thr (elem_at din inm i)).
  { intros k Hk. destruct (stoch_dec scale zp thr (elem_at din inm k)) as [d|d]; auto. discriminate (U (ex_intro _ k (conj Hk d))). }
  destruct (O D) as (o' & E & _ & C). injection E as <-. rewrite !C by auto. unfold stoch_code.
  pose proof (stoch_round_mono (val thr) _ _ (scaled_mono (val scale) _ _ Hp Hx)) as M. unfold clamp. lia.
Qed.

(** ** C13: zeros get the zero point whenever the call is defined, whatever the other elements are. *)
Lemma product_zero scale x : good_scale scale -> finite x -> val x = 0%R -> finite (product scale x) /\ val (product scale x) = 0%R.
Proof.
  intros [Hn Hb] Fx Vx. destruct (fdiv_ok f_one scale) as [Fi Vi]; [apply f_one_ok|auto|destruct f_one_ok as [_ ->]; auto|].
  destruct (fmul_ok x (fdiv f_one scale) Fx Fi) as [Fp Vp]; rewrite Vx, Rmult_0_l, RN32_0 in *; auto. rewrite Rabs_R0. unfold max32. apply bpow_gt_0.
Qed.
Theorem C13_zero_any_data A nt oaddr din dout scale zp rm thr inm outm o :
  buffers_ok nt din dout inm outm -> good_scale scale -> (0 <= zp <= code_max dout)%Z -> (rm = RM_STOCHASTIC -> threshold thr) ->
  returns inm outm (quantize_call A nt oaddr din dout scale zp rm thr inm outm) (Ok o) ->
  forall i, i < numel din (length inm) -> finite (elem_at din inm i) -> val (elem_at din inm i) = 0%R -> code_at dout o i = zp.
Proof.
  intros HB Hs Hz Ht HR i Hi Fx Vx. pose proof HB as (_ & Hq & _). pose proof (code_max_range dout Hq) as Hm.
  assert (Hz' : (- 2 ^ 63 <= zp < 2 ^ 63)%Z) by lia.
  destruct (C36_complete _ _ _ _ _ _ _ _ _ _ _ _ HB Ht Hz' HR) as [U O].
  destruct (some_or_none (numel din (length inm)) (quantize_result A nt oaddr din dout rm thr scale zp inm)) as [N|N]; [discriminate (U N)|].
  destruct (O N) as (o' & E & _ & C & _). injection E as <-. specialize (C i Hi).
  destruct (product_zero scale (elem_at din inm i) Hs Fx Vx) as [Fp Vp].
  assert (W : wrap32 zp = zp) by (apply wrap32_id; lia).
  assert (SR : forall c, scalar_result din dout rm thr scale zp (elem_at din inm i) = Some c -> c = zp).
  { intros c. unfold scalar_result. cbv zeta. rewrite Vp, W. 
    assert (K : match rm with RM_NEAREST => round_half_away 0 | RM_STOCHASTIC => stoch_round (val thr) 0 end = 0%Z).
    { destruct rm; [apply rha_0|]. apply (stoch_round_int (val thr) 0). apply Ht; auto. }
    rewrite K. destruct (_ && _ && _); [|discriminate]. intros E. injection E as <-. destruct (_ =? _)%Z; unfold clamp; lia. }
  unfold quantize_result in C. destruct rm; [|symmetry; exact (eq_sym (SR _ C))].
  destruct (vector_path _ _ _ _ _ _ _); [|exact (SR _ C)]. injection C as C. rewrite <- C. unfold vector_result. cbv zeta. rewrite W.
  assert (K : match A with NEON => neon_integer (product scale (elem_at din inm i)) | _ => x86_integer (product scale (elem_at din inm i)) end = 0%Z).
  { unfold neon_integer, x86_integer. unfold finite in Fp. rewrite Fp, Vp.
    assert (X : Ztrunc (RN32 (0 + (if Rlt_bool 0 0 then - / 2 else / 2))) = 0%Z).
    { rewrite Rlt_bool_false by lra. rewrite Rplus_0_l. rewrite RN32_fmt; [|change (/ 2)%R with (bpow radix2 (-1)); apply generic_format_bpow; unfold fexp32, FLT_exp; lia].
      unfold Ztrunc. rewrite Rlt_bool_false by lra. apply Zfloor_imp. cbn; lra. }
    assert (B : Rlt_bool (Rabs 0) (bpow radix2 31) = true) by (rewrite Rabs_R0; apply Rlt_bool_true, bpow_gt_0). rewrite B. cbn [andb].
    assert (NN : is_nan 24 128 (product scale (elem_at din inm i)) = false) by (destruct (product _ _); try discriminate; reflexivity).
    rewrite NN, rha_0. destruct A; exact X || reflexivity. }
  rewrite K, Z.add_0_l, W. unfold clamp. lia.
Qed.

(** ** C14: whatever the data, scale and zero point of the quantize call: if it returns, dequantize decodes exactly the codes it computed. *)
Theorem C14_any_data A A' nt nt' oaddr oaddr' din dq scale scale' zp zp' rm thr inm pk p extra outm r :
  buffers_ok nt din dq inm pk -> (rm = RM_STOCHASTIC -> threshold thr) -> (- 2 ^ 63 <= zp < 2 ^ 63)%Z ->
  returns inm pk (quantize_call A nt oaddr din dq scale zp rm thr inm pk) (Ok p) ->
  numel DT_F32 (length outm) = numel din (length inm) -> sizes_ok (length outm) (numel DT_F32 (length outm)) nt' ->
  Forall is_byte extra -> extra <> [] -> (Z.abs zp' <= 2 ^ 30)%Z ->
  returns (p ++ extra) outm (dequantize_call A' nt' oaddr' dq DT_F32 scale' zp' RO_SET (length p) outm) r ->
  exists o, r = Ok o /\ length o = length outm /\
    forall i, i < numel din (length inm) ->
      exists c, quantize_result A nt oaddr din dq rm thr scale zp inm i = Some c /\ f32_at o i = fmul (f32_of_Z (c - zp')) scale'.
Proof.
  intros HB Ht Hz HR Hn HS He Hne Hz' HD.
  destruct (C12_any_data _ _ _ _ _ _ _ _ _ _ _ _ HB Ht Hz HR) as [X|(p0 & E0 & Lp & Hby & _)]; [discriminate|]. injection E0 as <-.
  destruct (C36_complete _ _ _ _ _ _ _ _ _ _ _ _ HB Ht Hz HR) as [U O].
  destruct (some_or_none (numel din (length inm)) (quantize_result A nt oaddr din dq rm thr scale zp inm)) as [N|N]; [discriminate (U N)|].
  destruct (O N) as (p' & E & _ & C & _). injection E as <-.
  destruct (packed_buffers nt nt' din DT_F32 dq inm pk p extra outm HB (or_introl eq_refl) Lp Hby He Hne Hn HS) as [HB' HCe].
  destruct (C07_dequantize_set_f32 _ _ _ _ _ _ _ _ _ _ HB' Hz' HD) as (o & -> & Lo & H & _). exists o. split; auto. split; auto.
  intros i Hi. exists (code_at dq p i). split; [apply C; auto|]. rewrite H by (rewrite Hn; auto). rewrite HCe by auto. reflexivity.
Qed.

(** ** C15 with stochastic rounding *)
Lemma dequantized_f32 A nt oaddr d scale zp inm in_size outm o :
  let n := numel DT_F32 (length outm) in
  dq_buffers nt d DT_F32 inm in_size outm -> (Z.abs zp <= 2 ^ 30)%Z -> Forall is_byte outm ->
  returns inm outm (dequantize_call A nt oaddr d DT_F32 scale zp RO_SET in_size outm) (Ok o) ->
  length o = length outm /\ Forall is_byte o /\ forall i, i < n -> f32_at o i = dequant_value scale zp (code_at d inm i).
Proof.
  intros n HB Hz30 Hby HD. assert (Hno : RO_SET = RO_ADD -> finite scale) by discriminate.
  destruct (dequantize_f32 _ _ _ _ _ _ _ _ _ _ _ HB Hz30 Hno HD) as (o' & E & HL & HE & HF). injection E as <-. fold n in HE, HF.
  assert (HE' : forall i, i < n -> slice (4 * i) 4 o = le_bytes 4 (bits_of_f32 (dequant_value scale zp (code_at d inm i)))).
  { intros i Hi. rewrite HE by auto. unfold reaches. destruct d; auto. destruct (_ <? _); auto. }
  split; auto. split.
  - apply Forall_forall. intros x Hx. apply (In_nth _ _ 0%Z) in Hx. destruct Hx as (k & Hk & <-).
    destruct (Nat.lt_ge_cases k (4 * n)) as [L|L].
    + assert (K4 : k / 4 < n /\ k mod 4 < 4 /\ 4 * (k / 4) + k mod 4 = k).
      { pose proof (Nat.div_mod k 4 ltac:(lia)). pose proof (Nat.mod_upper_bound k 4 ltac:(lia)). split; [apply Nat.div_lt_upper_bound; lia|lia]. }
      destruct K4 as (K1 & K2 & K3).
      specialize (HE' (k / 4) K1). apply (f_equal (fun l => nth (k mod 4) l 0%Z)) in HE'.
      rewrite nth_slice in HE' by exact K2. rewrite K3 in HE'. rewrite HE'.
      pose proof (le_bytes_is_byte 4 (bits_of_f32 (dequant_value scale zp (code_at d inm (k / 4))))) as F. rewrite Forall_forall in F. apply F.
      apply nth_In. rewrite le_bytes_length. exact K2.
    + rewrite HF by auto. rewrite Forall_forall in Hby. apply Hby, nth_In. rewrite <- HL. auto.
  - intros i Hi. rewrite f32_at_ld, HE' by auto. apply ld_f32_bytes.
Qed.

(** Quantizing dequantized codes with stochastic rounding moves no code by more than one; with a power-of-two scale every code comes back. *)
Theorem C15_stochastic A nt oaddr A' nt' oaddr' d scale zp thr inm in_size outm o pk r :
  let n := numel DT_F32 (length outm) in
  dq_buffers nt d DT_F32 inm in_size outm -> normal_scale scale -> (Z.abs zp <= 2 ^ 19)%Z -> Forall is_byte outm -> threshold thr ->
  returns inm outm (dequantize_call A nt oaddr d DT_F32 scale zp RO_SET in_size outm) (Ok o) ->
  length pk = bytes_for d n -> sizes_ok (length outm) n nt' ->
  returns o pk (quantize_call A' nt' oaddr' DT_F32 d scale zp RM_STOCHASTIC thr o pk) r ->
  exists p, r = Ok p /\ length p = length pk /\
    (forall i, i < n -> (Z.abs (code_at d p i - code_at d inm i) <= 1)%Z) /\
    (forall e, val scale = bpow radix2 e -> forall i, i < n -> code_at d p i = code_at d inm i).
Proof.
  intros n HB Hs Hz Hby Ht HD Hl HS HQ. pose proof HB as (Hq & _). pose proof (code_max_range d Hq) as Hm.
  assert (Hz30 : (Z.abs zp <= 2 ^ 30)%Z) by lia.
  destruct (dequantized_f32 _ _ _ _ _ _ _ _ _ _ HB Hz30 Hby HD) as (HL & Hbo & HX). fold n in HX.
  assert (HB' : buffers_ok nt' DT_F32 d o pk).
  { unfold buffers_ok. rewrite HL. fold n. split; [left; reflexivity|]. auto. }
  assert (Hn : numel DT_F32 (length o) = n) by (rewrite HL; reflexivity).
  destruct (C29_quantize_stochastic A' nt' oaddr' DT_F32 d scale zp thr o pk r HB' (normal_good _ Hs) ltac:(lia) Ht) as (p & -> & Lp & HC); auto.
  { rewrite Hn. intros i Hi. cbn [elem_at]. rewrite HX by auto. apply (requant_f32 d scale zp _ Hq Hs Hz). apply code_at_le; auto. }
  rewrite Hn in HC. exists p. split; auto. split; auto.
  assert (G : forall i, i < n -> let c := code_at d inm i in let k := (c - zp)%Z in (0 <= c <= code_max d)%Z /\ (Z.abs k <= 2 ^ 20)%Z /\
     code_at d p i = clamp 0 (code_max d) (stoch_round (val thr) (scaled (val scale) (RN32 (IZR k * val scale))) + zp)).
  { intros i Hi c k. pose proof (code_at_le d inm i Hq) as Hc. fold c in Hc. split; auto. assert (Hk : (Z.abs k <= 2 ^ 20)%Z) by (unfold k; lia). split; auto.
    rewrite HC by auto. cbn [elem_at]. rewrite HX by auto. fold c. destruct (dequant_value_ok scale zp c Hs Hk) as [_ V]. rewrite V. reflexivity. }
  split.
  - intros i Hi. destruct (G i Hi) as (Hc & Hk & ->). set (c := code_at d inm i) in *. set (k := (c - zp)%Z) in *.
    assert (Hk' : (Rabs (IZR k) <= 1048576)%R) by (apply (abs_IZR_le _ (2 ^ 20)%Z); lia). pose proof (Rabs_pos (IZR k)) as Hk0.
    assert (N : (Rabs (scaled (val scale) (RN32 (IZR k * val scale)) - IZR k) < 1)%R).
    { eapply Rle_lt_trans; [apply (scaled_near scale _ k (u32r * Rabs (IZR k)) Hs Hk'); [unfold u32r; lra|apply product_near; auto]|]. unfold u32r. lra. }
    set (y := scaled _ _) in *. clearbody y. destruct Ht as [_ Ht]. pose proof (stoch_error (val thr) y (proj1 Ht)) as SE. set (t := stoch_round (val thr) y) in *.
    assert (T : (Z.abs (t - k) <= 1)%Z).
    { assert (Rabs (IZR (t - k)) < 2)%R.
      { rewrite minus_IZR. replace (IZR t - IZR k)%R with ((IZR t - y) + (y - IZR k))%R by ring. eapply Rle_lt_trans; [apply Rabs_triang|]. lra. }
      rewrite <- abs_IZR in H. apply (lt_IZR _ 2) in H. lia. }
    unfold clamp. unfold k in T. lia.
  - intros e Es i Hi. destruct (G i Hi) as (Hc & Hk & ->). set (c := code_at d inm i) in *. set (k := (c - zp)%Z) in *.
    assert (Be : (-126 <= e <= 100)%Z).
    { destruct Hs as (_ & B1 & B2). rewrite Es, Rabs_pos_eq in B1, B2 by apply bpow_ge_0. apply le_bpow in B1. apply le_bpow in B2. lia. }
    assert (Y : scaled (val scale) (RN32 (IZR k * val scale)) = IZR k).
    { unfold scaled. rewrite Es. replace (1 / bpow radix2 e)%R with (bpow radix2 (- e)) by (rewrite bpow_opp; unfold Rdiv; ring).
      rewrite (RN32_fmt (bpow radix2 (- e))) by (apply generic_format_bpow; unfold fexp32, FLT_exp; lia).
      rewrite (RN32_fmt (IZR k * bpow radix2 e)).
      - rewrite Rmult_assoc, <- bpow_plus. replace (e + - e)%Z with 0%Z by ring. change (bpow radix2 0) with 1%R. rewrite Rmult_1_r. apply RN32_fmt, fmt32_int. lia.
      - apply (fmt32_F2R k e); lia. }
    rewrite Y, stoch_round_int by apply Ht. unfold clamp, k. lia.
Qed.
(** ... but not in general: code 13, scale 0.1f, threshold 0 comes back as 14. *)
Theorem C15_stochastic_refuted A A' oaddr oaddr' outm o pk r :
  length pk = 1 -> length outm = 4 -> Forall is_byte outm ->
  returns [13%Z] outm (dequantize_call A 1 oaddr DT_UINT8 DT_F32 tenth 0 RO_SET 1 outm) (Ok o) ->
  returns o pk (quantize_call A' 1 oaddr' DT_F32 DT_UINT8 tenth 0 RM_STOCHASTIC f_zero o pk) r ->
  exists p, r = Ok p /\ code_at DT_UINT8 [13%Z] 0 = 13%Z /\ code_at DT_UINT8 p 0 = 14%Z.
Proof.
  intros Lp Lo Hob HD HQ. assert (Hq : quant_type DT_UINT8) by (right; right; reflexivity).
  assert (HB : dq_buffers 1 DT_UINT8 DT_F32 [13%Z] 1 outm).
  { unfold dq_buffers. rewrite Lo. split; auto. split; [left; reflexivity|]. split; [repeat constructor; unfold is_byte; lia|]. split; [reflexivity|].
    split; [cbn; lia|]. split; [unfold sizes_ok; cbn; lia|discriminate]. }
  destruct (dequantized_f32 A 1 oaddr DT_UINT8 tenth 0 [13%Z] 1 outm o HB ltac:(lia) Hob HD) as (L & Hbo & HX).
  rewrite Lo in HX. change (numel DT_F32 4) with 1 in HX. specialize (HX 0 ltac:(lia)).
  assert (HB' : buffers_ok 1 DT_F32 DT_UINT8 o pk).
  { split; [left; reflexivity|]. split; auto. split; auto. split; [rewrite Lp, L, Lo; reflexivity|]. rewrite L, Lo. unfold sizes_ok; cbn; lia. }
  assert (T0 : threshold f_zero) by (split; [reflexivity|unfold val; cbn; lra]).
  destruct (C36_complete A' 1 oaddr' DT_F32 DT_UINT8 tenth 0 RM_STOCHASTIC f_zero o pk r HB' (fun _ => T0) ltac:(lia) HQ) as [U O].
  rewrite L, Lo in U, O. change (numel DT_F32 4) with 1 in U, O.
  assert (P : product tenth (f32_at o 0) = f32_of_bits 0x41500001).
  { rewrite HX, <- (f32_bits_bits (product _ _)). apply (f_equal f32_of_bits). vm_compute. reflexivity. }
  assert (V : val (f32_of_bits 0x41500001) = (13 + / 1048576)%R) by (unfold val; cbn; unfold F2R; cbn; lra).
  assert (R : quantize_result A' 1 oaddr' DT_F32 DT_UINT8 RM_STOCHASTIC f_zero tenth 0 o 0 = Some 14%Z).
  { unfold quantize_result, scalar_result. cbn [elem_at int_limit]. cbv zeta. rewrite P, V. change (is_finite 24 128 (f32_of_bits 0x41500001)) with true.
    assert (S : stoch_round (val f_zero) (13 + / 1048576) = 14%Z).
    { unfold stoch_round. rewrite Rabs_pos_eq by lra. rewrite (Zfloor_imp 13) by (cbn; lra). change (val f_zero) with 0%R.
      assert (C1 : Rlt_bool 0 (13 + / 1048576 - 13) = true) by (apply Rlt_bool_true; lra). assert (C2 : Rlt_bool (13 + / 1048576) 0 = false) by (apply Rlt_bool_false; lra).
      rewrite C1, C2. reflexivity. }
    rewrite S. reflexivity. }
  destruct O as (p & -> & _ & C & _).
  - intros i Hi. assert (i = 0) as -> by lia. rewrite R. discriminate.
  - exists p. split; auto. split; [reflexivity|]. specialize (C 0 ltac:(lia)). rewrite R in C. injection C as C. auto.
Qed.
