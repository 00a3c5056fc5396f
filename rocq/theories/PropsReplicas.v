(** PropsReplicas.v -- C66: replicas of a float tensor that apply the same quantized updates stay bit-identical, whatever CPUs and thread counts
    they run on.  f32 tensors: every kernel set.  bf16 tensors: the kernel sets without AVX-512, or one and the same kernel set and thread count on
    all peers; with AVX-512 on some peers only, or with different thread counts on AVX-512 peers, this is refuted. *)
From Coq Require Import ZArith List Lia Bool Arith ZifyBool ZifyNat Reals Lra.
From Flocq Require Import Core Binary Bits.
From Verif Require Import Base Floats Simd Dtypes Spec ApiSpec QuantKernels DequantKernels ExecFacts FloatFacts QuantFacts QuantKernelFacts
  QuantGenericFacts DequantFacts DequantGenericFacts QuantLanes Context ContextFacts Footprint QuantizeFacts DequantizeFacts Api PropsQuantize Schedule
  PropsMemory FloatFacts2 PropsDequantize PropsRoundTrip PathSpec PropsPaths RoundTripFacts PropsIdempotent MinMax MinMaxFacts ConfigSpec F64Facts ConfigFacts PropsConfig
  PropsRepresent PropsBf16 PropsDequantBf16 PropsBf16Zero PropsChunks PropsRoundTripTypes.
Import ListNotations.
Open Scope nat_scope.

Ltac Zify.zify_post_hook ::= Z.div_mod_to_equations.

(** ** Specification *)
(** What a peer does with its copy of the tensor. *)
Inductive event :=
  (** dequantize a message (codes and parameters) into the tensor, overwriting it or adding to it *)
| Receive (dq : dtype) (scale : f32) (zp : Z) (op : reduce_op) (codes : mem)
  (** compute parameters for the tensor, quantize it with them (nearest), and replace it by what the codes stand for: what the other peers get *)
| Requantize (dq : dtype).

(** [M A nt]: some peer may dequantize on kernel set [A] with [nt] threads.  Uniform enough for a tensor of type [d]: anything goes for f32; for bf16
    no peer uses AVX-512, or all peers have the same kernel set and thread count. *)
Definition uniform (d : dtype) (M : arch -> nat -> Prop) : Prop :=
  d = DT_F32 \/ (forall A nt, M A nt -> avx512 A = false) \/ (forall A nt A' nt', M A nt -> M A' nt' -> A = A' /\ nt = nt').

(** One event on some CPU(s), with some thread counts, output addresses, cut into blocks, scratch memory and memory behind the codes. *)
Definition step (M : arch -> nat -> Prop) (d : dtype) (e : event) (s : mem) (r : res mem) : Prop :=
  let n := numel d (length s) in
  match e with
  | Receive dq scale zp op codes =>
      exists A nt oaddr extra, M A nt /\ sizes_ok (length s) n nt /\ Forall is_byte extra /\ extra <> [] /\
        returns (codes ++ extra) s (dequantize_call A nt oaddr dq d scale zp op (length codes) s) r
  | Requantize dq =>
      exists A1 blocks A2 nt2 oaddr2 thr pk A3 nt3 oaddr3 extra,
        A1 <> SSE42 /\ block_cover n blocks /\ length pk = bytes_for dq n /\ sizes_ok (length s) n nt2 /\
        M A3 nt3 /\ sizes_ok (length s) n nt3 /\ Forall is_byte extra /\ extra <> [] /\
        match compute_quant_config_from_data A1 d dq s blocks with
        | Ok (scale, zp) =>
            exists rq, returns s pk (quantize_call A2 nt2 oaddr2 d dq scale zp RM_NEAREST thr s pk) rq /\
            match rq with
            | Ok codes => returns (codes ++ extra) s (dequantize_call A3 nt3 oaddr3 dq d scale zp RO_SET (length codes) s) r
            | Abort => r = Abort | UB => r = UB
            end
        | Abort => r = Abort | UB => r = UB
        end
  end.

(** A peer applies the events in order and stops if a call does not complete. *)
Inductive run (M : arch -> nat -> Prop) (d : dtype) : list event -> mem -> res mem -> Prop :=
| run_end s : run M d [] s (Ok s)
| run_step e es s s' r : step M d e s (Ok s') -> run M d es s' r -> run M d (e :: es) s r
| run_stop e es s r : step M d e s r -> (forall s', r <> Ok s') -> run M d (e :: es) s r.

(** The events considered.  Messages: packed codes for the number of elements, a zero point that the calls support, a finite scale; a message is accumulated
    into a finite tensor only (so that no NaN arises, whose bits differ between CPUs in reality; the model fixes them).  Requantization: finite data whose range includes 0 and is neither microscopic nor astronomic, and no element falls on the
    exceptional scaled value of C10 (the float next below one half). *)
Definition allowed (d : dtype) (e : event) (s : mem) : Prop :=
  let n := numel d (length s) in
  match e with
  | Receive dq scale zp op codes =>
      quant_type dq /\ Forall is_byte codes /\ length codes = bytes_for dq n /\
      (Z.abs zp <= match d with DT_BF16 => 2 ^ 22 | _ => 2 ^ 30 end)%Z /\ finite scale /\
      (op = RO_ADD -> forall i, i < n -> finite (elem_at d s i))
  | Requantize dq =>
      quant_type dq /\ finite_data d s n /\
      exists lo hi, data_range d s n lo hi /\ (lo <= 0 <= hi)%R /\ (bpow radix2 (-118) <= hi - lo <= bpow radix2 100)%R /\
        forall i, i < n -> Rabs (scaled (config_scale dq lo hi) (val (elem_at d s i))) <> pred_half
  end.
Fixpoint all_allowed (M : arch -> nat -> Prop) (d : dtype) (es : list event) (s : mem) : Prop :=
  match es with [] => True | e :: es => allowed d e s /\ forall s', step M d e s (Ok s') -> all_allowed M d es s' end.

(** ** One dequantize call: the bytes do not depend on CPU, threads, address or the memory behind the codes *)
Lemma buffers_of nt d dq codes extra s : float_type d -> quant_type dq -> Forall is_byte codes -> length codes = bytes_for dq (numel d (length s)) ->
  sizes_ok (length s) (numel d (length s)) nt -> Forall is_byte extra -> extra <> [] -> dq_buffers nt dq d (codes ++ extra) (length codes) s.
Proof.
  intros Hd Hq Hc HL HS He Hne. unfold dq_buffers. split; auto. split; auto. split; [apply Forall_app; auto|]. split; auto. rewrite app_length. split; [lia|]. split; auto.
  intros _ _ _ _. destruct extra; [congruence|cbn; lia].
Qed.
Lemma codes_ext dq codes extra n i : quant_type dq -> length codes = bytes_for dq n -> i < n -> code_at dq (codes ++ extra) i = code_at dq codes i.
Proof.
  intros Hq HL Hi. apply code_at_app; auto. rewrite HL, codes_per_byte_q, bytes_for_per_byte by auto. destruct Hq as [->|[->| ->]]; cbn [per_byte]; lia.
Qed.
Lemma bytes_of_slices e n (o s : mem) (E : nat -> list Z) : e > 0 -> length o = length s -> Forall is_byte s ->
  (forall i, i < n -> slice (e * i) e o = E i /\ length (E i) = e /\ Forall is_byte (E i)) -> (forall k, e * n <= k -> nth k o 0%Z = nth k s 0%Z) -> Forall is_byte o.
Proof.
  intros He HL Hs HE HT. apply Forall_forall. intros x Hx. apply (In_nth _ _ 0%Z) in Hx. destruct Hx as (k & Hk & <-).
  destruct (Nat.lt_ge_cases k (e * n)) as [L|L].
  - pose proof (Nat.div_mod k e ltac:(lia)) as DM. pose proof (Nat.mod_upper_bound k e ltac:(lia)) as MB.
    destruct (HE (k / e)) as (E1 & E2 & E3); [apply Nat.div_lt_upper_bound; lia|].
    apply (f_equal (fun l => nth (k mod e) l 0%Z)) in E1. rewrite nth_slice in E1 by auto. rewrite <- DM in E1. rewrite E1.
    rewrite Forall_forall in E3. apply E3, nth_In. lia.
  - rewrite HT by auto. rewrite Forall_forall in Hs. apply Hs, nth_In. lia.
Qed.
Lemma same_elements e n (o o' s : mem) : e > 0 -> length o = length s -> length o' = length s ->
  (forall i, i < n -> slice (e * i) e o = slice (e * i) e o') -> (forall k, e * n <= k -> nth k o 0%Z = nth k s 0%Z) -> (forall k, e * n <= k -> nth k o' 0%Z = nth k s 0%Z) -> o = o'.
Proof.
  intros He L L' HE HT HT'. apply (nth_ext o o' 0%Z 0%Z); [lia|]. intros k Hk. destruct (Nat.lt_ge_cases k (e * n)) as [L1|L1].
  - pose proof (Nat.div_mod k e ltac:(lia)) as DM. pose proof (Nat.mod_upper_bound k e ltac:(lia)) as MB.
    specialize (HE (k / e) ltac:(apply Nat.div_lt_upper_bound; lia)). apply (f_equal (fun l => nth (k mod e) l 0%Z)) in HE. rewrite !nth_slice in HE by auto.
    rewrite <- DM in HE. exact HE.
  - rewrite HT, HT' by auto. reflexivity.
Qed.
Lemma two_bytes_inj m m' i : Forall is_byte m -> Forall is_byte m' -> bf16_at m i = bf16_at m' i -> 2 * i + 2 <= length m -> 2 * i + 2 <= length m' ->
  slice (2 * i) 2 m = slice (2 * i) 2 m'.
Proof.
  intros Hm Hm' E L L'. unfold bf16_at in E. 
  pose proof (slice_length (2 * i) 2 m ltac:(lia)) as S1. pose proof (slice_length (2 * i) 2 m' ltac:(lia)) as S2.
  pose proof (slice_is_byte (2 * i) 2 m Hm) as B1. pose proof (slice_is_byte (2 * i) 2 m' Hm') as B2.
  destruct (slice (2 * i) 2 m) as [|u [|v [|? ?]]]; try discriminate. destruct (slice (2 * i) 2 m') as [|u' [|v' [|? ?]]]; try discriminate.
  inversion B1 as [|? ? X1 X2]; inversion X2; inversion B2 as [|? ? Y1 Y2]; inversion Y2; subst. unfold is_byte in *. cbn [le_val] in E. f_equal; [lia|f_equal; lia].
Qed.

Lemma decode_same (M : arch -> nat -> Prop) A A' nt nt' oaddr oaddr' d dq scale zp op codes extra extra' s r r' :
  float_type d -> Forall is_byte s -> allowed d (Receive dq scale zp op codes) s -> uniform d M -> M A nt -> M A' nt' ->
  sizes_ok (length s) (numel d (length s)) nt -> sizes_ok (length s) (numel d (length s)) nt' ->
  Forall is_byte extra -> extra <> [] -> Forall is_byte extra' -> extra' <> [] ->
  returns (codes ++ extra) s (dequantize_call A nt oaddr dq d scale zp op (length codes) s) r ->
  returns (codes ++ extra') s (dequantize_call A' nt' oaddr' dq d scale zp op (length codes) s) r' ->
  r' = r /\ exists o, r = Ok o /\ length o = length s /\ Forall is_byte o.
Proof.
  intros Hd Hs (Hq & Hc & HL & Hz & Hf & _) HU HA HA' HS HS' He Hne He' Hne' HR HR'.
  pose proof (buffers_of nt d dq codes extra s Hd Hq Hc HL HS He Hne) as HB. pose proof (buffers_of nt' d dq codes extra' s Hd Hq Hc HL HS' He' Hne') as HB'.
  pose proof (numel_le d (length s) Hd) as Hn. destruct Hd as [-> | ->].
  - destruct (dequantize_f32 _ _ _ _ _ _ _ _ _ _ _ HB Hz (fun _ => Hf) HR) as (o & -> & Lo & Ho & To).
    destruct (dequantize_f32 _ _ _ _ _ _ _ _ _ _ _ HB' Hz (fun _ => Hf) HR') as (o' & -> & Lo' & Ho' & To').
    set (n := numel DT_F32 (length s)) in *. change (esize DT_F32) with 4 in Hn.
    assert (EQ : o' = o).
    { apply (same_elements 4 n o' o s); auto; try lia. intros i Hi. rewrite Ho, Ho', !(codes_ext dq codes _ n i) by auto. reflexivity. }
    split; [congruence|]. exists o. split; auto. split; auto.
    refine (bytes_of_slices 4 n o s _ ltac:(lia) Lo Hs _ To). intros i Hi. split; [apply Ho; auto|]. split; [apply le_bytes_length|apply le_bytes_is_byte].
  - destruct (dequantize_bf16 _ _ _ _ _ _ _ _ _ _ _ HB Hz Hs HR) as (o & -> & Lo & Bo & Ho & To).
    destruct (dequantize_bf16 _ _ _ _ _ _ _ _ _ _ _ HB' Hz Hs HR') as (o' & -> & Lo' & Bo' & Ho' & To').
    set (n := numel DT_BF16 (length s)) in *. change (esize DT_BF16) with 2 in Hn.
    assert (G : forall B t i, avx512 B = false -> bf16_vector_path B dq n t i = false) by (intros B t i E; unfold bf16_vector_path; rewrite E; reflexivity).
    assert (EQ : o' = o).
    { apply (same_elements 2 n o' o s); auto; try lia. intros i Hi. apply two_bytes_inj; auto; try lia.
      rewrite Ho, Ho', !(codes_ext dq codes _ n i) by auto. destruct HU as [HU|[HU|HU]]; [discriminate| |].
      - rewrite !G by (eapply HU; eassumption). reflexivity.
      - destruct (HU _ _ _ _ HA HA') as [<- <-]. reflexivity. }
    split; [congruence|]. exists o. auto.
Qed.

(** the computed parameters suit the data *)
Lemma params_suit a d dq s blocks lo hi : a <> SSE42 -> float_type d -> quant_type dq -> let n := numel d (length s) in finite_data d s n -> block_cover n blocks ->
  data_range d s n lo hi -> (lo <= 0 <= hi)%R -> (bpow radix2 (-118) <= hi - lo <= bpow radix2 100)%R ->
  exists scale, compute_quant_config_from_data a d dq s blocks = Ok (scale, config_zp dq lo hi) /\ finite scale /\ val scale = config_scale dq lo hi /\
    (0 <= config_zp dq lo hi <= code_max dq)%Z /\ good_scale scale /\ forall i, i < n -> quantizable scale (elem_at d s i).
Proof.
  intros Ha Hfp Hq n HD HBl HR H0 HB. pose proof (bpow_gt_0 radix2 (-118)) as P0. assert (H : (lo < hi)%R) by lra.
  destruct (C21_documented_parameters a d dq s n blocks lo hi Ha Hfp Hq HD HBl HR H) as (scale & E & Fs & Vs). exists scale. split; auto. split; auto. split; auto.
  assert (I1 : in32 lo) by (destruct HR as ((i & Hi & <-) & _); apply in32_val, HD; auto).
  assert (I2 : in32 hi) by (destruct HR as (_ & (i & Hi & <-) & _); apply in32_val, HD; auto).
  destruct (config_scale_rel dq lo hi Hq I1 I2 HB) as (e & Hee & Es & Bs1 & Bs2).
  destruct (config_zp_near dq lo hi Hq I1 I2 H H0) as (T & Z & N). pose proof (bpow_gt_0 radix2 (-126)) as P1.
  assert (Ns : normal_scale scale) by (split; auto; rewrite Vs; rewrite Rabs_pos_eq; lra).
  split; auto. split; [apply normal_good; auto|].
  intros i Hi. split; [apply HD; auto|].
  assert (FIT : (IZR (0 - config_zp dq lo hi) - / 2 - / 8192 <= val (elem_at d s i) / val scale <= IZR (code_max dq - config_zp dq lo hi) + / 2 + / 8192)%R).
  { rewrite Vs. apply config_fits; auto. destruct HR as (_ & _ & HR). apply (HR i Hi). }
  pose proof (scaled_rel scale (val (elem_at d s i)) Ns) as SR. set (t := (val (elem_at d s i) / val scale)%R) in *.
  pose proof (code_max_range dq Hq) as Hm. 
  assert (B1 : (Rabs (IZR (0 - config_zp dq lo hi)) <= IZR 255)%R) by (apply abs_IZR_le; lia). apply Rabs_le_inv in B1.
  assert (B2 : (Rabs (IZR (code_max dq - config_zp dq lo hi)) <= IZR 255)%R) by (apply abs_IZR_le; lia). apply Rabs_le_inv in B2.
  assert (Tt : (Rabs t <= 256)%R) by (apply Rabs_le; lra). destruct tiny_small as [_ T2]. set (y := scaled _ _) in *.
  assert (D : (Rabs (y - t) <= 1)%R) by (unfold u32r in SR; lra). apply Rabs_le_inv in Tt. apply Rabs_le_inv in D.
  apply Rle_lt_trans with 300%R; [apply Rabs_le; lra|]. change (bpow radix2 30) with 1073741824%R. lra.
Qed.

(** ** One event gives the same bytes on every peer *)
Theorem C66_one_event M d e s r r' : float_type d -> uniform d M -> Forall is_byte s -> allowed d e s -> step M d e s r -> step M d e s r' ->
  r' = r /\ exists o, r = Ok o /\ length o = length s /\ Forall is_byte o.
Proof.
  intros Hd HU Hs HA H H'. destruct e as [dq scale zp op codes|dq].
  - destruct H as (A & nt & oaddr & extra & HAd & HS & He & Hne & HR). destruct H' as (A' & nt' & oaddr' & extra' & HAd' & HS' & He' & Hne' & HR').
    exact (decode_same M A A' nt nt' oaddr oaddr' d dq scale zp op codes extra extra' s r r' Hd Hs HA HU HAd HAd' HS HS' He Hne He' Hne' HR HR').
  - destruct H as (A1 & blocks & A2 & nt2 & oaddr2 & thr & pk & A3 & nt3 & oaddr3 & extra & HA1 & HBl & Lpk & HS2 & HA3 & HS3 & He & Hne & H).
    destruct H' as (A1' & blocks' & A2' & nt2' & oaddr2' & thr' & pk' & A3' & nt3' & oaddr3' & extra' & HA1' & HBl' & Lpk' & HS2' & HA3' & HS3' & He' & Hne' & H').
    destruct HA as (Hq & FD & lo & hi & DR & Z0 & W & OFF). set (n := numel d (length s)) in *.
    destruct (params_suit A1 d dq s blocks lo hi HA1 Hd Hq FD HBl DR Z0 W) as (scale & E & Fs & Vs & Zr & Gs & Hqz).
    destruct (params_suit A1' d dq s blocks' lo hi HA1' Hd Hq FD HBl' DR Z0 W) as (scale' & E' & _).
    assert (N0 : 0 < n) by (destruct DR as ((i & Hi & _) & _); lia).
    assert (EE := C22_block_independent A1 A1' d dq s n blocks blocks' HA1 HA1' Hd Hq FD N0 HBl HBl').
    rewrite E, E' in EE. injection EE as <-. rewrite E in H. rewrite E' in H'. set (zp := config_zp dq lo hi) in *. clearbody zp. clear E E'.
    destruct H as (rq & HQ & HR). destruct H' as (rq' & HQ' & HR').
    pose proof (code_max_range dq Hq) as Hm. assert (Hz : (Z.abs zp <= 2 ^ 22)%Z) by lia.
    assert (HB : buffers_ok nt2 d dq s pk) by (unfold buffers_ok; fold n; auto).
    assert (HB' : buffers_ok nt2' d dq s pk') by (unfold buffers_ok; fold n; auto).
    assert (HI : forall i, i < numel d (length s) -> quantizable scale (elem_at d s i) /\ Rabs (scaled (val scale) (val (elem_at d s i))) <> pred_half).
    { intros i Hi. split; [apply Hqz; auto|]. rewrite Vs. apply OFF. exact Hi. }
    destruct (C10_paths_agree A2 A2' nt2 nt2' oaddr2 oaddr2' d dq scale zp thr thr' s pk pk' rq rq' HB HB' Gs Hz HI HQ HQ') as [<- _].
    destruct (quantize_near A2 nt2 oaddr2 d dq scale zp thr s pk rq HB Gs Hz (fun i Hi => proj1 (HI i Hi)) HQ) as (codes & -> & Lc & Bc & _).
    refine (decode_same M A3 A3' nt3 nt3' oaddr3 oaddr3' d dq scale zp RO_SET codes extra extra' s r r' Hd Hs _ HU HA3 HA3' HS3 HS3' He Hne He' Hne' HR HR').
    cbn [allowed]. fold n. repeat split; auto; try congruence. destruct Hd as [-> | ->]; lia.
Qed.

(** ** C66: replicas stay bit-identical.  Any two runs of the same events from the same tensor, each event of each run on any of the machines [M], end
    with the same bytes; no call of either run aborts or is undefined. *)
Theorem C66_replicas_agree M d es s r r' : float_type d -> uniform d M -> Forall is_byte s -> all_allowed M d es s -> run M d es s r -> run M d es s r' ->
  r' = r /\ exists o, r = Ok o /\ length o = length s /\ Forall is_byte o.
Proof.
  intros Hd HU. revert s r r'. induction es as [|e es IH]; intros s r r' Hs HA H H'.
  - inversion H; subst. inversion H'; subst. split; auto. exists s. auto.
  - destruct HA as [HA HN].
    assert (K : forall r, run M d (e :: es) s r -> exists s', step M d e s (Ok s') /\ run M d es s' r).
    { intros q Hq. inversion Hq as [|e0 es0 s0 s' r0 HS HRn|e0 es0 s0 r0 HS HNo]; subst; [exists s'; auto|].
      destruct (C66_one_event M d e s q q Hd HU Hs HA HS HS) as (_ & o & -> & _). exfalso. exact (HNo o eq_refl). }
    destruct (K r H) as (s1 & S1 & R1). destruct (K r' H') as (s2 & S2 & R2).
    destruct (C66_one_event M d e s _ _ Hd HU Hs HA S1 S2) as (E & o & Eo & Lo & Bo). injection E as ->. injection Eo as ->.
    destruct (IH o r r' Bo (HN o S1) R1 R2) as (E2 & o2 & -> & L2 & B2). split; auto. exists o2. repeat split; auto. lia.
Qed.

(** Runs exist: on every one of the machines every sequence of allowed events runs to its end. *)
Theorem C66_runs_exist M d A nt es s : float_type d -> uniform d M -> sizes_ok (length s) (numel d (length s)) nt -> M A nt -> A <> SSE42 ->
  Forall is_byte s -> all_allowed M d es s -> exists o, run M d es s (Ok o) /\ length o = length s.
Proof.
  intros Hd HU HL HA HN. revert s HL. induction es as [|e es IH]; intros s HS Hs Ha.
  - exists s. split; [constructor|reflexivity].
  - destruct Ha as [Ha HK]. pose proof (numel_le d (length s) Hd) as Hn.
    assert (X : exists r, step M d e s r).
    { destruct e as [dq scale zp op codes|dq]; cbn [step].
      - destruct (returns_total (codes ++ [0%Z]) s (dequantize_call A nt 0 dq d scale zp op (length codes) s)) as [r Hr].
        exists r, A, nt, 0%Z, [0%Z]. split; auto. split; auto. split; [repeat constructor; unfold is_byte; lia|]. split; [discriminate|exact Hr].
      - set (n := numel d (length s)) in *. assert (H0 : 0 < n) by (destruct Ha as (_ & _ & lo & hi & ((i & Hi & _) & _) & _); unfold n; lia).
        assert (B1 : Forall is_byte [0%Z]) by (repeat constructor; unfold is_byte; lia). assert (N1 : [0%Z] <> []) by discriminate.
        assert (BC : block_cover n [(0, n)]).
        { split; [intros b [<-|[]]; cbn; lia|]. intros t Ht. exists (0, n). split; [left; reflexivity|]. cbn. lia. }
        destruct (compute_quant_config_from_data A d dq s [(0, n)]) as [[scale zp]| |] eqn:EC.
        + set (pk := repeat 0%Z (bytes_for dq n)).
          destruct (returns_total s pk (quantize_call A nt 0 d dq scale zp RM_NEAREST f_zero s pk)) as [rq Hrq].
          assert (Y : exists r, match rq with Ok codes => returns (codes ++ [0%Z]) s (dequantize_call A nt 0 dq d scale zp RO_SET (length codes) s) r | Abort => r = Abort | UB => r = UB end).
          { destruct rq as [codes| |]; [apply returns_total|eexists; reflexivity|eexists; reflexivity]. }
          destruct Y as [r Hr]. exists r, A, [(0, n)], A, nt, 0%Z, f_zero, pk, A, nt, 0%Z, [0%Z].
          split; [exact HN|]. split; [exact BC|]. split; [apply repeat_length|]. split; [exact HS|]. split; [exact HA|]. split; [exact HS|]. split; [exact B1|]. split; [exact N1|].
          rewrite EC. exists rq. auto.
        + exists Abort, A, [(0, n)], A, nt, 0%Z, f_zero, (repeat 0%Z (bytes_for dq n)), A, nt, 0%Z, [0%Z].
          split; [exact HN|]. split; [exact BC|]. split; [apply repeat_length|]. split; [exact HS|]. split; [exact HA|]. split; [exact HS|]. split; [exact B1|]. split; [exact N1|]. rewrite EC. reflexivity.
        + exists UB, A, [(0, n)], A, nt, 0%Z, f_zero, (repeat 0%Z (bytes_for dq n)), A, nt, 0%Z, [0%Z].
          split; [exact HN|]. split; [exact BC|]. split; [apply repeat_length|]. split; [exact HS|]. split; [exact HA|]. split; [exact HS|]. split; [exact B1|]. split; [exact N1|]. rewrite EC. reflexivity. }
    destruct X as [r Hr]. destruct (C66_one_event M d e s r r Hd HU Hs Ha Hr Hr) as (_ & o & -> & Lo & Bo).
    destruct (IH o) as (o2 & R2 & L2); auto; try (rewrite Lo; auto).
    exists o2. split; [|lia]. exact (run_step M d e es s o (Ok o2) Hr R2).
Qed.

(** bf16 with AVX-512 among the peers: refuted.  One message of 128 uint4 codes (all equal to the zero point 3, scale 0.1f), one thread each: the
    AVX-512 peer stores -7.5e-9 in every element, any other peer stores 0. *)
Theorem C66_bf16_avx512_refuted A A' oaddr oaddr' s r r' : avx512 A = true -> avx512 A' = false -> length s = 256 -> Forall is_byte s ->
  returns threes s (dequantize_call A 1 oaddr DT_UINT4 DT_BF16 tenth 3 RO_SET 64 s) r ->
  returns threes s (dequantize_call A' 1 oaddr' DT_UINT4 DT_BF16 tenth 3 RO_SET 64 s) r' ->
  exists o o', r = Ok o /\ r' = Ok o' /\ forall i, i < 128 -> bf16_at o i = 0xb200%Z /\ bf16_at o' i = 0%Z.
Proof.
  intros HA HA' HL Hs HR HR'. destruct (C13_bf16_avx512_refuted A oaddr s r HA HL Hs HR) as (o & -> & Ho).
  assert (HB : dq_buffers 1 DT_UINT4 DT_BF16 threes 64 s).
  { unfold dq_buffers. rewrite HL. change (numel DT_BF16 256) with 128. repeat split; try (right; left; reflexivity); try (left; reflexivity);
      try (right; reflexivity); try (unfold sizes_ok; lia); try discriminate; try (cbn; lia); try reflexivity. apply repeat_bytes. unfold is_byte. lia. }
  assert (Hz : (Z.abs 3 <= 2 ^ 22)%Z) by lia.
  assert (Ft : finite tenth) by reflexivity.
  assert (Pt : (0 < val tenth)%R) by (unfold val, tenth; cbn; unfold F2R; cbn; lra).
  destruct (C13_zero_point_dequantizes_to_zero_bf16 A' 1 oaddr' DT_UINT4 tenth 3 threes 64 s r' HB Hz Hs Ft Pt (or_introl HA') HR') as (o' & -> & Ho').
  exists o, o'. split; auto. split; auto. rewrite HL in Ho'. change (numel DT_BF16 256) with 128 in Ho'.
  intros i Hi. destruct (Ho i Hi) as [C V]. split; auto.
Qed.

(** ... and so it is for AVX-512 peers with different thread counts: the same message with one thread and with two. *)
Theorem C66_bf16_threads_refuted A oaddr oaddr' s r r' : avx512 A = true -> length s = 256 -> Forall is_byte s ->
  returns threes s (dequantize_call A 1 oaddr DT_UINT4 DT_BF16 tenth 3 RO_SET 64 s) r ->
  returns threes s (dequantize_call A 2 oaddr' DT_UINT4 DT_BF16 tenth 3 RO_SET 64 s) r' ->
  exists o o', r = Ok o /\ r' = Ok o' /\ forall i, i < 128 -> bf16_at o i = 0xb200%Z /\ bf16_at o' i = 0%Z.
Proof.
  intros HA HL Hs HR HR'. destruct (C13_bf16_avx512_refuted A oaddr s r HA HL Hs HR) as (o & -> & Ho).
  assert (HB : dq_buffers 2 DT_UINT4 DT_BF16 threes 64 s).
  { unfold dq_buffers. rewrite HL. change (numel DT_BF16 256) with 128. repeat split; try (right; left; reflexivity); try (left; reflexivity);
      try (right; reflexivity); try (unfold sizes_ok; lia); try discriminate; try (cbn; lia); try reflexivity. apply repeat_bytes. unfold is_byte. lia. }
  assert (Hz : (Z.abs 3 <= 2 ^ 22)%Z) by lia.
  destruct (dequantize_bf16 _ _ _ _ _ _ _ _ _ _ _ HB Hz Hs HR') as (o' & -> & _ & _ & HE & _). rewrite HL in HE. change (numel DT_BF16 256) with 128 in HE.
  exists o, o'. split; auto. split; auto. intros i Hi. destruct (Ho i Hi) as [C V]. split; auto. rewrite HE, C by auto.
  assert (P : bf16_vector_path A DT_UINT4 128 2 i = false).
  { unfold bf16_vector_path. rewrite HA. cbn [andb seq existsb].
    change (part_bound (codes_per_byte DT_UINT4) 128 2 0) with 0. change (part_bound (codes_per_byte DT_UINT4) 128 2 1) with 64. change (part_bound (codes_per_byte DT_UINT4) 128 2 2) with 128.
    change (bf16_block DT_UINT4 * ((64 - 0) / bf16_block DT_UINT4)) with 0. change (bf16_block DT_UINT4 * ((128 - 64) / bf16_block DT_UINT4)) with 0. cbv zeta.
    rewrite (proj2 (Nat.ltb_ge (i - 0) 0)), (proj2 (Nat.ltb_ge (i - 64) 0)) by lia. rewrite !andb_false_r. reflexivity. }
  rewrite P. destruct A; try discriminate; vm_compute; reflexivity.
Qed.
