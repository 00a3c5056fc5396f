(** PropsViews.v -- C58: the torch functions on views that are not laid out contiguously (transposes, slices with steps, broadcasts). *)
From Coq Require Import String ZArith Lia Bool Arith ZifyBool ZifyNat Reals Lra List.
From Flocq Require Import Core Binary Bits.
From Verif Require Import Base Floats Simd Dtypes Spec ApiSpec QuantKernels DequantKernels ExecFacts FloatFacts QuantFacts QuantKernelFacts
  QuantGenericFacts DequantFacts DequantGenericFacts QuantLanes Context ContextFacts Footprint QuantizeFacts DequantizeFacts Api PropsQuantize Schedule
  PropsMemory FloatFacts2 PropsDequantize PropsRoundTrip PathSpec PropsPaths RoundTripFacts PropsIdempotent MinMax MinMaxFacts ConfigSpec F64Facts ConfigFacts PropsConfig
  PropsRepresent Bf16Spec Bf16Facts FloatFacts3 PropsBf16 Capi PropsCapi Python PropsPython PropsDequantBf16 PropsPython2 PropsRoundTripTypes PropsTests PropsPython3 PyViews.
Import ListNotations.

(** ** Vocabulary: multi-indices. *)
(** [idx] addresses an element of a tensor of this shape. *)
Definition valid_index (shape idx : list nat) : Prop := Forall2 (fun d i => i < d) shape idx.
(** Its place in row-major order (last index fastest): where the element is in the result, which is a new contiguous tensor. *)
Fixpoint row_major (shape idx : list nat) : nat :=
  match shape, idx with
  | _ :: shape', i :: idx' => i * elements shape' + row_major shape' idx'
  | _, _ => 0
  end.
(** Its place in the storage of the view. *)
Fixpoint storage_index (strides idx : list nat) : nat :=
  match strides, idx with
  | s :: strides', i :: idx' => i * s + storage_index strides' idx'
  | _, _ => 0
  end.
Definition place (v : view) (idx : list nat) : nat := v_offset v + storage_index (v_strides v) idx.
(** A view PyTorch can hand out: one stride per dimension, every element inside the storage, a non-null address. *)
Definition good_view (v : view) : Prop :=
  length (v_strides v) = length (v_shape v) /\ Forall is_byte (v_store v) /\ (v_base v > 0)%Z /\
  forall idx, valid_index (v_shape v) idx -> (place v idx + 1) * element_size (v_dtype v) <= length (v_store v).
(** The address of the copy made by contiguous(): null exactly without elements. *)
Definition good_fresh (v : view) (fresh : Z) : Prop := fresh = 0%Z <-> elements (v_shape v) = 0.

(** ** Index arithmetic *)
Lemma row_major_lt shape idx : valid_index shape idx -> row_major shape idx < elements shape.
Proof.
  induction 1 as [|d i shape idx Hi _ IH]; [cbn; lia|]. cbn [row_major]. change (elements (d :: shape)) with (d * elements shape). nia.
Qed.
Lemma row_major_onto shape : forall k, k < elements shape -> exists idx, valid_index shape idx /\ row_major shape idx = k.
Proof.
  induction shape as [|d shape IH]; intros k Hk; [exists []; split; [constructor|cbn in *; lia]|].
  change (elements (d :: shape)) with (d * elements shape) in Hk. set (e := elements shape) in *. assert (e <> 0) by nia.
  destruct (IH (k mod e)) as (idx & V & E); [apply Nat.mod_upper_bound; auto|]. exists (k / e :: idx). split.
  - constructor; auto. apply Nat.div_lt_upper_bound; auto. lia.
  - cbn [row_major]. fold e. rewrite E. pose proof (Nat.div_mod k e). lia.
Qed.
Lemma row_major_inj shape : forall idx idx', valid_index shape idx -> valid_index shape idx' -> row_major shape idx = row_major shape idx' -> idx = idx'.
Proof.
  induction shape as [|d shape IH]; intros idx idx' V V'; inversion V as [|? i ? l]; inversion V' as [|? i' ? l']; subst; auto. cbn [row_major]. intros E.
  assert (R1 : row_major shape l < elements shape) by (apply row_major_lt; auto). assert (R2 : row_major shape l' < elements shape) by (apply row_major_lt; auto).
  assert (i = i') as -> by nia. f_equal. apply IH; auto. lia.
Qed.
Lemma dense_size shape : forall strides z, length strides = length shape -> dense_block shape strides = Some z -> z = elements shape.
Proof.
  induction shape as [|d shape IH]; intros [|s strides] z L; cbn [dense_block length] in *; try discriminate; [intros H; injection H as <-; reflexivity|].
  destruct (dense_block shape strides) as [z'|] eqn:E; [|discriminate]. rewrite (IH strides z') by (auto; lia). change (elements (d :: shape)) with (d * elements shape).
  destruct (Nat.eqb_spec d 1); [intros H; injection H as <-; lia|]. destruct (s =? _); [|discriminate]. intros H; injection H as <-. lia.
Qed.
Lemma dense_index shape : forall strides z idx, length strides = length shape -> dense_block shape strides = Some z -> valid_index shape idx ->
  storage_index strides idx = row_major shape idx.
Proof.
  induction shape as [|d shape IH]; intros [|s strides] z idx L E V; cbn [length] in L; try discriminate; inversion V as [|? i ? l Hi V']; subst; auto.
  cbn [dense_block] in E. destruct (dense_block shape strides) as [z'|] eqn:E'; [|discriminate]. cbn [storage_index row_major].
  rewrite (IH strides z' l) by (auto; lia). pose proof (dense_size shape strides z' ltac:(lia) E') as ->.
  destruct (Nat.eqb_spec d 1); [assert (i = 0) as -> by lia; lia|]. destruct (Nat.eqb_spec s (elements shape)) as [->|]; [lia|discriminate].
Qed.

Lemma flat_map_length {B C} (f : B -> list C) k l : (forall x, In x l -> length (f x) = k) -> length (flat_map f l) = length l * k.
Proof.
  induction l as [|x l IH]; intros H; cbn [flat_map length]; auto. rewrite app_length, IH by (intros; apply H; right; auto). rewrite H by (left; auto). lia.
Qed.
Lemma nth_flat_map {B C} (f : B -> list C) k db dc : forall l j r, (forall x, In x l -> length (f x) = k) -> j < length l -> r < k ->
  nth (j * k + r) (flat_map f l) dc = nth r (f (nth j l db)) dc.
Proof.
  induction l as [|x l IH]; intros j r H Hj Hr; cbn [length] in *; [lia|]. cbn [flat_map]. destruct j as [|j].
  - cbn [Nat.mul Nat.add nth]. apply app_nth1. rewrite H by (left; auto). auto.
  - rewrite app_nth2; rewrite H by (left; auto); [|lia]. replace (S j * k + r - k) with (j * k + r) by lia. cbn [nth]. apply IH; auto; try lia. intros; apply H; right; auto.
Qed.
Lemma positions_length shape : forall strides, length strides = length shape -> length (positions shape strides) = elements shape.
Proof.
  induction shape as [|d shape IH]; intros [|s strides] L; cbn [length] in L; try discriminate; auto. cbn [positions].
  rewrite (flat_map_length _ (elements shape)) by (intros; rewrite map_length; apply IH; lia). rewrite seq_length. reflexivity.
Qed.
Lemma positions_nth shape : forall strides idx, length strides = length shape -> valid_index shape idx ->
  nth (row_major shape idx) (positions shape strides) 0 = storage_index strides idx.
Proof.
  induction shape as [|d shape IH]; intros [|s strides] idx L V; cbn [length] in L; try discriminate; inversion V as [|? i ? l Hi V']; subst; auto.
  cbn [positions row_major storage_index].
  rewrite (nth_flat_map _ (elements shape) 0 0).
  - rewrite seq_nth by auto. rewrite (nth_indep _ 0 (Nat.add ((0 + i) * s) 0)); [|rewrite map_length, positions_length by lia; apply row_major_lt; auto].
    rewrite map_nth, IH by (auto; lia). lia.
  - intros. rewrite map_length. apply positions_length. lia.
  - rewrite seq_length. auto.
  - apply row_major_lt. auto.
Qed.
Lemma In_positions shape strides p : length strides = length shape -> In p (positions shape strides) -> exists idx, valid_index shape idx /\ storage_index strides idx = p.
Proof.
  intros L H. apply (In_nth _ _ 0) in H. destruct H as (k & Hk & <-). rewrite positions_length in Hk by auto. destruct (row_major_onto shape k Hk) as (idx & V & <-).
  exists idx. split; auto. rewrite positions_nth; auto.
Qed.

(** ** The bytes of the element at [idx]. *)
Lemma list_ext_nth (a b : mem) : length a = length b -> (forall k, k < length a -> nth k a 0%Z = nth k b 0%Z) -> a = b.
Proof. intros L H. apply (nth_ext _ _ 0%Z 0%Z); auto. Qed.
Lemma dense_inside v : good_view v -> is_contiguous v = true -> elements (v_shape v) <> 0 ->
  v_offset v * element_size (v_dtype v) + elements (v_shape v) * element_size (v_dtype v) <= length (v_store v).
Proof.
  intros (L & _ & _ & IB) IC E0.
  destruct (row_major_onto (v_shape v) (elements (v_shape v) - 1) ltac:(lia)) as (idx & V & E). specialize (IB idx V).
  unfold place in IB. unfold is_contiguous in IC. change (v_numel v) with (elements (v_shape v)) in IC.
  destruct (Nat.eqb_spec (elements (v_shape v)) 0) as [Z|_]; [lia|]. cbn [orb] in IC.
  destruct (dense_block _ _) as [z|] eqn:ED; [|discriminate]. rewrite (dense_index _ _ z idx L ED V), E in IB. nia.
Qed.
Lemma view_arg_bytes v fresh idx : good_view v -> valid_index (v_shape v) idx ->
  let w := element_size (v_dtype v) in
  slice (row_major (v_shape v) idx * w) w (t_data (view_arg v fresh)) = slice (place v idx * w) w (v_store v).
Proof.
  intros G V w. pose proof G as (L & _ & _ & IB). pose proof (IB idx V) as B. fold w in B. assert (R : row_major (v_shape v) idx < elements (v_shape v)) by (apply row_major_lt; auto).
  unfold view_arg. destruct (is_contiguous v) eqn:IC; cbn [as_tensor contiguous t_data]; fold w.
  - assert (P : storage_index (v_strides v) idx = row_major (v_shape v) idx).
    { unfold is_contiguous in IC. destruct (Nat.eqb_spec (v_numel v) 0) as [Z|_]; [change (v_numel v) with (elements (v_shape v)) in Z; lia|]. cbn [orb] in IC.
      destruct (dense_block _ _) as [z|] eqn:E; [|discriminate]. apply (dense_index _ _ z); auto. }
    unfold place in *. rewrite P in *. change (v_numel v) with (elements (v_shape v)). set (e := elements (v_shape v)) in *. set (r := row_major (v_shape v) idx) in *. pose proof (dense_inside v G IC) as DI. fold w e in DI. clearbody e r.
    assert (L1 : length (slice (v_offset v * w) (e * w) (v_store v)) = e * w) by (apply slice_length; lia).
    apply list_ext_nth; [rewrite !slice_length; [reflexivity|lia|rewrite L1; nia]|].
    rewrite slice_length by (rewrite L1; nia). intros k Hk. rewrite !nth_slice by nia. f_equal. lia.
  - assert (LF : forall p, In p (positions (v_shape v) (v_strides v)) -> length (slice ((v_offset v + p) * w) w (v_store v)) = w).
    { intros p Hp. apply In_positions in Hp; auto. destruct Hp as (i & Vi & <-). apply slice_length. specialize (IB i Vi). unfold place in IB. fold w in IB. lia. }
    assert (LL : length (flat_map (fun p => slice ((v_offset v + p) * w) w (v_store v)) (positions (v_shape v) (v_strides v))) = elements (v_shape v) * w).
    { rewrite (flat_map_length _ w) by auto. rewrite positions_length by auto. reflexivity. }
    apply list_ext_nth; rewrite !slice_length; auto; try (rewrite LL; nia); try lia.
    intros k Hk. rewrite !nth_slice by auto. rewrite (nth_flat_map _ w 0 0%Z); auto; [|rewrite positions_length; auto].
    rewrite positions_nth by auto. rewrite nth_slice by auto. reflexivity.
Qed.
Lemma item_size t : element_size t = item_bytes t. Proof. destruct t; reflexivity. Qed.
Definition whole_bytes (t : torch_dtype) : Prop := t <> T_quint2x4 /\ t <> T_quint4x2.
Lemma firstn_In {B} (l : list B) n x : In x (firstn n l) -> In x l.
Proof. intros H. rewrite <- (firstn_skipn n l). apply in_or_app. auto. Qed.
Lemma skipn_In {B} (l : list B) n x : In x (skipn n l) -> In x l.
Proof. intros H. rewrite <- (firstn_skipn n l). apply in_or_app. auto. Qed.
Lemma view_arg_tensor v fresh : good_view v -> good_fresh v fresh -> whole_bytes (v_dtype v) -> torch_tensor (view_arg v fresh) /\ t_dtype (view_arg v fresh) = v_dtype v /\ t_shape (view_arg v fresh) = v_shape v.
Proof.
  intros G F W. pose proof G as (L & Bs & Bp & IB).
  assert (ST : storage_bytes (v_dtype v) (v_shape v) = elements (v_shape v) * element_size (v_dtype v)).
  { rewrite item_size. destruct (v_shape v) as [|a l] eqn:E; [cbn; lia|]. rewrite elements_last by discriminate. unfold storage_bytes.
    replace (elements_per_byte (v_dtype v)) with 1 by (destruct W; destruct (v_dtype v); try reflexivity; congruence).
    rewrite Nat.add_0_r, Nat.div_1_r. lia. }
  set (w := element_size (v_dtype v)) in *.
  assert (BS : forall o l, Forall is_byte (slice o l (v_store v))).
  { intros o l. unfold slice. apply Forall_forall. intros x Hx. rewrite Forall_forall in Bs. apply Bs. apply firstn_In, skipn_In in Hx. auto. }
  unfold view_arg. destruct (is_contiguous v) eqn:IC; unfold as_tensor, contiguous; fold w; cbv zeta; (split; [|split; reflexivity]).
  - split; [|split]; cbn [t_data t_dtype t_shape t_ptr].
    + rewrite ST. change (v_numel v) with (elements (v_shape v)).
      destruct (Nat.eq_dec (elements (v_shape v)) 0) as [E0|E0]; [rewrite E0; reflexivity|]. apply slice_length. apply dense_inside; auto.
    + auto.
    + change (v_numel v) with (elements (v_shape v)). destruct (Nat.eqb_spec (elements (v_shape v)) 0); [tauto|]. split; lia.
  - split; [|split]; cbn [t_data t_dtype t_shape t_ptr].
    + rewrite ST. rewrite (flat_map_length _ w); [rewrite positions_length by auto; reflexivity|].
      intros p Hp. apply In_positions in Hp; auto. destruct Hp as (i & Vi & <-). apply slice_length. specialize (IB i Vi). unfold place in IB. fold w in IB. lia.
    + apply Forall_flat_map. apply Forall_forall. intros; auto.
    + exact F.
Qed.

(** ** C58.  Element [idx] of the view is element [row_major idx] of what the library gets. *)
Lemma elem_at_slice d m m' i j : float_type d -> slice (i * stride d) (stride d) m = slice (j * stride d) (stride d) m' -> elem_at d m i = elem_at d m' j.
Proof. intros [->| ->]; cbn [stride elem_at]; unfold f32_at, bf16_at; rewrite !(Nat.mul_comm _ i), !(Nat.mul_comm _ j); intros ->; reflexivity. Qed.
Lemma float_whole t d : float_dtype t d -> whole_bytes t /\ element_size t = stride d.
Proof. intros [[-> ->]|[-> ->]]; repeat split; discriminate. Qed.
Theorem C58_view_elements v fresh d idx : good_view v -> float_dtype (v_dtype v) d -> valid_index (v_shape v) idx ->
  elem_at d (t_data (view_arg v fresh)) (row_major (v_shape v) idx) = elem_at d (v_store v) (place v idx).
Proof.
  intros G F V. pose proof (view_arg_bytes v fresh idx G V) as H. cbv zeta in H. destruct (float_whole _ _ F) as [_ W]. rewrite W in H.
  apply elem_at_slice; auto. apply float_dtype_iff in F. apply F.
Qed.

(** Row-major positions: distinct for distinct multi-indices, and every element of the result is one. *)
Theorem C58_positions shape :
  (forall idx, valid_index shape idx -> row_major shape idx < elements shape) /\
  (forall idx idx', valid_index shape idx -> valid_index shape idx' -> row_major shape idx = row_major shape idx' -> idx = idx') /\
  (forall k, k < elements shape -> exists idx, valid_index shape idx /\ row_major shape idx = k).
Proof. split; [apply row_major_lt|]. split; [apply row_major_inj|apply row_major_onto]. Qed.

(** quantize of any view: the code of the element at every multi-index, at its row-major place in the result. *)
Theorem C58_quantize_view A nt v fresh out scale zp tq rm thr din dq r :
  good_view v -> good_fresh v fresh -> float_dtype (v_dtype v) din -> quant_dtype tq dq -> torch_tensor out -> t_dtype out = tq -> t_shape out = v_shape v ->
  let n := elements (v_shape v) in
  0 < n -> sizes_ok (n * stride din) n nt -> good_scale (f32_of_f64 scale) ->
  (rm = RM_STOCHASTIC -> threshold thr /\ (Z.abs zp <= 2 ^ 62)%Z) -> (rm = RM_NEAREST -> (Z.abs zp <= 2 ^ 22)%Z) ->
  (forall idx, valid_index (v_shape v) idx -> input_ok A rm (f32_of_f64 scale) zp thr (elem_at din (v_store v) (place v idx))) ->
  exists call, view_quantize false A nt v fresh scale zp tq (mode_name rm) out thr = Ret call /\
    (returns (t_data (view_arg v fresh)) (t_data out) call r ->
     exists o, r = Ok o /\ length o = length (t_data out) /\
       forall idx, valid_index (v_shape v) idx ->
         code_at dq o (row_major (v_shape v) idx) = expected_code rm dq (f32_of_f64 scale) zp thr (elem_at din (v_store v) (place v idx))).
Proof.
  intros G GF F Q Ho Eo Es n Hpos HS Hg Hst Hne HI. destruct (float_whole _ _ F) as [W WS].
  destruct (view_arg_tensor v fresh G GF W) as (T & Ed & Esh). set (t := view_arg v fresh) in *.
  assert (LT : length (t_data t) = n * stride din).
  { destruct T as (-> & _). rewrite Ed, Esh. apply float_dtype_iff in F. destruct F as [F1 F2]. apply float_storage; auto. }
  assert (ZF : zp_fits zp) by (unfold zp_fits; destruct rm; [specialize (Hne eq_refl)|destruct (Hst eq_refl)]; lia).
  destruct (C38_torch_quantize_codes A nt t out scale zp tq (mode_name rm) thr din dq rm r T Ho Eo) as (call & E & H); auto.
  - rewrite Es, Esh. reflexivity.
  - split; [rewrite Ed; auto|]. split; auto. split; auto. rewrite Esh. split; auto.
  - rewrite LT, Esh. auto.
  - intros i Hi. rewrite Esh in Hi. destruct (row_major_onto (v_shape v) i Hi) as (idx & V & <-). unfold t. rewrite (C58_view_elements v fresh din idx G F V). auto.
  - exists call. split; [exact E|]. intros HR. destruct (H HR) as (o & -> & L & HC & _). exists o. split; auto. split; auto. intros idx V. rewrite Esh in HC.
    rewrite HC by (apply row_major_lt; auto). unfold t. rewrite (C58_view_elements v fresh din idx G F V). reflexivity.
Qed.

(** dequantize of any view of 8-bit codes. *)
Theorem C58_dequantize_view A nt v fresh out scale zp r :
  good_view v -> good_fresh v fresh -> v_dtype v = T_quint8 \/ v_dtype v = T_uint8 -> torch_tensor out -> t_dtype out = T_float32 -> t_shape out = v_shape v ->
  let n := elements (v_shape v) in
  0 < n -> sizes_ok (n * 4) n nt -> (Z.abs zp <= 2 ^ 30)%Z ->
  exists call, view_dequantize false A nt v fresh scale zp T_float32 "set" out = Ret call /\
    (returns (t_data (view_arg v fresh)) (t_data out) call r ->
     exists o, r = Ok o /\ length o = length (t_data out) /\
       forall idx, valid_index (v_shape v) idx ->
         f32_at o (row_major (v_shape v) idx) = fmul (f32_of_Z (nth (place v idx) (v_store v) 0%Z - zp)) (f32_of_f64 scale)).
Proof.
  intros G GF D Ho Eo Es n Hpos HS Hz.
  assert (W : whole_bytes (v_dtype v)) by (destruct D as [->| ->]; split; discriminate). assert (WS : element_size (v_dtype v) = 1) by (destruct D as [->| ->]; reflexivity).
  destruct (view_arg_tensor v fresh G GF W) as (T & Ed & Esh).
  assert (TD : torch_to_piquant_dtype (v_dtype v) = Some DT_UINT8) by (destruct D as [->| ->]; reflexivity).
  destruct (C38_torch_dequantize A nt (view_arg v fresh) out scale zp (v_dtype v) DT_UINT8 r T Ho Ed Eo) as (call & E & H); auto.
  - rewrite Es, Esh. reflexivity.
  - rewrite Esh. auto.
  - right. right. reflexivity.
  - rewrite Esh. fold n. destruct Ho as (-> & _). rewrite Eo, Es, (float_storage T_float32 DT_F32) by (auto; left; auto). exact HS.
  - intros X. discriminate.
  - exists call. split; [exact E|]. intros HR. destruct (H HR) as (o & -> & L & HC). exists o. split; auto. split; auto. intros idx V. rewrite Esh in HC.
    rewrite HC by (apply row_major_lt; auto). do 3 f_equal.
    pose proof (view_arg_bytes v fresh idx G V) as HB. cbv zeta in HB. rewrite WS, !Nat.mul_1_r in HB.
    assert (N : forall (m : mem) k, nth k m 0%Z = nth 0 (slice k 1 m) 0%Z) by (intros; rewrite nth_slice by lia; rewrite Nat.add_0_r; reflexivity).
    unfold code_at. cbn [bit_size]. rewrite Nat.div_mul, Nat.mod_mul by lia. change (2 ^ Z.of_nat 0)%Z with 1%Z. change (2 ^ Z.of_nat 8)%Z with 256%Z. rewrite Z.div_1_r.
    rewrite N, HB, <- N. apply Z.mod_small. destruct G as (_ & GB & _). 
    destruct (Nat.lt_ge_cases (place v idx) (length (v_store v))) as [Lt|Ge]; [rewrite Forall_forall in GB; apply GB, nth_In; auto|rewrite nth_overflow by auto; lia].
Qed.

(** ** C58: the whole workflow on a view: the parameters come from the elements of the view (not from the rest of the storage), and every element comes
    back at its row-major place within the error of C57. *)
Definition view_range (v : view) (d : dtype) (lo hi : R) : Prop :=
  (exists idx, valid_index (v_shape v) idx /\ val (elem_at d (v_store v) (place v idx)) = lo) /\
  (exists idx, valid_index (v_shape v) idx /\ val (elem_at d (v_store v) (place v idx)) = hi) /\
  forall idx, valid_index (v_shape v) idx -> finite (elem_at d (v_store v) (place v idx)) /\ (lo <= val (elem_at d (v_store v) (place v idx)) <= hi)%R.
Theorem C58_workflow_view a blocks A nt A2 nt2 v fresh fresh2 qbuf obuf tq td din dq dout rm thr lo hi :
  good_view v -> good_fresh v fresh -> good_fresh v fresh2 -> float_dtype (v_dtype v) din -> quant_dtype tq dq -> float_dtype td dout ->
  torch_tensor qbuf -> t_dtype qbuf = tq -> t_shape qbuf = v_shape v -> torch_tensor obuf -> t_dtype obuf = td -> t_shape obuf = v_shape v ->
  let n := elements (v_shape v) in
  sizes_ok (n * stride din) n nt -> sizes_ok (n * stride dout) n nt2 -> (rm = RM_STOCHASTIC -> threshold thr) ->
  a <> SSE42 -> block_cover n blocks -> view_range v din lo hi -> (lo <= 0 <= hi)%R -> (bpow radix2 (-112) <= hi - lo <= bpow radix2 100)%R ->
  exists scale zp, view_compute_quant_params false a v fresh tq blocks = Ret (Ok (scale, zp)) /\
    exists call, view_quantize false A nt v fresh2 (f64_of_f32 scale) zp tq (mode_name rm) qbuf thr = Ret call /\
      forall r, returns (t_data (view_arg v fresh2)) (t_data qbuf) call r -> exists codes, r = Ok codes /\
        ((dout = DT_F32 -> overread_ok dq n codes) ->
         exists call2, torch_dequantize false A2 nt2 (mk_tensor tq (v_shape v) (t_ptr qbuf) codes) (f64_of_f32 scale) zp td "set" obuf = Ret call2 /\
           forall r2, returns codes (t_data obuf) call2 r2 -> exists y, r2 = Ok y /\
             forall idx, valid_index (v_shape v) idx -> let x := val (elem_at din (v_store v) (place v idx)) in
               finite (elem_at dout y (row_major (v_shape v) idx)) /\
               (Rabs (val (elem_at dout y (row_major (v_shape v) idx)) - x) <= workflow_error rm dout (val scale) x)%R).
Proof.
  intros G GF GF2 F Q O Hq Eq Esq Ho Eo Eso n HS HS2 Hth Ha HBl (R1 & R2 & R3) H0 HB. destruct (float_whole _ _ F) as [W _].
  pose proof F as F'. apply float_dtype_iff in F'. destruct F' as [Fd Ff]. pose proof O as O'. apply float_dtype_iff in O'. destruct O' as [Od Of].
  assert (SAME : forall f1 f2, t_data (view_arg v f1) = t_data (view_arg v f2)) by (intros; unfold view_arg; destruct (is_contiguous v); reflexivity).
  destruct (view_arg_tensor v fresh G GF W) as (T & Ed & Esh). destruct (view_arg_tensor v fresh2 G GF2 W) as (T2 & Ed2 & Esh2).
  assert (LT : length (t_data (view_arg v fresh2)) = n * stride din).
  { destruct T2 as (-> & _). rewrite Ed2, Esh2. apply float_storage; auto. }
  assert (LO : length (t_data obuf) = n * stride dout).
  { destruct Ho as (-> & _). rewrite Eo, Eso. apply float_storage; auto. }
  assert (EL : forall idx, valid_index (v_shape v) idx -> elem_at din (t_data (view_arg v fresh2)) (row_major (v_shape v) idx) = elem_at din (v_store v) (place v idx))
    by (intros; apply C58_view_elements; auto).
  assert (EI : forall i, i < n -> exists idx, valid_index (v_shape v) idx /\ row_major (v_shape v) idx = i /\ elem_at din (t_data (view_arg v fresh2)) i = elem_at din (v_store v) (place v idx)).
  { intros i Hi. destruct (row_major_onto (v_shape v) i Hi) as (idx & V & <-). exists idx. auto. }
  assert (DR : data_range din (t_data (view_arg v fresh2)) n lo hi).
  { split; [|split].
    - destruct R1 as (idx & V & E). exists (row_major (v_shape v) idx). split; [apply row_major_lt; auto|]. rewrite EL; auto.
    - destruct R2 as (idx & V & E). exists (row_major (v_shape v) idx). split; [apply row_major_lt; auto|]. rewrite EL; auto.
    - intros i Hi. destruct (EI i Hi) as (idx & V & _ & ->). apply R3. auto. }
  assert (FN : forall i, i < n -> finite (elem_at din (t_data (view_arg v fresh2)) i)).
  { intros i Hi. destruct (EI i Hi) as (idx & V & _ & ->). apply R3. auto. }
  assert (Hpos : 0 < n) by (destruct DR as ((i & Hi & _) & _); lia).
  assert (C57 := C57_torch_round_trip a blocks A nt A2 nt2 (view_arg v fresh2) qbuf obuf tq td din dq dout rm thr lo hi T2 Hq Eq (eq_trans Esq (eq_sym Esh2)) Ho Eo (eq_trans Eso (eq_sym Esh2))).
  rewrite Ed2, Esh2 in C57. cbv zeta in C57. fold n in C57. rewrite LT, LO in C57.
  destruct (C57 F Q O HS HS2 Hth Ha HBl FN DR H0 HB) as (scale & zp & E1 & _ & _ & call & E2 & H). clear C57.
  exists scale, zp. split.
  - assert (S4 : (Z.of_nat n < 2 ^ 64)%Z).
    { destruct HS as (_ & _ & _ & HS'). destruct Ff as [->| ->]; cbn [stride] in HS'; lia. }
    pose proof Q as Q'. apply quant_dtype_iff in Q'. destruct Q' as [Qd Qf].
    destruct (C38_torch_params a (view_arg v fresh) tq din dq blocks T) as [_ P1]; auto; try (rewrite Esh; auto); [rewrite Ed; auto|].
    destruct (C38_torch_params a (view_arg v fresh2) tq din dq blocks T2) as [_ P2]; auto; try (rewrite Esh2; auto); [rewrite Ed2; auto|].
    unfold view_compute_quant_params. rewrite P1, (SAME fresh fresh2), <- P2. exact E1.
  - exists call. split; [exact E2|]. intros r HR. destruct (H r HR) as (codes & -> & _ & HD). exists codes. split; auto. intros OR.
    destruct (HD OR) as (call2 & E3 & HY). exists call2. split; auto. intros r2 HR2. destruct (HY r2 HR2) as (y & -> & _ & HN). exists y. split; auto.
    intros idx V. specialize (HN (row_major (v_shape v) idx) (row_major_lt _ _ V)). rewrite EL in HN by auto. exact HN.
Qed.
