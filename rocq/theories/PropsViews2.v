(** PropsViews2.v -- C58: the parameters computed for a view depend on the elements of the view only. *)
From Coq Require Import String ZArith Lia Bool Arith ZifyBool ZifyNat Reals List.
From Verif Require Import Base Floats Dtypes Spec ApiSpec ExecFacts QuantKernels Context MinMax Capi Python PropsPython PropsPython2 PyViews PropsViews.
Import ListNotations.

(** Two views of the same dtype and shape whose elements agree (same bytes at every multi-index), whatever their strides, offsets, addresses and the
    rest of their storages: the call returns (or raises, aborts) the same. *)
Theorem C58_params_view opt a v1 v2 fresh1 fresh2 tq blocks :
  good_view v1 -> good_view v2 -> good_fresh v1 fresh1 -> good_fresh v2 fresh2 ->
  v_dtype v1 = v_dtype v2 -> v_shape v1 = v_shape v2 -> whole_bytes (v_dtype v1) ->
  (forall idx, valid_index (v_shape v1) idx ->
     slice (place v1 idx * element_size (v_dtype v1)) (element_size (v_dtype v1)) (v_store v1) =
     slice (place v2 idx * element_size (v_dtype v1)) (element_size (v_dtype v1)) (v_store v2)) ->
  view_compute_quant_params opt a v1 fresh1 tq blocks = view_compute_quant_params opt a v2 fresh2 tq blocks.
Proof.
  intros G1 G2 F1 F2 ED ES W EQ. assert (W2 : whole_bytes (v_dtype v2)) by (rewrite <- ED; auto).
  destruct (view_arg_tensor v1 fresh1 G1 F1 W) as ((L1 & _ & P1) & D1 & S1). destruct (view_arg_tensor v2 fresh2 G2 F2 W2) as ((L2 & _ & P2) & D2 & S2).
  assert (NW : 0 < element_size (v_dtype v1)) by (destruct (v_dtype v1); cbn; lia).
  assert (ST : storage_bytes (v_dtype v1) (v_shape v1) = elements (v_shape v1) * element_size (v_dtype v1)).
  { rewrite item_size. destruct (v_shape v1) as [|x l] eqn:E; [cbn; lia|]. rewrite elements_last by discriminate. unfold storage_bytes.
    replace (elements_per_byte (v_dtype v1)) with 1 by (destruct W; destruct (v_dtype v1); try reflexivity; congruence).
    rewrite Nat.add_0_r, Nat.div_1_r. lia. }
  rewrite D1, S1 in L1. rewrite D2, S2 in L2. rewrite <- ED, <- ES in L2. rewrite ST in L1, L2.
  assert (DA : t_data (view_arg v1 fresh1) = t_data (view_arg v2 fresh2)).
  { apply list_ext_nth; [congruence|]. rewrite L1. intros k Hk. set (w := element_size (v_dtype v1)) in *.
    assert (Hj : k / w < elements (v_shape v1)) by (apply Nat.div_lt_upper_bound; lia).
    assert (Hr : k mod w < w) by (apply Nat.mod_upper_bound; lia). pose proof (Nat.div_mod k w ltac:(lia)) as DM.
    destruct (row_major_onto (v_shape v1) (k / w) Hj) as (idx & V & E).
    pose proof (view_arg_bytes v1 fresh1 idx G1 V) as B1. assert (V2 : valid_index (v_shape v2) idx) by (rewrite <- ES; auto).
    pose proof (view_arg_bytes v2 fresh2 idx G2 V2) as B2. cbv zeta in B1, B2. rewrite <- ED, <- ES in B2. fold w in B1, B2. rewrite E in B1, B2.
    specialize (EQ idx V). fold w in EQ. rewrite <- B1, <- B2 in EQ.
    apply (f_equal (fun l => nth (k mod w) l 0%Z)) in EQ. rewrite !nth_slice in EQ by auto. replace (k / w * w + k mod w) with k in EQ by lia. exact EQ. }
  assert (PN : (t_ptr (view_arg v1 fresh1) = 0%Z) <-> (t_ptr (view_arg v2 fresh2) = 0%Z)).
  { rewrite S1 in P1. rewrite S2 in P2. rewrite <- ES in P2. tauto. }
  assert (NN : t_numel (view_arg v1 fresh1) = t_numel (view_arg v2 fresh2)) by (unfold t_numel; rewrite S1, S2, ES; reflexivity).
  unfold view_compute_quant_params, torch_compute_quant_params. rewrite D1, D2, <- ED, NN, DA.
  unfold compute_quant_params_ptr.
  replace (t_ptr (view_arg v1 fresh1) =? 0)%Z with (t_ptr (view_arg v2 fresh2) =? 0)%Z by (destruct (Z.eqb_spec (t_ptr (view_arg v1 fresh1)) 0), (Z.eqb_spec (t_ptr (view_arg v2 fresh2)) 0); tauto).
  reflexivity.
Qed.
