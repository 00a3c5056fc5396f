(** ArenaFacts.v -- a concurrent run projects onto runs of the single calls. *)
From Coq Require Import ZArith List Lia Bool Arith.
From Verif Require Import Base ExecFacts Arena.
Import ListNotations.

(** ** Interleavings *)
Definition pick {A B} (p : A -> option B) (l : list A) : list B := flat_map (fun a => match p a with Some b => [b] | None => [] end) l.

Lemma interleave_pick {A B} (p : A -> option B) (ls : list (list A)) tr : interleave ls tr -> interleave (map (pick p) ls) (pick p tr).
Proof.
  induction 1 as [ls HF|pre a l post tr HI IH].
  - apply il_done. apply Forall_forall. intros x Hx. apply in_map_iff in Hx. destruct Hx as (y & <- & Hy).
    rewrite Forall_forall in HF. rewrite (HF y Hy). reflexivity.
  - rewrite map_app in *. cbn [map] in *. unfold pick at 2 4. cbn [flat_map]. destruct (p a) as [b|]; cbn [app]; auto. apply il_step. exact IH.
Qed.
Lemma interleave_nil {A} (pre post : list (list A)) tr : interleave (pre ++ [] :: post) tr -> interleave (pre ++ post) tr.
Proof.
  intros H. remember (pre ++ [] :: post) as ls eqn:E. revert pre post E. induction H as [ls HF|p a l q tr HI IH]; intros pre post E.
  - apply il_done. subst. apply Forall_app in HF. destruct HF as [H1 H2]. inversion H2. apply Forall_app. auto.
  - apply app_eq_app in E. destruct E as (mid & [[E1 E2]|[E1 E2]]).
    + subst. destruct mid as [|x mid]; cbn [app] in E2; [discriminate|]. injection E2 as <- E2. subst.
      specialize (IH pre (mid ++ l :: q)). rewrite <- !app_assoc in IH. cbn [app] in IH. specialize (IH eq_refl). 
      rewrite app_assoc in *. apply il_step. auto.
    + subst. destruct mid as [|x mid]; cbn [app] in E2; [discriminate|]. injection E2 as <- E2. subst.
      specialize (IH (p ++ l :: mid) post). rewrite <- !app_assoc in *. cbn [app] in *. apply il_step. auto.
Qed.
Lemma interleave_drop {A} (pre ls post : list (list A)) tr : Forall (fun l => l = []) pre -> Forall (fun l => l = []) post ->
  interleave (pre ++ ls ++ post) tr -> interleave ls tr.
Proof.
  intros H1 H2 H. assert (H' : interleave (ls ++ post) tr).
  { induction H1 as [|x pre Hx H1 IH]; auto. subst. apply IH. apply (interleave_nil [] (pre ++ ls ++ post)). exact H. }
  clear H pre H1. induction H2 as [|x post Hx H2 IH]; [rewrite app_nil_r in H'; auto|]. subst. apply IH. apply interleave_nil. exact H'.
Qed.

Definition of_launch (k : nat) (x : nat * action) : option action := if fst x =? k then Some (snd x) else None.
Definition proj (k : nat) (tr : list (nat * action)) : list action := pick (of_launch k) tr.

Lemma proj_tag k l : proj k (map (pair k) l) = l.
Proof. unfold proj, pick, of_launch. induction l as [|a l IH]; [reflexivity|]. cbn. rewrite Nat.eqb_refl. cbn. f_equal. exact IH. Qed.
Lemma proj_other k j l : k <> j -> proj k (map (pair j) l) = [].
Proof. intros H. unfold proj, pick, of_launch. induction l as [|a l IH]; [reflexivity|]. cbn. destruct (Nat.eqb_spec j k); [congruence|]. exact IH. Qed.
Lemma tagged_other k Ls : forall j, k < j -> Forall (fun l => l = []) (map (proj k) (tagged_from j Ls)).
Proof.
  induction Ls as [|L Ls IH]; intros j Hj; cbn [tagged_from map]; [constructor|]. rewrite map_app. apply Forall_app. split; [|apply IH; lia].
  apply Forall_forall. intros x Hx. apply in_map_iff in Hx. destruct Hx as (y & <- & Hy). apply in_map_iff in Hy. destruct Hy as (l & <- & _). apply proj_other. lia.
Qed.
Lemma tagged_split Ls : forall j k L, nth_error Ls k = Some L ->
  exists pre post, map (proj (j + k)) (tagged_from j Ls) = pre ++ l_jobs L ++ post /\ Forall (fun l => l = []) pre /\ Forall (fun l => l = []) post.
Proof.
  induction Ls as [|L0 Ls IH]; intros j k L H; [destruct k; discriminate|]. destruct k as [|k]; cbn [nth_error] in H.
  - injection H as <-. cbn [tagged_from]. rewrite map_app, map_map. rewrite Nat.add_0_r.
    exists [], (map (proj j) (tagged_from (S j) Ls)). cbn [app]. split; [|split; [constructor|apply tagged_other; lia]].
    f_equal. rewrite <- (map_id (l_jobs L0)) at 2. apply map_ext. intros l. apply proj_tag.
  - destruct (IH (S j) k L H) as (pre & post & E & H1 & H2). replace (S j + k) with (j + S k) in E by lia.
    cbn [tagged_from]. rewrite map_app, E, map_map. eexists (_ ++ pre), post. rewrite <- app_assoc. split; [reflexivity|]. split; auto.
    apply Forall_app. split; auto. apply Forall_forall. intros x Hx. apply in_map_iff in Hx. destruct Hx as (l & <- & _). apply proj_other. lia.
Qed.
Lemma interleave_proj Ls tr k L : interleave (tagged_from 0 Ls) tr -> nth_error Ls k = Some L -> interleave (l_jobs L) (proj k tr).
Proof.
  intros HI HL. destruct (tagged_split Ls 0 k L HL) as (pre & post & E & H1 & H2). apply interleave_drop with pre post; auto. rewrite <- E.
  cbn [Nat.add]. apply (interleave_pick (of_launch k)). exact HI.
Qed.
Lemma tagged_range Ls : forall j l x, In l (tagged_from j Ls) -> In x l -> j <= fst x < j + length Ls.
Proof.
  induction Ls as [|L Ls IH]; intros j l x Hl Hx; cbn [tagged_from length] in *; [destruct Hl|]. apply in_app_or in Hl. destruct Hl as [Hl|Hl].
  - apply in_map_iff in Hl. destruct Hl as (l0 & <- & _). apply in_map_iff in Hx. destruct Hx as (a & <- & _). cbn. lia.
  - specialize (IH _ _ _ Hl Hx). lia.
Qed.
Lemma interleave_elem {A} (ls : list (list A)) tr x : interleave ls tr -> In x tr -> exists l, In l ls /\ In x l.
Proof.
  induction 1 as [ls HF|pre a l post tr HI IH]; intros Hx; [destruct Hx|]. destruct Hx as [<-|Hx].
  - exists (a :: l). split; [apply in_or_app; right; left; reflexivity|left; reflexivity].
  - destruct (IH Hx) as (l0 & Hl & H0). apply in_app_or in Hl. destruct Hl as [Hl|[<-|Hl]].
    + exists l0. split; auto. apply in_or_app. auto.
    + exists (a :: l). split; [apply in_or_app; right; left; reflexivity|right; auto].
    + exists l0. split; auto. apply in_or_app. right. right. auto.
Qed.

(** ** Layout *)
Definition apart (o1 n1 o2 n2 : nat) : Prop := o1 + n1 <= o2 \/ o2 + n2 <= o1.
Definition placed (m : nat) (L : launch) : Prop := l_in L + l_isize L <= m /\ l_out L + l_osize L <= m.
(** every output is apart from every input (its own included) and from every other output *)
Definition isolated (Ls : list launch) : Prop :=
  (forall j k L L', nth_error Ls j = Some L -> nth_error Ls k = Some L' -> apart (l_out L) (l_osize L) (l_in L') (l_isize L')) /\
  (forall j k L L', j <> k -> nth_error Ls j = Some L -> nth_error Ls k = Some L' -> apart (l_out L) (l_osize L) (l_out L') (l_osize L')).

Lemma slice_apart o (r m : mem) off len : apart o (length r) off len -> o + length r <= length m -> off + len <= length m ->
  slice off len (splice o r m) = slice off len m.
Proof.
  intros HD H1 H2. apply slice_ext; auto.
  - apply splice_length; auto.
  - intros k Hk. rewrite nth_splice by auto. unfold apart in HD.
    destruct (Nat.leb_spec o k), (Nat.ltb_spec k (o + length r)); cbn [andb]; auto; lia.
Qed.
Lemma slice_same o (r m : mem) : o + length r <= length m -> slice o (length r) (splice o r m) = r.
Proof.
  intros H. apply list_ext; rewrite slice_length by (rewrite splice_length; auto); auto. intros k Hk. rewrite nth_slice, nth_splice by auto.
  destruct (Nat.leb_spec o (o + k)), (Nat.ltb_spec (o + k) (o + length r)); cbn [andb]; try lia. f_equal. lia.
Qed.
Lemma run_action_length inm a o o' : run_action inm a o = Ok o' -> length o' = length o.
Proof.
  unfold run_action, in_bounds. destruct (Nat.leb_spec (a_ioff a + a_ilen a) (length inm)); [|discriminate].
  destruct (Nat.leb_spec (a_ooff a + a_olen a) (length o)); [|discriminate]. cbn [andb]. destruct (a_fn a _ _) as [r| |]; try discriminate. cbn [bind].
  destruct (Nat.eqb_spec (length r) (a_olen a)); [|discriminate]. intros E. injection E as <-. apply splice_length. lia.
Qed.

Definition agrees (L : launch) (tr : list action) (m : mem) (r : res mem) : Prop :=
  run_trace (slice (l_in L) (l_isize L) m) tr (slice (l_out L) (l_osize L) m) = r.

Lemma arena_project Ls tr : forall m, Forall (placed (length m)) Ls -> isolated Ls -> (forall x, In x tr -> fst x < length Ls) ->
  match arena_run Ls tr m with
  | Ok m' => length m' = length m /\
      (forall k L, nth_error Ls k = Some L -> agrees L (proj k tr) m (Ok (slice (l_out L) (l_osize L) m'))) /\
      (forall j, (forall L, In L Ls -> j < l_out L \/ l_out L + l_osize L <= j) -> nth j m' 0%Z = nth j m 0%Z)
  | r => exists k L, nth_error Ls k = Some L /\ agrees L (proj k tr) m (match r with Abort => Abort | _ => UB end)
  end.
Proof.
  induction tr as [|[k a] tr IH]; intros m HP HI HT; cbn [arena_run].
  - split; auto. split; auto. intros k L HL. unfold agrees. reflexivity.
  - pose proof (HT (k, a) (or_introl eq_refl)) as Hk. cbn [fst] in Hk. destruct (nth_error Ls k) as [L|] eqn:EL; [|apply nth_error_None in EL; lia].
    assert (PL : placed (length m) L) by (rewrite Forall_forall in HP; apply HP; eapply nth_error_In; eauto). destruct PL as [P1 P2].
    assert (PJ : proj k ((k, a) :: tr) = a :: proj k tr) by (unfold proj, pick, of_launch; cbn; rewrite Nat.eqb_refl; reflexivity).
    assert (PO : forall j, j <> k -> proj j ((k, a) :: tr) = proj j tr) by (intros j Hj; unfold proj, pick, of_launch; cbn; destruct (Nat.eqb_spec k j); [congruence|reflexivity]).
    unfold arena_step. destruct (run_action (slice (l_in L) (l_isize L) m) a (slice (l_out L) (l_osize L) m)) as [o| |] eqn:ER; cbn [bind];
      [|exists k, L; split; auto; unfold agrees; rewrite PJ; cbn [run_trace]; rewrite ER; reflexivity
       |exists k, L; split; auto; unfold agrees; rewrite PJ; cbn [run_trace]; rewrite ER; reflexivity].
    assert (LO : length o = l_osize L) by (apply run_action_length in ER; rewrite slice_length in ER by auto; auto).
    set (m1 := splice (l_out L) o m). assert (L1 : length m1 = length m) by (apply splice_length; lia).
    assert (S_in : forall j L', nth_error Ls j = Some L' -> slice (l_in L') (l_isize L') m1 = slice (l_in L') (l_isize L') m).
    { intros j L' H'. unfold m1. destruct HI as [HI _]. specialize (HI _ _ _ _ EL H'). rewrite Forall_forall in HP. destruct (HP L' (nth_error_In _ _ H')).
      apply slice_apart; try lia. rewrite LO. exact HI. }
    assert (S_out : forall j L', j <> k -> nth_error Ls j = Some L' -> slice (l_out L') (l_osize L') m1 = slice (l_out L') (l_osize L') m).
    { intros j L' Hj H'. unfold m1. destruct HI as [_ HI]. assert (Hkj : k <> j) by congruence. specialize (HI _ _ _ _ Hkj EL H').
      rewrite Forall_forall in HP. destruct (HP L' (nth_error_In _ _ H')). apply slice_apart; try lia. rewrite LO. exact HI. }
    assert (S_own : slice (l_out L) (l_osize L) m1 = o) by (rewrite <- LO; apply slice_same; lia).
    assert (STEP : forall j L' r, nth_error Ls j = Some L' -> agrees L' (proj j tr) m1 r -> agrees L' (proj j ((k, a) :: tr)) m r).
    { intros j L' r H' A. unfold agrees in *. destruct (Nat.eq_dec j k) as [->|Hj].
      - rewrite PJ. rewrite EL in H'. injection H' as <-. cbn [run_trace]. rewrite ER. cbn [bind]. rewrite S_own, (S_in k L EL) in A. exact A.
      - rewrite PO by auto. rewrite (S_in j L' H'), (S_out j L' Hj H') in A. exact A. }
    specialize (IH m1). rewrite L1 in IH. specialize (IH HP HI (fun x Hx => HT x (or_intror Hx))).
    destruct (arena_run Ls tr m1) as [m'| |].
    + destruct IH as (I1 & I2 & I3). split; auto. split; [intros j L' H'; apply STEP; auto|].
      intros j Hj. rewrite I3 by auto. unfold m1. rewrite nth_splice by lia. specialize (Hj L (nth_error_In _ _ EL)).
      destruct (Nat.leb_spec (l_out L) j), (Nat.ltb_spec j (l_out L + length o)); cbn [andb]; auto; lia.
    + destruct IH as (j & L' & H' & A). exists j, L'. auto.
    + destruct IH as (j & L' & H' & A). exists j, L'. auto.
Qed.

(** Whatever the interleaving: if the run succeeds then so does every call alone, with the same output; bytes of no output are unchanged;
    if the run fails then one of the calls, alone, can fail in the same way. *)
Lemma together_project Ls m r : Forall (placed (length m)) Ls -> isolated Ls -> together Ls m r ->
  match r with
  | Ok m' => length m' = length m /\
      (forall k L, nth_error Ls k = Some L -> returns (slice (l_in L) (l_isize L) m) (slice (l_out L) (l_osize L) m) (Ok (l_jobs L)) (Ok (slice (l_out L) (l_osize L) m'))) /\
      (forall j, (forall L, In L Ls -> j < l_out L \/ l_out L + l_osize L <= j) -> nth j m' 0%Z = nth j m 0%Z)
  | _ => exists k L, nth_error Ls k = Some L /\
      returns (slice (l_in L) (l_isize L) m) (slice (l_out L) (l_osize L) m) (Ok (l_jobs L)) (match r with Abort => Abort | _ => UB end)
  end.
Proof.
  intros HP HI (tr & HT & ->). assert (HR : forall x, In x tr -> fst x < length Ls).
  { intros x Hx. destruct (interleave_elem _ _ _ HT Hx) as (l & Hl & Hx'). pose proof (tagged_range _ _ _ _ Hl Hx'). lia. }
  pose proof (arena_project Ls tr m HP HI HR) as A. destruct (arena_run Ls tr m) as [m'| |].
  - destruct A as (A1 & A2 & A3). split; auto. split; auto. intros k L HL. specialize (A2 k L HL). unfold agrees in A2. rewrite <- A2.
    constructor. eapply interleave_proj; eauto.
  - destruct A as (k & L & HL & A). exists k, L. split; auto. unfold agrees in A. rewrite <- A. constructor. eapply interleave_proj; eauto.
  - destruct A as (k & L & HL & A). exists k, L. split; auto. unfold agrees in A. rewrite <- A. constructor. eapply interleave_proj; eauto.
Qed.
