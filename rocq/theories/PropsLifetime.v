(** PropsLifetime.v -- C60: the life of native contexts under the Python API, over all histories of any number of threads. *)
From Coq Require Import List Arith Bool Lia.
From Verif Require Import PyLifetime.
Import ListNotations.

(** ** Vocabulary: what a history says, and the contract of the native API. *)
(** The context has been created and not been destroyed. *)
Definition live (tr : list label) (h : nat) : Prop := (exists t o, In (LCreate t o h) tr) /\ ~ In (LDestroy h) tr.
(** Thread [t] is inside a native call on [h]: a call has begun and has not ended. *)
Definition in_call (tr : list label) (t h : nat) : Prop :=
  exists p1 o p2, tr = p1 ++ LCall t o h :: p2 /\ forall o' h', ~ In (LReturn t o' h') p2.
(** The contract: calls only on live contexts; a context is destroyed only while it is live and no call on it is in progress. *)
Definition respects_contract (tr : list label) : Prop := forall pre l post, tr = pre ++ l :: post ->
  match l with
  | LCall _ _ h => live pre h
  | LDestroy h => live pre h /\ forall t, ~ in_call pre t h
  | _ => True
  end.
(** __init__ created [h] and an exception left it before the finalizer was registered. *)
Definition lost (tr : list label) (h : nat) : Prop :=
  exists p1 t o p2 p3, tr = p1 ++ LCreate t o h :: p2 ++ LInterrupt t :: p3 /\ forall k o' h', ~ In (LDone t k o' h') p2.
Definition destroys (tr : list label) (h : nat) : nat := length (filter (fun l => match l with LDestroy x => x =? h | _ => false end) tr).
(** [get()] has returned object [o]. *)
Definition get_result (tr : list label) (o : nat) : Prop := exists t, In (LGetHit t o) tr \/ exists h, In (LDone t KGet o h) tr.
(** Some thread is inside a [get()] that builds a context. *)
Definition in_get (tr : list label) : Prop :=
  exists p1 t o p2, tr = p1 ++ LGetMiss t o :: p2 /\ ~ In (LInterrupt t) p2 /\ forall k o' h', ~ In (LDone t k o' h') p2.
(** Nothing is left to do: no finalizer, no thread inside the library. *)
Definition finished (s : py) : Prop := registry s = [] /\ doomed s = [] /\ forall t, frames s t = None.

(** ** Invariants *)
Lemma upd_same {B} (f : nat -> option B) k v : upd f k v k = v.
Proof. unfold upd. rewrite Nat.eqb_refl. reflexivity. Qed.
Lemma upd_other {B} (f : nat -> option B) k v x : x <> k -> upd f k v x = f x.
Proof. intros H. unfold upd. destruct (Nat.eqb_spec x k); congruence. Qed.
Lemma upd_cases {B} (f : nat -> option B) k v x y : upd f k v x = y -> (x = k /\ v = y) \/ (x <> k /\ f x = y).
Proof. intros H. destruct (Nat.eq_dec x k) as [->|N]; [rewrite upd_same in H|rewrite upd_other in H by auto]; auto. Qed.
Lemma remove1_In x o l : In x (remove1 o l) -> In x l.
Proof. induction l as [|y l IH]; cbn; auto. destruct (y =? o); cbn; tauto. Qed.
Lemma remove_entry_In e o h l : In e (remove_entry o h l) -> In e l.
Proof. induction l as [|[x y] l IH]; cbn; auto. destruct ((x =? o) && (y =? h)); cbn; tauto. Qed.
Lemma snoc_split {B} (tr : list B) l pre x post : tr ++ [l] = pre ++ x :: post -> (post = [] /\ x = l /\ pre = tr) \/ exists post', post = post' ++ [l] /\ tr = pre ++ x :: post'.
Proof.
  intros H. destruct post as [|y post] using rev_ind.
  - left. apply app_inj_tail in H. destruct H. auto.
  - right. exists post. change (x :: post ++ [y]) with ((x :: post) ++ [y]) in H. rewrite app_assoc in H. apply app_inj_tail in H. destruct H as [-> ->]. auto.
Qed.
Ltac frames_inv H := apply upd_cases in H; destruct H as [[? H]|[? H]]; [subst; try discriminate; try (injection H as ?; subst)|].
Lemma In_snoc {B} (x : B) tr l : In x (tr ++ [l]) <-> In x tr \/ x = l.
Proof. rewrite in_app_iff. cbn. intuition congruence. Qed.

(** Objects that exist. *)
Lemma exists_inv tr s : runs tr s -> (forall o, In o (refs s) -> o < objs s) /\ (forall o, cache s = Some o -> o < objs s) /\
  (forall t f, frames s t = Some f -> frame_obj f < objs s).
Proof.
  induction 1 as [|tr s l s' R (I1 & I2 & I3) St]; [cbn; repeat split; intros; try contradiction; discriminate|].
  assert (M : forall t k o h, frames s t = Some (FMade k o h) -> o < objs s) by (intros t k o h H; apply (I3 t _ H)).
  assert (M2 : forall t k o, frames s t = Some (FInit k o) -> o < objs s) by (intros t k o H; apply (I3 t _ H)).
  destruct St; cbn [objs refs cache frames]; split; [|split| |split| |split| |split| |split| |split| |split| |split| |split| |split| |split| |split| |split| |split| |split];
    intros; try (match goal with H : upd _ _ _ _ = Some _ |- _ => frames_inv H; cbn [frame_obj] end);
    try (match goal with H : In _ (remove1 _ _) |- _ => apply remove1_In in H end); eauto; try lia;
    try (match goal with H : In ?x (_ :: _) |- _ => destruct H as [<-|H]; eauto end);
    try (match goal with H : _ |- ?x < S _ => apply Nat.lt_lt_succ_r; eauto end); try congruence.
  - destruct k; eauto; destruct H1 as [<-|H1]; eauto.
  - destruct k, (cache s); eauto; injection H1 as <-; eauto.
Qed.
(** Once unreachable, always unreachable. *)
Lemma unreachable_stays s l s' o : step s l s' -> unreachable s o -> o < objs s -> unreachable s' o.
Proof.
  intros St (U1 & U2 & U3) B. assert (I3 : forall t f, frames s t = Some f -> frame_obj f <> o) by exact U3.
  destruct St; unfold unreachable; cbn [refs cache frames]; (split; [|split]); auto; try (intros; discriminate);
    try (intros t' f' Hf; frames_inv Hf; cbn [frame_obj]; try lia; try congruence; eauto);
    try (intros [<-|F]; [|contradiction]; congruence); try (intros F; apply remove1_In in F; contradiction).
  - apply (I3 _ _ H).
  - destruct k; auto; intros [<-|F]; try contradiction; apply (I3 _ _ H); reflexivity.
  - destruct k, (cache s); try congruence; intros F; injection F as <-; apply (I3 _ _ H); reflexivity.
Qed.
(** At most one thread is inside __init__ of an object. *)
Definition is_init (f : frame) : Prop := match f with FCall _ _ => False | _ => True end.
Lemma one_init tr s : runs tr s -> forall t t' f f', frames s t = Some f -> frames s t' = Some f' -> is_init f -> is_init f' -> frame_obj f = frame_obj f' -> t = t'.
Proof.
  induction 1 as [|tr s l s' R IH St]; [cbn; discriminate|]. destruct (exists_inv _ _ R) as (_ & _ & I3).
  intros t1 t2 f1 f2 H1 H2 J1 J2 E.
  assert (N : forall t f, frames s t = Some f -> frame_obj f <> objs s) by (intros t f H; pose proof (I3 t f H); lia).
  destruct St; cbn [frames] in *; try (eapply IH; eassumption);
    frames_inv H1; frames_inv H2; cbn [frame_obj is_init] in *; auto; try contradiction; try (exfalso; eapply N; solve [eauto]);
    try solve [eapply IH; [eassumption|eassumption|exact I || assumption|exact I || assumption|cbn [frame_obj]; assumption]].
  - exfalso. match goal with G : forall t f, _ -> _ -> exists h, _ |- _ => destruct (G _ _ H2 (eq_sym E)) as (h & ->) end. exact J2.
  - exfalso. match goal with G : forall t f, _ -> _ -> exists h, _ |- _ => destruct (G _ _ H1 E) as (h & ->) end. exact J1.
Qed.

(** Creations. *)
Lemma created_inv tr s : runs tr s ->
  (forall t o h, In (LCreate t o h) tr -> h < made s /\ o < objs s) /\
  (forall t o h t' o', In (LCreate t o h) tr -> In (LCreate t' o' h) tr -> t = t' /\ o = o').
Proof.
  induction 1 as [|tr s l s' R (I1 & I2) St]; [cbn; tauto|]. destruct (exists_inv _ _ R) as (_ & _ & I3).
  assert (MO : made s <= made s' /\ objs s <= objs s') by (destruct St; cbn [made objs]; lia).
  assert (NEW : forall t o h, l = LCreate t o h -> h = made s /\ made s' = S (made s) /\ o < objs s).
  { intros t o h ->. inversion St; subst; cbn [made]. repeat split; auto. match goal with G : frames s _ = Some _ |- _ => apply (I3 _ _ G) end. }
  split.
  - intros t o h H. apply In_snoc in H. destruct H as [H|H]; [apply I1 in H; lia|]. destruct (NEW _ _ _ (eq_sym H)) as (-> & E & ?). lia.
  - intros t o h t' o' H H'. apply In_snoc in H, H'. destruct H as [H|H], H' as [H'|H']; [eapply I2; eassumption| | |split; congruence].
    + destruct (NEW _ _ _ (eq_sym H')) as (-> & _). apply I1 in H. lia.
    + destruct (NEW _ _ _ (eq_sym H)) as (-> & _). apply I1 in H'. lia.
Qed.
(** Fields, running constructors, running calls and finalizers hold contexts created for their object. *)
Lemma owner_inv tr s : runs tr s ->
  (forall o h, field s o = Some h -> exists t, In (LCreate t o h) tr) /\
  (forall o h, In (o, h) (registry s) -> exists t, In (LCreate t o h) tr) /\
  (forall t o h, frames s t = Some (FCall o h) -> exists t', In (LCreate t' o h) tr) /\
  (forall t k o h, frames s t = Some (FMade k o h) -> field s o = Some h /\
     exists p1 p2, tr = p1 ++ LCreate t o h :: p2 /\ forall k' o' h', ~ In (LDone t k' o' h') p2).
Proof.
  induction 1 as [|tr s l s' R (I1 & I2 & I3 & I4) St]; [cbn; repeat split; intros; try contradiction; discriminate|].
  pose proof (one_init _ _ R) as OI.
  assert (EX : forall o h, (exists t, In (LCreate t o h) tr) -> exists t, In (LCreate t o h) (tr ++ [l])) by (intros o h (t & H); exists t; apply In_snoc; auto).
  split; [|split; [|split]].
  - intros o h H. destruct St; cbn [field] in H; eauto. frames_inv H; eauto. exists t. apply In_snoc. auto.
  - intros o h H. destruct St; cbn [registry] in H; eauto.
    + destruct H as [H|H]; eauto. injection H as <- <-. eauto.
    + apply remove_entry_In in H. eauto.
  - intros t o h H. destruct St; cbn [frames] in H; eauto; frames_inv H; eauto.
  - intros t k o h H.
    assert (KEEP : frames s t = Some (FMade k o h) -> (forall k' o' h', l <> LDone t k' o' h') ->
      exists p1 p2, tr ++ [l] = p1 ++ LCreate t o h :: p2 /\ forall k' o' h', ~ In (LDone t k' o' h') p2).
    { intros F N. destruct (I4 _ _ _ _ F) as (_ & p1 & p2 & -> & HN). exists p1, (p2 ++ [l]). split; [rewrite <- app_assoc; reflexivity|].
      intros k' o' h' X. apply In_snoc in X. destruct X as [X|X]; [eapply HN; eauto|]. eapply N; eauto. }
    assert (FLD : frames s t = Some (FMade k o h) -> field s o = Some h) by (intros F; apply (I4 _ _ _ _ F)).
    destruct St; cbn [frames field] in *; try (split; [apply FLD; auto|apply KEEP; auto; intros; discriminate]);
      try (frames_inv H; split; [apply FLD; auto|apply KEEP; auto; intros; discriminate]).
    + frames_inv H.
      * split; [apply upd_same|]. exists tr, []. auto.
      * split; [|apply KEEP; auto; intros; discriminate]. rewrite upd_other; auto. intros ->. assert (X := OI _ _ _ _ H0 H I I eq_refl). congruence.
    + frames_inv H. split; [apply FLD; auto|apply KEEP; auto]. intros k' o' h' X. injection X as -> _ _ _. contradiction.
Qed.
Lemma exit_inv tr s : runs tr s -> (exiting s = true <-> In LExit tr).
Proof.
  induction 1 as [|tr s l s' R IH St]; [cbn; intuition discriminate|]. rewrite In_snoc. destruct St; cbn [exiting]; rewrite ?IH; intuition discriminate.
Qed.
(** Finalizers run only for objects that are gone, or at exit. *)
Lemma finalized_inv tr s : runs tr s -> forall h, In h (doomed s) \/ In (LDestroy h) tr ->
  exists t o, In (LCreate t o h) tr /\ (unreachable s o \/ exiting s = true).
Proof.
  induction 1 as [|tr s l s' R IH St]; [cbn; tauto|]. intros h H.
  assert (OLD : In h (doomed s) \/ In (LDestroy h) tr -> exists t o, In (LCreate t o h) (tr ++ [l]) /\ (unreachable s' o \/ exiting s' = true)).
  { intros D. destruct (IH h D) as (t & o & C & U). exists t, o. split; [apply In_snoc; auto|]. destruct U as [U|U].
    - left. eapply unreachable_stays; eauto. apply (proj1 (created_inv _ _ R) _ _ _ C).
    - right. destruct St; auto. }
  rewrite In_snoc in H. assert (EQ : doomed s' = doomed s /\ (forall x, l <> LDestroy x) \/ (exists o x, l = LFinalize o x /\ doomed s' = x :: doomed s) \/ (exists x, l = LDestroy x /\ In x (doomed s) /\ doomed s' = remove1 x (doomed s))).
  { destruct St; cbn [doomed]; eauto 6; left; split; auto; discriminate. }
  destruct EQ as [[E N]|[(o & x & -> & E)|(x & -> & Hx & E)]]; rewrite E in H.
  - apply OLD. destruct H as [H|[H|H]]; auto. exfalso. eapply N; eauto.
  - destruct H as [[<-|H]|[H|H]]; auto; try discriminate. inversion St; subst. match goal with G : In (o, x) (registry s), U : _ \/ _ |- _ => destruct (proj1 (proj2 (owner_inv _ _ R)) _ _ G) as (t & C); exists t, o; split; [apply In_snoc; auto|destruct U; auto] end.
  - apply OLD. destruct H as [H|[H|H]]; auto; [apply remove1_In in H; auto|]. injection H as ->. auto.
Qed.
(** A call in progress is a running frame. *)
Lemma call_inv tr s : runs tr s -> forall t h, in_call tr t h -> exists o, frames s t = Some (FCall o h).
Proof.
  induction 1 as [|tr s l s' R IH St]; intros t h (p1 & o & p2 & E & N); [destruct p1; discriminate|].
  apply snoc_split in E. destruct E as [(-> & <- & ->)|(p2' & -> & E)].
  - inversion St; subst; cbn [frames]. exists o. apply upd_same.
  - assert (C : in_call tr t h) by (exists p1, o, p2'; split; auto; intros o' h' X; apply (N o' h'); apply In_snoc; auto).
    destruct (IH _ _ C) as (o1 & F). exists o1. assert (NL : forall o' h', l <> LReturn t o' h') by (intros o' h' ->; apply (N o' h'); apply In_snoc; auto).
    destruct St; cbn [frames]; auto; (destruct (Nat.eq_dec t t0) as [->|NT]; [try congruence|rewrite upd_other; auto]).
    exfalso. eapply NL; reflexivity.
Qed.

(** Every context is in one place: owned by a finalizer, waiting for its destroy call, or destroyed (once). *)
Definition occ (s : py) (tr : list label) (h : nat) : nat :=
  count_occ Nat.eq_dec (map snd (registry s)) h + count_occ Nat.eq_dec (doomed s) h + destroys tr h.
Lemma destroys_snoc tr l h : destroys (tr ++ [l]) h = destroys tr h + match l with LDestroy x => if x =? h then 1 else 0 | _ => 0 end.
Proof. unfold destroys. rewrite filter_app, app_length. f_equal. cbn. destruct l; auto. destruct (h0 =? h); auto. Qed.
Lemma destroys_pos tr h : In (LDestroy h) tr -> 0 < destroys tr h.
Proof.
  intros H. unfold destroys. assert (X : In (LDestroy h) (filter (fun l => match l with LDestroy x => x =? h | _ => false end) tr)) by (apply filter_In; split; auto; apply Nat.eqb_refl).
  destruct (filter _ tr); [contradiction|cbn; lia].
Qed.
Lemma destroys_none tr h : ~ In (LDestroy h) tr -> destroys tr h = 0.
Proof.
  intros H. unfold destroys. destruct (filter (fun l => match l with LDestroy x => x =? h | _ => false end) tr) as [|x l] eqn:E; auto.
  exfalso. apply H. assert (X : In x (x :: l)) by (left; auto). rewrite <- E in X. apply filter_In in X. destruct X as [X Y]. destruct x; try discriminate. apply Nat.eqb_eq in Y. subst. exact X.
Qed.
Lemma count_remove1 x l h : In x l -> count_occ Nat.eq_dec (remove1 x l) h + (if x =? h then 1 else 0) = count_occ Nat.eq_dec l h.
Proof.
  induction l as [|y l IH]; [contradiction|]. intros [->|H]; cbn.
  - rewrite Nat.eqb_refl. destruct (Nat.eq_dec x h), (Nat.eqb_spec x h); try congruence; lia.
  - destruct (Nat.eqb_spec y x) as [->|N]; cbn; [destruct (Nat.eq_dec x h), (Nat.eqb_spec x h); try congruence; lia|].
    specialize (IH H). destruct (Nat.eq_dec y h); lia.
Qed.
Lemma count_remove_entry o x l h : In (o, x) l -> count_occ Nat.eq_dec (map snd (remove_entry o x l)) h + (if x =? h then 1 else 0) = count_occ Nat.eq_dec (map snd l) h.
Proof.
  induction l as [|[a b] l IH]; [contradiction|]. intros [E|H]; cbn [remove_entry].
  - injection E as -> ->. rewrite !Nat.eqb_refl. cbn [andb map snd count_occ]. destruct (Nat.eq_dec x h), (Nat.eqb_spec x h); try congruence; lia.
  - specialize (IH H). destruct (Nat.eqb_spec a o) as [->|N], (Nat.eqb_spec b x) as [->|M]; cbn [andb map snd count_occ].
    + destruct (Nat.eq_dec x h), (Nat.eqb_spec x h); try congruence; lia.
    + destruct (Nat.eq_dec b h); lia.
    + destruct (Nat.eq_dec x h); lia.
    + destruct (Nat.eq_dec b h); lia.
Qed.
Lemma occ_step tr s l s' h : step s l s' ->
  occ s' (tr ++ [l]) h = occ s tr h + match l with LDone _ _ _ x => if x =? h then 1 else 0 | _ => 0 end.
Proof.
  intros St. unfold occ. rewrite destroys_snoc. destruct St; cbn [registry doomed]; try lia.
  - cbn [map snd count_occ]. destruct (Nat.eq_dec h1 h), (Nat.eqb_spec h1 h); try congruence; lia.
  - match goal with G : In _ (registry s) |- _ => pose proof (count_remove_entry _ _ _ h G) end. cbn [count_occ]. destruct (Nat.eq_dec h0 h), (Nat.eqb_spec h0 h); try congruence; lia.
  - match goal with G : In _ (doomed s) |- _ => pose proof (count_remove1 _ _ h G) end. lia.
Qed.
Lemma lost_more tr l h : lost tr h -> lost (tr ++ [l]) h.
Proof. intros (p1 & t & o & p2 & p3 & -> & N). exists p1, t, o, p2, (p3 ++ [l]). split; auto. repeat (rewrite <- ?app_assoc, <- ?app_comm_cons; cbn). reflexivity. Qed.
Lemma count_inv tr s : runs tr s -> forall h,
  occ s tr h <= 1 /\ (made s <= h -> occ s tr h = 0) /\ (forall t k o, frames s t = Some (FMade k o h) -> occ s tr h = 0) /\
  (forall t o, In (LCreate t o h) tr -> occ s tr h = 1 \/ (lost tr h /\ occ s tr h = 0) \/ exists k, frames s t = Some (FMade k o h)).
Proof.
  induction 1 as [|tr s l s' R IH St]; intros h; [cbn; repeat split; intros; try discriminate; try contradiction; lia|].
  destruct (owner_inv _ _ R) as (_ & _ & _ & I4). destruct (created_inv _ _ R) as (CB & CU).
  destruct (IH h) as (A & B & C & D). pose proof (occ_step tr s l s' h St) as OS. set (n := occ s tr h) in *. set (n' := occ s' (tr ++ [l]) h) in *. clearbody n n'.
  assert (MK : forall t k o x, frames s t = Some (FMade k o x) -> In (LCreate t o x) tr).
  { intros t k o x F. destruct (I4 _ _ _ _ F) as (_ & p1 & p2 & -> & _). apply in_or_app. right. left. reflexivity. }
  assert (MO : made s <= made s') by (destruct St; cbn [made]; lia).
  (* the only step that adds a place: the constructor's end *)
  assert (DN : forall t k o x, l = LDone t k o x -> frames s t = Some (FMade k o x) /\ frames s' t = None).
  { intros t k o x ->. inversion St; subst. match goal with G : frames s t = Some (FMade k o ?z), E : field s o = Some x |- _ => destruct (I4 _ _ _ _ G) as (E2 & _); rewrite E in E2; injection E2 as <- end. split; auto. cbn [frames]. apply upd_same. }
  destruct (match l with LDone t k o x => x =? h | _ => false end) eqn:ED.
  - destruct l as [| | | | | |t k o x| | | | | | | |]; try discriminate. rewrite ED in OS. apply Nat.eqb_eq in ED. destruct (DN _ _ _ _ eq_refl) as [F F']. rewrite ED in *.
    rewrite (C _ _ _ F) in OS. repeat split; try lia.
    + intros X. pose proof (CB _ _ _ (MK _ _ _ _ F)). lia.
    + intros t' k' o' F2. exfalso. inversion St; subst. cbn [frames] in F2. frames_inv F2. destruct (CU _ _ _ _ _ (MK _ _ _ _ F) (MK _ _ _ _ F2)) as [E _]. congruence.
  - assert (E : n' = n) by (destruct l; try lia; rewrite ED in OS; lia). rewrite E. repeat split; auto.
    + intros X. apply B. lia.
    + intros t k o F. destruct St; cbn [frames] in F; try (eapply C; solve [eauto]); frames_inv F; try (eapply C; solve [eauto]). apply B. lia.
    + intros t o HC. apply In_snoc in HC. destruct HC as [HC|HC].
      * destruct (D _ _ HC) as [X|[(X & Y)|(k & X)]]; auto; [right; left; split; auto; apply lost_more; auto|].
        destruct St; cbn [frames] in *; try (right; right; exists k; solve [auto]); (destruct (Nat.eq_dec t t0) as [->|NT]; [|right; right; exists k; rewrite upd_other; solve [auto]]); try congruence.
        -- right. left. split; [|apply (C _ _ _ X)]. destruct (I4 _ _ _ _ X) as (_ & p1 & p2 & EQ & N). exists p1, t0, o, p2, []. split; auto. rewrite EQ, <- app_assoc. reflexivity.
        -- destruct (DN _ _ _ _ eq_refl) as [F _]. rewrite X in F. injection F as -> -> ->. rewrite Nat.eqb_refl in ED. discriminate.
      * subst l. inversion St; subst. right. right. exists k. cbn [frames]. apply upd_same.
Qed.

(** ** C60.  Whatever the threads do, as long as no native call is running or made while the interpreter exits, native contexts are used only while they live,
    and destroyed only when no call on them is in progress. *)
Theorem C60_python_lifetime tr s : runs tr s ->
  (forall pre post, tr = pre ++ LExit :: post -> (forall t h, ~ in_call pre t h) /\ forall t o h, ~ In (LCall t o h) post) ->
  respects_contract tr.
Proof.
  intros R. induction R as [|tr s l s' R IH St]; intros HE; [intros pre l post E; destruct pre; discriminate|].
  assert (HE' : forall pre post, tr = pre ++ LExit :: post -> (forall t h, ~ in_call pre t h) /\ forall t o h, ~ In (LCall t o h) post).
  { intros pre post ->. destruct (HE pre (post ++ [l])) as [A B]; [rewrite <- app_assoc; reflexivity|]. split; auto. intros t o h X. apply (B t o h). apply In_snoc; auto. }
  intros pre x post E. apply snoc_split in E. destruct E as [(-> & -> & ->)|(post' & -> & E)]; [|apply (IH HE' pre x post'); auto].
  destruct (owner_inv _ _ R) as (I1 & I2 & I3 & _). destruct (created_inv _ _ R) as (_ & CU).
  assert (QUIET : exiting s = true -> (forall t h, ~ in_call tr t h) /\ forall t o h, l <> LCall t o h).
  { intros X. apply (exit_inv _ _ R) in X. apply in_split in X. destruct X as (p & q & EQ). destruct (HE' p q EQ) as [A B]. split.
    - intros t h (p1 & o & p2 & E1 & N). apply (A t h).
      assert (SP : exists q', p = p1 ++ LCall t o h :: q' /\ incl q' p2).
      { rewrite EQ in E1. clear - E1 B. revert p1 E1. induction p as [|y p IHp]; intros p1 E1.
        - exfalso. destruct p1 as [|z p1]; [discriminate|]. injection E1 as _ ->. apply (B t o h). apply in_or_app. right. left. reflexivity.
        - destruct p1 as [|z p1]; injection E1 as -> E2.
          + exists p. split; auto. rewrite <- E2. intros z Hz. apply in_or_app. auto.
          + destruct (IHp p1 E2) as (q' & -> & I). exists q'. auto. }
      destruct SP as (q' & -> & I). exists p1, o, q'. split; auto. intros o' h' X. apply (N o' h'). auto.
    - intros t o h ->. destruct (HE p (q ++ [LCall t o h])) as [_ C]; [rewrite EQ, <- app_assoc; reflexivity|]. apply (C t o h). apply In_snoc; auto. }
  destruct l; auto.
  - inversion St; subst. match goal with G : field s o = Some h |- _ => destruct (I1 _ _ G) as (t' & C) end. split; [eauto|].
    intros D. destruct (finalized_inv _ _ R h (or_intror D)) as (t2 & o2 & C2 & U). destruct (CU _ _ _ _ _ C C2) as [_ <-]. destruct U as [(U & _)|U]; [contradiction|].
    destruct (QUIET U) as [_ Q]. eapply Q; eauto.
  - inversion St; subst. match goal with G : In h (doomed s) |- _ => pose proof (finalized_inv _ _ R h (or_introl G)) as (t & o & C & U) end. split; [split; [eauto|]|].
    + intros D. pose proof (proj1 (count_inv _ _ R h)) as B. pose proof (destroys_pos _ _ D). match goal with G : In h (doomed s) |- _ => apply (count_occ_In Nat.eq_dec) in G end. unfold occ in B. lia.
    + intros t1 X. destruct U as [(_ & _ & U)|U]; [|apply (proj1 (QUIET U) t1 h); auto].
      destruct (call_inv _ _ R _ _ X) as (o1 & F). destruct (I3 _ _ _ F) as (t2 & C2). destruct (CU _ _ _ _ _ C C2) as [_ <-]. apply (U _ _ F). reflexivity.
Qed.
(** While the interpreter runs, unconditionally. *)
Theorem C60_no_use_after_free tr s : runs tr s -> ~ In LExit tr -> respects_contract tr.
Proof. intros R N. apply (C60_python_lifetime tr s R). intros pre post ->. exfalso. apply N. apply in_or_app. right. left. reflexivity. Qed.

(** A context is destroyed only when its object is gone for good: nothing of the program, the cache or a running method refers to it, now or later. *)
Theorem C60_destroyed_only_when_gone tr s t o h : runs tr s -> ~ In LExit tr -> In (LCreate t o h) tr -> In (LDestroy h) tr -> unreachable s o.
Proof.
  intros R N C D. destruct (finalized_inv _ _ R h (or_intror D)) as (t' & o' & C' & U). destruct (proj2 (created_inv _ _ R) _ _ _ _ _ C C') as [_ <-].
  destruct U as [U|U]; auto. apply (exit_inv _ _ R) in U. contradiction.
Qed.

(** At any time a context has been destroyed at most once; if it has not been destroyed, a finalizer owns it, its destroy call is due, its constructor is running, or
    an exception hit that constructor. *)
Theorem C60_accounted tr s t o h : runs tr s -> In (LCreate t o h) tr ->
  destroys tr h <= 1 /\
  (destroys tr h = 0 -> lost tr h \/ In (o, h) (registry s) \/ In h (doomed s) \/ exists k, frames s t = Some (FMade k o h)).
Proof.
  intros R C. destruct (count_inv _ _ R h) as (A & _ & _ & D). split; [unfold occ in A; lia|]. intros Z.
  destruct (D _ _ C) as [X|[(X & _)|X]]; auto. unfold occ in X. rewrite Z in X.
  destruct (in_dec Nat.eq_dec h (doomed s)) as [Y|Y]; auto. apply (count_occ_not_In Nat.eq_dec) in Y.
  assert (IR : In h (map snd (registry s))) by (apply (count_occ_In Nat.eq_dec); lia). apply in_map_iff in IR. destruct IR as ([o' h'] & E & IR). cbn in E. subst h'.
  destruct (proj1 (proj2 (owner_inv _ _ R)) _ _ IR) as (t' & C'). destruct (proj2 (created_inv _ _ R) _ _ _ _ _ C C') as [_ <-]. auto.
Qed.
(** When the program has ended and the exit handlers have finished, every context has been destroyed exactly once, except those an exception lost. *)
Theorem C60_destroyed_exactly_once tr s t o h : runs tr s -> finished s -> In (LCreate t o h) tr -> destroys tr h = 1 \/ (lost tr h /\ destroys tr h = 0).
Proof.
  intros R (F1 & F2 & F3) C. destruct (C60_accounted tr s t o h R C) as [A B]. destruct (Nat.eq_dec (destroys tr h) 0) as [Z|Z]; [|left; lia].
  destruct (B Z) as [L|[L|[L|(k & L)]]]; auto; exfalso.
  - rewrite F1 in L. contradiction.
  - rewrite F2 in L. contradiction.
  - rewrite F3 in L. discriminate.
Qed.
(** The exit handlers do finish: they make at most two steps per finalizer, and cannot stop before every finalizer has run. *)
Inductive follows (s : py) : list label -> py -> Prop :=
  | follows_nil : follows s [] s
  | follows_cons l s1 ls s2 : step s l s1 -> follows s1 ls s2 -> follows s (l :: ls) s2.
Definition cleanup (l : label) : Prop := match l with LFinalize _ _ | LDestroy _ => True | _ => False end.
Lemma remove_entry_length o h l : In (o, h) l -> S (length (remove_entry o h l)) = length l.
Proof.
  induction l as [|[x y] l IH]; [contradiction|]. intros [E|H]; cbn.
  - injection E as -> ->. rewrite !Nat.eqb_refl. reflexivity.
  - destruct ((x =? o) && (y =? h)); cbn; auto.
Qed.
Lemma remove1_length o l : In o l -> S (length (remove1 o l)) = length l.
Proof. induction l as [|x l IH]; [contradiction|]. intros [E|H]; cbn; [subst; rewrite Nat.eqb_refl; reflexivity|]. destruct (x =? o); cbn; auto. Qed.
Lemma cleanup_measure s l s' : step s l s' -> cleanup l -> exiting s' = exiting s /\ S (2 * length (registry s') + length (doomed s')) = 2 * length (registry s) + length (doomed s).
Proof.
  intros St C. destruct St; try contradiction; cbn [registry doomed exiting length]; split; auto.
  - pose proof (remove_entry_length _ _ _ H). lia.
  - pose proof (remove1_length _ _ H). lia.
Qed.
Theorem C60_exit_finishes s : exiting s = true ->
  (exists ls s', follows s ls s' /\ Forall cleanup ls /\ registry s' = [] /\ doomed s' = []) /\
  (forall ls s', follows s ls s' -> Forall cleanup ls -> length ls <= 2 * length (registry s) + length (doomed s) /\
     ((forall l s2, cleanup l -> ~ step s' l s2) -> registry s' = [] /\ doomed s' = [])).
Proof.
  intros X. split.
  - remember (2 * length (registry s) + length (doomed s)) as n eqn:E. revert s X E. induction n as [n IH] using lt_wf_ind. intros s X E.
    destruct (doomed s) as [|h d] eqn:ED; [destruct (registry s) as [|[o h] r] eqn:ER|].
    + exists [], s. repeat split; auto; constructor.
    + assert (St := S_finalize s o h ltac:(rewrite ER; left; reflexivity) (or_intror X)). match type of St with step _ _ ?z => remember z as s1 eqn:Z1; clear Z1 end. destruct (cleanup_measure _ _ _ St I) as [X1 M]. rewrite ER, ED in M. cbn [length] in M, E.
      match type of M with S ?m = _ => destruct (IH m ltac:(lia) _ (eq_trans X1 X) eq_refl) as (ls & s' & F & C & R1 & R2) end. exists (LFinalize o h :: ls), s'. repeat split; auto; [econstructor; eauto|constructor; [exact I|auto]].
    + assert (St := S_destroy s h ltac:(rewrite ED; left; reflexivity)). match type of St with step _ _ ?z => remember z as s1 eqn:Z1; clear Z1 end. destruct (cleanup_measure _ _ _ St I) as [X1 M]. rewrite ED in M. cbn [length] in M, E.
      match type of M with S ?m = _ => destruct (IH m ltac:(lia) _ (eq_trans X1 X) eq_refl) as (ls & s' & F & C & R1 & R2) end. exists (LDestroy h :: ls), s'. repeat split; auto; [econstructor; eauto|constructor; [exact I|auto]].
  - intros ls s' F. revert X. induction F as [s|s l s1 ls s2 St F IH]; intros X C.
    + split; [cbn; lia|]. intros N. split.
      * destruct (registry s) as [|[o h] r] eqn:ER; auto. exfalso. apply (N (LFinalize o h) _ I (S_finalize s o h ltac:(rewrite ER; left; reflexivity) (or_intror X))).
      * destruct (doomed s) as [|h d] eqn:ED; auto. exfalso. apply (N (LDestroy h) _ I (S_destroy s h ltac:(rewrite ED; left; reflexivity))).
    + inversion C; subst. destruct (cleanup_measure _ _ _ St H1) as [X1 M]. rewrite X in X1. destruct (IH X1 H2) as [A B]. split; auto. cbn [length]. lia.
Qed.

(** ** The default context. *)
Definition get_frame (f : frame) : Prop := match f with FInit KGet _ | FMade KGet _ _ => True | _ => False end.
Lemma get_frame_in_get tr s : runs tr s -> forall t f, frames s t = Some f -> get_frame f ->
  exists p1 o p2, tr = p1 ++ LGetMiss t o :: p2 /\ ~ In (LInterrupt t) p2 /\ forall k o' h', ~ In (LDone t k o' h') p2.
Proof.
  induction 1 as [|tr s l s' R IH St]; [cbn; discriminate|]. intros t f F G.
  assert (KEEP : forall f0, frames s t = Some f0 -> get_frame f0 -> l <> LInterrupt t -> (forall k o h, l <> LDone t k o h) ->
    exists p1 o p2, tr ++ [l] = p1 ++ LGetMiss t o :: p2 /\ ~ In (LInterrupt t) p2 /\ forall k o' h', ~ In (LDone t k o' h') p2).
  { intros f0 F0 G0 N1 N2. destruct (IH t f0 F0 G0) as (p1 & o & p2 & -> & A & B). exists p1, o, (p2 ++ [l]). split; [rewrite <- app_assoc; reflexivity|]. split.
    - intros Y. apply In_snoc in Y. destruct Y; auto.
    - intros k o' h' Y. apply In_snoc in Y. destruct Y as [Y|Y]; [eapply B; eauto|]. eapply N2; eauto. }
  destruct St; cbn [frames] in F; try (eapply KEEP; [eassumption|auto|discriminate|intros; discriminate]); frames_inv F; try contradiction;
    try (eapply KEEP; [eassumption|auto|congruence|intros; congruence]).
  exists tr, (objs s), []. repeat split; auto.
Qed.
(** [get()] is a singleton if no thread calls it while another one is still building the context (and nobody clears the cache): every call returns the same
    object, whose context lives until the interpreter exits. *)
Theorem C60_get_singleton tr s o1 o2 : runs tr s -> ~ In LClear tr -> (forall pre t o post, tr = pre ++ LGetMiss t o :: post -> ~ in_get pre) ->
  get_result tr o1 -> get_result tr o2 ->
  o1 = o2 /\ forall t h, ~ In LExit tr -> In (LCreate t o1 h) tr -> ~ In (LDestroy h) tr.
Proof.
  intros R NC NO.
  assert (INV : (forall o, get_result tr o -> cache s = Some o) /\ (forall t f, frames s t = Some f -> get_frame f -> cache s = None) /\
    (forall t t' f f', frames s t = Some f -> get_frame f -> frames s t' = Some f' -> get_frame f' -> t = t')).
  { induction R as [|tr s l s' R IH St].
    - repeat split; cbn; try discriminate. intros o (t & [[]|(h & [])]).
    - destruct IH as (A & B & C).
      { intros X. apply NC. apply In_snoc. auto. }
      { intros pre t o post ->. apply (NO pre t o (post ++ [l])). rewrite <- app_assoc. reflexivity. }
      assert (GR : forall o, get_result (tr ++ [l]) o -> get_result tr o \/ (exists t, l = LGetHit t o) \/ exists t h, l = LDone t KGet o h).
      { intros o (t & [X|(h & X)]); apply In_snoc in X; destruct X as [X|X]; eauto; left; exists t; eauto. }
      assert (MISS : forall t o, l = LGetMiss t o -> forall t' f, frames s t' = Some f -> ~ get_frame f).
      { intros t o -> t' f F G. apply (NO tr t o []); auto. destruct (get_frame_in_get _ _ R _ _ F G) as (p1 & o' & p2 & E). exists p1, t', o', p2. exact E. }
      assert (OLD : cache s' = cache s -> (forall o, get_result (tr ++ [l]) o -> get_result tr o) -> forall o, get_result (tr ++ [l]) o -> cache s' = Some o)
        by (intros E E2 o G; rewrite E; apply A; apply E2; auto).
      assert (SAME : (forall t o, l <> LGetHit t o) -> (forall t k o h, l <> LDone t k o h) -> forall o, get_result (tr ++ [l]) o -> get_result tr o).
      { intros N1 N2 o G. destruct (GR o G) as [G'|[(t & E)|(t & h & E)]]; auto; exfalso; [eapply N1|eapply N2]; eauto. }
      (* frames: the same get frames as before, or one less, or (after a miss) the first one *)
      assert (FR : cache s' = cache s -> (forall t f, frames s' t = Some f -> get_frame f -> exists f0, frames s t = Some f0 /\ get_frame f0) ->
        (forall t f, frames s' t = Some f -> get_frame f -> cache s' = None) /\
        (forall t t' f f', frames s' t = Some f -> get_frame f -> frames s' t' = Some f' -> get_frame f' -> t = t')).
      { intros E W. split.
        - intros t f F G. destruct (W t f F G) as (f0 & F0 & G0). rewrite E. eapply B; eauto.
        - intros t t' f f' F G F' G'. destruct (W t f F G) as (f0 & F0 & G0). destruct (W t' f' F' G') as (f1 & F1 & G1). eapply C; eauto. }
      destruct St; try (exfalso; apply NC; apply In_snoc; auto; fail).
      all: try (split; [apply OLD; [reflexivity|apply SAME; intros; discriminate]|apply FR; [reflexivity|cbn [frames]; intros t1 f1 F1 G1; try (frames_inv F1; try contradiction); eauto]]; fail).
      + (* hit *) split; [|apply FR; [reflexivity|cbn [frames]; eauto]]. intros x G. cbn [cache]. destruct (GR x G) as [G'|[(t' & E)|(t' & h' & E)]]; auto; [|discriminate]. injection E as _ <-. auto.
      + (* miss *) split; [apply OLD; [reflexivity|apply SAME; intros; discriminate]|]. cbn [cache frames]. pose proof (MISS _ _ eq_refl) as M. split; [auto|].
        intros t1 t2 f1 f2 F1 G1 F2 G2. frames_inv F1; [|exfalso; eapply M; eauto]. frames_inv F2; [auto|exfalso; eapply M; eauto].
      + (* done *)
        assert (KG : k = KGet -> cache s = None) by (intros ->; match goal with F : frames s t = Some (FMade KGet _ _) |- _ => apply (B _ _ F I) end).
        destruct (match k with KGet => true | _ => false end) eqn:EK.
        * destruct k; try discriminate. specialize (KG eq_refl). cbn [cache frames]. rewrite KG. split; [|split].
          -- intros x G. destruct (GR x G) as [G'|[(t' & E)|(t' & h' & E)]]; [apply A in G'; congruence|discriminate|]. inversion E; subst. reflexivity.
          -- intros t1 f1 F1 G1. frames_inv F1. exfalso. match goal with F : frames s t = Some (FMade KGet _ _) |- _ => pose proof (C _ _ _ _ F I F1 G1) end. congruence.
          -- intros t1 t2 f1 f2 F1 G1 F2 G2. frames_inv F1. exfalso. match goal with F : frames s t = Some (FMade KGet _ _) |- _ => pose proof (C _ _ _ _ F I F1 G1) end. congruence.
        * assert (EC : match k with KGet => match cache s with Some c => Some c | None => Some o end | _ => cache s end = cache s) by (destruct k; auto; discriminate).
          split; [apply OLD; [exact EC|]|apply FR; [exact EC|cbn [frames]]].
          -- intros x G. destruct (GR x G) as [G'|[(t' & E)|(t' & h' & E)]]; auto; [discriminate|]. destruct k; discriminate.
          -- intros t1 f1 F1 G1. frames_inv F1. eauto. }
  intros G1 G2. destruct INV as (A & _). pose proof (A _ G1) as E1. pose proof (A _ G2) as E2. rewrite E1 in E2. split; [congruence|].
  intros t h NX HC D. destruct (C60_destroyed_only_when_gone _ _ _ _ _ R NX HC D) as (_ & U & _). contradiction.
Qed.

(** ** What does not hold. *)
Lemma runs_follows ls : forall tr s s', runs tr s -> follows s ls s' -> runs (tr ++ ls) s'.
Proof.
  induction ls as [|l ls IH]; intros tr s s' R F; inversion F; subst; [rewrite app_nil_r; auto|].
  change (l :: ls) with ([l] ++ ls). rewrite app_assoc. eapply IH; [|eassumption]. econstructor; eassumption.
Qed.
Lemma runs_from_start ls s : follows py_start ls s -> runs ls s.
Proof. intros F. apply (runs_follows ls [] py_start s runs_start F). Qed.
Ltac by_step := first [eapply S_new | eapply S_get_miss | eapply S_get_hit | eapply S_create | eapply S_done | eapply S_call | eapply S_return | eapply S_copy | eapply S_drop
  | eapply S_exit | eapply S_finalize | eapply S_destroy | eapply S_interrupt]; cbn [frames refs cache field registry doomed exiting made objs upd Nat.eqb]; try reflexivity; cbn; auto.
Ltac tidy := unfold py_start; cbn [objs field refs cache frames registry doomed made exiting remove1 remove_entry Nat.eqb andb].
Ltac next := eapply follows_cons; [by_step|tidy].
(** At exit the finalizers run whether or not the context is still used: a call made afterwards (by a daemon thread, or by an exit handler registered before the
    first finalizer) works on a destroyed context, ... *)
Theorem C60_use_after_exit_refuted : exists pre t o h s, runs (pre ++ [LCall t o h]) s /\ In (LDestroy h) pre.
Proof.
  exists [LNew 0 0; LCreate 0 0 0; LDone 0 KNew 0 0; LExit; LFinalize 0 0; LDestroy 0], 0, 0, 0. eexists. split; [|cbn; tauto].
  apply runs_from_start. cbn [app]. do 7 next. apply follows_nil.
Qed.
(** ... and a context may be destroyed under a running call. *)
Theorem C60_destroy_during_call_refuted : exists pre t h s, runs (pre ++ [LDestroy h]) s /\ in_call pre t h.
Proof.
  exists [LNew 0 0; LCreate 0 0 0; LDone 0 KNew 0 0; LCall 1 0 0; LExit; LFinalize 0 0], 1, 0. eexists. split.
  - apply runs_from_start. cbn [app]. do 7 next. apply follows_nil.
  - exists [LNew 0 0; LCreate 0 0 0; LDone 0 KNew 0 0], 0, [LExit; LFinalize 0 0]. split; auto. intros o' h' [X|[X|[]]]; discriminate.
Qed.
(** Two threads whose first [get()] calls overlap get two contexts. *)
Theorem C60_get_race_refuted : exists tr s o1 o2, runs tr s /\ ~ In LClear tr /\ get_result tr o1 /\ get_result tr o2 /\ o1 <> o2.
Proof.
  exists [LGetMiss 0 0; LGetMiss 1 1; LCreate 0 0 0; LDone 0 KGet 0 0; LCreate 1 1 1; LDone 1 KGet 1 1]. eexists. exists 0, 1. split.
  - apply runs_from_start. do 6 next. apply follows_nil.
  - split; [intros [X|[X|[X|[X|[X|[X|[]]]]]]]; discriminate|]. split; [exists 0; right; exists 0; cbn; tauto|]. split; [exists 1; right; exists 1; cbn; tauto|]. lia.
Qed.
(** An exception between the creation of the native context and the registration of its finalizer leaks the context. *)
Theorem C60_interrupt_leak_refuted : exists tr s h, runs tr s /\ finished s /\ exiting s = true /\ (exists t o, In (LCreate t o h) tr) /\ destroys tr h = 0.
Proof.
  exists [LNew 0 0; LCreate 0 0 0; LInterrupt 0; LExit]. eexists. exists 0. split; [|split; [|split; [|split]]].
  - apply runs_from_start. next. next. eapply follows_cons; [eapply S_interrupt; [cbn; reflexivity|intros; discriminate]|]. next. apply follows_nil.
  - repeat split. intros t. cbn. unfold upd. destruct (t =? 0); reflexivity.
  - reflexivity.
  - exists 0, 0. cbn. tauto.
  - reflexivity.
Qed.

(** ** A concrete history: `import piquant.torch` evaluates Context.get() for three default arguments (torch.py:53-129); a call on the default context runs while the
    program makes, uses and drops a context of its own; then the program ends. *)
Definition session : list label :=
  [LGetMiss 0 0; LCreate 0 0 0; LDone 0 KGet 0 0; LGetHit 0 0; LGetHit 0 0;
   LCall 1 0 0; LNew 0 1; LCreate 0 1 1; LDone 0 KNew 1 1; LCall 0 1 1; LReturn 0 1 1; LDrop 1; LFinalize 1 1; LDestroy 1; LReturn 1 0 0;
   LExit; LFinalize 0 0; LDestroy 0].
Example C60_witness : exists s, runs session s /\ finished s /\ respects_contract session /\ destroys session 0 = 1 /\ destroys session 1 = 1 /\ get_result session 0.
Proof.
  assert (R : exists s, runs session s /\ finished s).
  { eexists. split.
    - apply runs_from_start. unfold session. do 12 next.
      eapply follows_cons; [eapply S_finalize; [cbn; auto|]|].
      { left. split; [cbn; lia|]. split; [cbn; discriminate|]. intros t f F. cbn in F. unfold upd in F. destruct (t =? 0); [discriminate|]. destruct (t =? 1); [injection F as <-; cbn; lia|discriminate]. }
      do 5 next. apply follows_nil.
    - repeat split. intros t. cbn. unfold upd. destruct (t =? 0), (t =? 1); reflexivity. }
  destruct R as (s & R & F). exists s. split; [exact R|]. split; [exact F|]. split; [|split; [reflexivity|split; [reflexivity|exists 0; left; cbn; tauto]]].
  apply (C60_python_lifetime session s R). intros pre post E.
  assert (EP : pre = firstn 15 session /\ post = skipn 16 session).
  { unfold session in *. do 15 (destruct pre as [|? pre]; [discriminate|injection E as <- E]). destruct pre as [|? pre]; [injection E as <-; auto|].
    exfalso. injection E as <- E. destruct pre as [|? pre]; [discriminate|]. injection E as <- E. destruct pre as [|? pre]; [discriminate|]. injection E as <- E. destruct pre; discriminate. }
  destruct EP as [-> ->]. split.
  - intros t h (p1 & o & p2 & EQ & N). unfold session in EQ. cbn [firstn] in EQ.
    do 15 (destruct p1 as [|? p1]; [try discriminate EQ; injection EQ as <- <- <- <-; eapply N; cbn; solve [eauto 12]|injection EQ as <- EQ]). destruct p1; discriminate.
  - intros t o h. cbn. intuition discriminate.
Qed.
