(** ExecFacts.v -- theory of action lists: tilings, disjointness, confluence of interleavings, loops. *)
From Coq Require Import ZArith List Lia Bool Permutation Arith.
From Verif Require Import Base.
Import ListNotations.

(** ** Lists and slices *)
Lemma slice_length off len (m : mem) : off + len <= length m -> length (slice off len m) = len.
Proof. intros H. unfold slice. rewrite firstn_length, skipn_length. lia. Qed.

Lemma nth_slice off len (m : mem) k d : k < len -> nth k (slice off len m) d = nth (off + k) m d.
Proof.
  intros Hk. unfold slice. revert m. induction off as [|off IH]; intros m.
  - simpl. revert len Hk m. induction k as [|k IHk]; intros len Hk m; destruct len, m; simpl; try lia; auto.
    apply IHk. lia.
  - destruct m; simpl; [|apply IH]. rewrite firstn_nil. destruct k; reflexivity.
Qed.

Lemma splice_length off new (m : mem) : off + length new <= length m -> length (splice off new m) = length m.
Proof. intros H. unfold splice. rewrite !app_length, firstn_length, skipn_length. lia. Qed.

Lemma nth_splice off new (m : mem) k d :
  off + length new <= length m ->
  nth k (splice off new m) d =
  if (off <=? k) && (k <? off + length new) then nth (k - off) new d else nth k m d.
Proof.
  intros H. unfold splice.
  destruct (Nat.leb_spec off k) as [Hk|Hk]; simpl.
  - rewrite app_nth2 by (rewrite firstn_length; lia). rewrite firstn_length, Nat.min_l by lia.
    destruct (Nat.ltb_spec k (off + length new)) as [Hk2|Hk2].
    + rewrite app_nth1 by lia. reflexivity.
    + rewrite app_nth2 by lia.
      assert (E : nth (k - off - length new) (skipn (off + length new) m) d = nth k m d).
      { clear Hk. remember (off + length new) as c.
        replace (k - off - length new) with (k - c) by lia. clear Heqc H off new.
        revert k Hk2 m. induction c as [|c IH]; intros k Hk m; simpl; [f_equal; lia|].
        destruct m; [destruct (k - S c), k; reflexivity|]. destruct k; [lia|]. simpl. apply IH. lia. }
      exact E.
  - rewrite app_nth1 by (rewrite firstn_length; lia).
    clear H. revert k Hk m. induction off as [|off IH]; intros k Hk m; [lia|].
    destruct m; [destruct k; reflexivity|]. destruct k; simpl; [reflexivity|]. apply IH. lia.
Qed.

Lemma list_ext (l m : mem) : length l = length m -> (forall k, k < length l -> nth k l 0%Z = nth k m 0%Z) -> l = m.
Proof.
  revert m. induction l as [|a l IH]; intros [|b m] Hl Hn; simpl in *; try discriminate; auto.
  f_equal. - apply (Hn 0). lia. - apply IH; [lia|]. intros k Hk. apply (Hn (S k)). lia.
Qed.

Lemma slice_ext off len (m m' : mem) :
  off + len <= length m -> length m' = length m ->
  (forall k, off <= k < off + len -> nth k m' 0%Z = nth k m 0%Z) ->
  slice off len m' = slice off len m.
Proof.
  intros Hb Hl Hn. apply list_ext.
  - rewrite !slice_length; lia.
  - intros k Hk. rewrite slice_length in Hk by lia. rewrite !nth_slice by lia. apply Hn. lia.
Qed.

Lemma slice_skipn di off len (m : mem) : slice off len (skipn di m) = slice (di + off) len m.
Proof.
  unfold slice. f_equal. revert m. induction di as [|di IH]; intros m; [reflexivity|].
  destruct m; simpl; [rewrite skipn_nil; reflexivity|]. apply IH.
Qed.

Lemma nth_map_seq (f : nat -> Z) s n k : k < n -> nth k (map f (seq s n)) 0%Z = f (s + k).
Proof.
  intros H. rewrite (nth_indep _ 0%Z (f 0)) by (rewrite map_length, seq_length; lia).
  rewrite map_nth, seq_nth by lia. reflexivity.
Qed.

(** ** Actions that meet a byte-wise specification [G] on the initial memory *)
Definition act_ok (inm outm : mem) (G : nat -> Z) (a : action) : Prop :=
  a_ioff a + a_ilen a <= length inm /\
  a_ooff a + a_olen a <= length outm /\
  a_fn a (slice (a_ioff a) (a_ilen a) inm) (slice (a_ooff a) (a_olen a) outm)
    = Ok (map G (seq (a_ooff a) (a_olen a))).

(** consecutive actions covering the output bytes lo..hi *)
Inductive tiles : nat -> nat -> list action -> Prop :=
| tiles_nil : forall lo, tiles lo lo []
| tiles_cons : forall lo hi a l, a_ooff a = lo -> tiles (lo + a_olen a) hi l -> tiles lo hi (a :: l).

Lemma tiles_le lo hi l : tiles lo hi l -> lo <= hi.
Proof. induction 1; lia. Qed.

Lemma tiles_app lo mi hi l1 l2 : tiles lo mi l1 -> tiles mi hi l2 -> tiles lo hi (l1 ++ l2).
Proof. induction 1; simpl; intros; auto. constructor; auto. Qed.

Definition disj (a b : action) : Prop :=
  a_ooff a + a_olen a <= a_ooff b \/ a_ooff b + a_olen b <= a_ooff a.

Lemma disj_sym a b : disj a b -> disj b a.
Proof. unfold disj. tauto. Qed.

Lemma tiles_range lo hi l a : tiles lo hi l -> In a l -> lo <= a_ooff a /\ a_ooff a + a_olen a <= hi.
Proof.
  induction 1 as [|lo hi b l E T IH]; simpl; [tauto|].
  pose proof (tiles_le _ _ _ T). intros [<-|Hin]; [lia|]. apply IH in Hin. lia.
Qed.

Lemma tiles_disj lo hi l : tiles lo hi l -> ForallOrdPairs disj l.
Proof.
  induction 1 as [|lo hi a l E T IH]; constructor; auto.
  apply Forall_forall. intros b Hb. pose proof (tiles_range _ _ _ _ T Hb). unfold disj. lia.
Qed.

Lemma tiles_cover lo hi l k : tiles lo hi l -> lo <= k < hi -> exists a, In a l /\ a_ooff a <= k < a_ooff a + a_olen a.
Proof.
  induction 1 as [|lo hi a l E T IH]; intros Hk; [lia|].
  destruct (Nat.lt_ge_cases k (lo + a_olen a)) as [Hlt|Hge].
  - exists a. split; [left; auto|lia].
  - destruct IH as (b & Hb & Hr); [lia|]. exists b. split; [right|]; auto.
Qed.

Lemma ForallOrdPairs_perm {A} (R : A -> A -> Prop) l m :
  (forall a b, R a b -> R b a) -> Permutation l m -> ForallOrdPairs R l -> ForallOrdPairs R m.
Proof.
  intros Hs. induction 1 as [|x l m P IH|x y l|l m n P1 IH1 P2 IH2]; intros HF.
  - constructor.
  - inversion HF; subst. constructor; auto. eapply Permutation_Forall; eauto.
  - inversion HF as [|? ? H1 H2]; subst. inversion H2 as [|? ? H3 H4]; subst. inversion H1; subst.
    constructor; [constructor; auto|]. constructor; auto.
  - auto.
Qed.

(** One step, then the untouched slices still satisfy [act_ok]. *)
Lemma run_action_ok inm outm G a :
  act_ok inm outm G a ->
  exists o, run_action inm a outm = Ok o /\ length o = length outm /\
    (forall k, a_ooff a <= k < a_ooff a + a_olen a -> nth k o 0%Z = G k) /\
    (forall k, ~ (a_ooff a <= k < a_ooff a + a_olen a) -> nth k o 0%Z = nth k outm 0%Z).
Proof.
  intros (Hi & Ho & Hf). unfold run_action, in_bounds.
  rewrite (proj2 (Nat.leb_le _ _) Hi), (proj2 (Nat.leb_le _ _) Ho). cbn [andb]. rewrite Hf. cbn [bind].
  rewrite map_length, seq_length, Nat.eqb_refl.
  eexists. split; [reflexivity|].
  assert (HL : a_ooff a + length (map G (seq (a_ooff a) (a_olen a))) <= length outm)
    by (rewrite map_length, seq_length; lia).
  split; [apply splice_length; auto|]. split; intros k Hk.
  - rewrite nth_splice by auto. rewrite map_length, seq_length.
    destruct (Nat.leb_spec (a_ooff a) k); [|lia]. destruct (Nat.ltb_spec k (a_ooff a + a_olen a)); [|lia]. simpl.
    rewrite nth_map_seq by lia. f_equal. lia.
  - rewrite nth_splice by auto. rewrite map_length, seq_length.
    destruct (Nat.leb_spec (a_ooff a) k); simpl; auto.
    destruct (Nat.ltb_spec k (a_ooff a + a_olen a)); simpl; auto. lia.
Qed.

Lemma act_ok_other inm outm o G a b :
  act_ok inm outm G b -> disj a b -> length o = length outm ->
  (forall k, ~ (a_ooff a <= k < a_ooff a + a_olen a) -> nth k o 0%Z = nth k outm 0%Z) ->
  act_ok inm o G b.
Proof.
  intros (Hi & Ho & Hf) Hd Hl Hn. split; [auto|]. split; [lia|].
  rewrite <- Hf. f_equal. apply slice_ext; auto.
  intros k Hk. apply Hn. unfold disj in Hd. lia.
Qed.

Lemma run_trace_ok inm G l : forall outm,
  ForallOrdPairs disj l -> Forall (act_ok inm outm G) l ->
  exists o, run_trace inm l outm = Ok o /\ length o = length outm /\
    (forall a k, In a l -> a_ooff a <= k < a_ooff a + a_olen a -> nth k o 0%Z = G k) /\
    (forall k, (forall a, In a l -> ~ (a_ooff a <= k < a_ooff a + a_olen a)) -> nth k o 0%Z = nth k outm 0%Z).
Proof.
  induction l as [|a l IH]; intros outm HD HF.
  - exists outm. simpl. repeat split; auto. intros ? ? [].
  - inversion HD as [|? ? HDa HDl]; subst. inversion HF as [|? ? Ha Hl]; subst.
    destruct (run_action_ok _ _ _ _ Ha) as (o & Hr & Hlen & Hin & Hout).
    destruct (IH o HDl) as (o' & Hr' & Hlen' & Hin' & Hout').
    { rewrite Forall_forall in *. intros b Hb. eapply act_ok_other; eauto. }
    exists o'. cbn [run_trace]. rewrite Hr. cbn [bind]. repeat split; auto; try lia.
    + intros b k [<-|Hb] Hk.
      * rewrite Hout'; auto. intros b Hb Hk'. rewrite Forall_forall in HDa. apply HDa in Hb. unfold disj in Hb. lia.
      * eauto.
    + intros k Hk. rewrite Hout'; [apply Hout|]; intros; apply Hk; simpl; auto.
Qed.

(** ** Interleavings *)
Lemma interleave_perm {A} (ls : list (list A)) tr : interleave ls tr -> Permutation (concat ls) tr.
Proof.
  induction 1 as [ls H|pre a l post tr H IH].
  - induction H; simpl; auto. subst. simpl. auto.
  - rewrite concat_app in *. simpl in *. 
    apply Permutation_trans with (a :: concat pre ++ l ++ concat post).
    + apply Permutation_sym, Permutation_cons_app. apply Permutation_refl.
    + constructor. auto.
Qed.

Lemma interleave_exists {A} (ls : list (list A)) : exists tr, interleave ls tr.
Proof.
  exists (concat ls).
  induction ls as [|l ls IH].
  - constructor. constructor.
  - induction l as [|a l IHl]; simpl.
    + clear -IH. revert IH. generalize (concat ls). intros tr H.
      remember ls as L. clear HeqL ls. induction H.
      * constructor. constructor; auto.
      * apply (il_step ([] :: pre)). auto.
    + apply (il_step [] a l ls). apply IHl.
Qed.

(** Main execution theorem: a call whose jobs together tile the first [n] output bytes, each action meeting [G],
    always ends well, in every interleaving, with the same memory. *)
Theorem interleave_run inm outm G n jobs tr :
  tiles 0 n (concat jobs) -> Forall (act_ok inm outm G) (concat jobs) -> n <= length outm ->
  interleave jobs tr ->
  run_trace inm tr outm = Ok (map G (seq 0 n) ++ skipn n outm).
Proof.
  intros HT HF Hn HI. apply interleave_perm in HI.
  destruct (run_trace_ok inm G tr outm) as (o & Hr & Hlen & Hin & Hout).
  - eapply ForallOrdPairs_perm; [apply disj_sym|eauto|]. eapply tiles_disj; eauto.
  - eapply Permutation_Forall; eauto.
  - rewrite Hr. f_equal. apply list_ext.
    + rewrite app_length, map_length, seq_length, skipn_length. lia.
    + intros k Hk. destruct (Nat.lt_ge_cases k n) as [Hkn|Hkn].
      * rewrite app_nth1 by (rewrite map_length, seq_length; lia). rewrite nth_map_seq by lia. simpl.
        destruct (tiles_cover _ _ _ k HT) as (a & Ha & Hr'); [lia|].
        eapply Hin; eauto. eapply Permutation_in; eauto.
      * rewrite app_nth2 by (rewrite map_length, seq_length; lia). rewrite map_length, seq_length.
        rewrite Hout.
        { replace k with (n + (k - n)) at 1 by lia. clear. generalize (k - n). revert outm.
          induction n as [|n IH]; intros m j; simpl; auto. destruct m; [destruct j; reflexivity|]. simpl. apply IH. }
        intros a Ha Hk'. apply Permutation_sym in HI. eapply Permutation_in in Ha; eauto.
        pose proof (tiles_range _ _ _ _ HT Ha). lia.
Qed.

(** ** Loops *)
Lemma loop_exit fuel cond stride body numel : forall i,
  stride >= 1 -> (forall j, numel <= j -> cond j = false) -> numel <= i + fuel ->
  cond (snd (loop fuel cond stride body i)) = false.
Proof.
  induction fuel as [|f IH]; intros i Hs Hc Hf; cbn [loop].
  - simpl. apply Hc. lia.
  - destruct (cond i) eqn:E; [|simpl; auto].
    destruct (loop f cond stride body (i + stride)) as [l j] eqn:El. simpl.
    change j with (snd (l, j)). rewrite <- El. apply IH; auto. lia.
Qed.

Lemma loop_ge fuel cond stride body : forall i, i <= snd (loop fuel cond stride body i).
Proof.
  induction fuel as [|f IH]; intros i; cbn [loop]; [simpl; lia|].
  destruct (cond i); [|simpl; lia].
  specialize (IH (i + stride)). destruct (loop f cond stride body (i + stride)). simpl in *. lia.
Qed.

(** Loop invariant: [P i] holds at every index reached, [Q] at every body with cond true. *)
Lemma loop_inv (P : nat -> Prop) (Q : action -> Prop) (pos : nat -> nat) fuel cond stride body :
  (forall i, P i -> cond i = true -> P (i + stride) /\ Q (body i) /\
     a_ooff (body i) = pos i /\ pos (i + stride) = pos i + a_olen (body i)) ->
  forall i, P i ->
    P (snd (loop fuel cond stride body i)) /\
    Forall Q (fst (loop fuel cond stride body i)) /\
    tiles (pos i) (pos (snd (loop fuel cond stride body i))) (fst (loop fuel cond stride body i)).
Proof.
  intros Hstep. induction fuel as [|f IH]; intros i Hi; cbn [loop].
  - simpl. repeat split; auto. constructor.
  - destruct (cond i) eqn:E.
    + destruct (Hstep i Hi E) as (H1 & H2 & H3 & H4).
      destruct (IH _ H1) as (I1 & I2 & I3).
      destruct (loop f cond stride body (i + stride)) as [l j]. simpl in *.
      repeat split; auto. constructor; auto. rewrite <- H4. auto.
    + simpl. repeat split; auto. constructor.
Qed.

(** Shifting a kernel's actions to its base pointers *)
Lemma act_ok_shift inm outm G di do a :
  di <= length inm -> do <= length outm ->
  act_ok (skipn di inm) (skipn do outm) G a ->
  act_ok inm outm (fun k => G (k - do)) (shift_action di do a).
Proof.
  intros Hdi Hdo (Hi & Ho & Hf). rewrite skipn_length in Hi, Ho.
  unfold act_ok, shift_action. simpl. split; [lia|]. split; [lia|].
  rewrite <- !slice_skipn, Hf. f_equal. 
  rewrite <- (map_map (fun k => k - do) G). f_equal.
  assert (E : forall n s, seq s n = map (fun k => k - do) (seq (do + s) n)).
  { induction n as [|n IH]; intros s; simpl; auto. f_equal; [lia|]. rewrite (IH (S s)). f_equal. f_equal. lia. }
  apply E.
Qed.

Lemma tiles_shift di do lo hi l : tiles lo hi l -> tiles (do + lo) (do + hi) (map (shift_action di do) l).
Proof.
  induction 1 as [|lo hi a l E T IH]; simpl; constructor; simpl; auto. rewrite <- Nat.add_assoc. auto.
Qed.

Lemma act_ok_ext inm outm G G' a :
  (forall k, a_ooff a <= k < a_ooff a + a_olen a -> G k = G' k) -> act_ok inm outm G a -> act_ok inm outm G' a.
Proof.
  intros HG (Hi & Ho & Hf). repeat split; auto. rewrite Hf. f_equal. apply map_ext_in.
  intros k Hk. apply in_seq in Hk. apply HG. lia.
Qed.
