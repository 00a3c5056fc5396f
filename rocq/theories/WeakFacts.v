(** WeakFacts.v -- executions of the store-buffer machine of WeakMem.v. *)
From Coq Require Import ZArith List Bool Arith Lia ZifyBool ZifyNat Permutation.
From Verif Require Import Base Dtypes Floats Simd ExecFacts Schedule Spec ApiSpec WeakMem.
Import ListNotations.

Definition touch (a : action) (k : nat) : Prop := a_ooff a <= k < a_ooff a + a_olen a.

(** ** The result of an action of a disjoint trace depends on the initial output only *)
Definition good (inm outm o : mem) (a : action) : Prop :=
  exists r, a_fn a (slice (a_ioff a) (a_ilen a) inm) (slice (a_ooff a) (a_olen a) outm) = Ok r /\ length r = a_olen a /\
    a_ioff a + a_ilen a <= length inm /\ a_ooff a + a_olen a <= length outm /\
    forall j, j < a_olen a -> nth (a_ooff a + j) o 0%Z = nth j r 0%Z.

Lemma trace_final inm tr : ForallOrdPairs disj tr -> Forall no_abort tr -> forall outm o, run_trace inm tr outm = Ok o ->
  length o = length outm /\ Forall (good inm outm o) tr /\ (forall k, (forall a, In a tr -> ~ touch a k) -> nth k o 0%Z = nth k outm 0%Z).
Proof.
  induction 1 as [|a tr HD HF IH]; intros HN outm o; cbn [run_trace].
  - intros [= <-]. auto.
  - inversion HN as [|? ? Na Nt]; subst. destruct (run_action_cases inm a outm Na) as [E|(r & E & L1 & L2 & L3 & Fa)]; rewrite E; cbn [bind]; [discriminate|].
    intros R. destruct (IH Nt _ _ R) as (Len & HG & HU). rewrite splice_length in Len by lia. split; [auto|]. split.
    + constructor.
      * exists r. repeat split; auto. intros j Hj. rewrite HU.
        -- rewrite nth_splice by lia. replace (a_ooff a <=? a_ooff a + j) with true by lia. replace (a_ooff a + j <? a_ooff a + length r) with true by lia.
           cbn [andb]. f_equal. lia.
        -- intros b Hb T. rewrite Forall_forall in HD. specialize (HD b Hb). unfold disj, touch in *. lia.
      * rewrite Forall_forall in *. intros b Hb. destruct (HG b Hb) as (q & F & M1 & M2 & M3 & M4). rewrite splice_length in M3 by lia.
        exists q. repeat split; auto. rewrite <- F. f_equal. symmetry. apply splice_slice_disj; auto. lia.
    + intros k Hk. rewrite HU by (intros b Hb; apply Hk; right; auto). rewrite nth_splice by lia.
      specialize (Hk a (or_introl eq_refl)). unfold touch in Hk.
      destruct (Nat.leb_spec (a_ooff a) k), (Nat.ltb_spec k (a_ooff a + length r)); cbn [andb]; auto; lia.
Qed.

(** ** Buffered bytes *)
Lemma put_length m e : fst e < length m -> length (put m e) = length m.
Proof. intros H. unfold put. apply splice_length. cbn [length]. lia. Qed.
Lemma put_nth m e k : fst e < length m -> nth k (put m e) 0%Z = if Nat.eqb k (fst e) then snd e else nth k m 0%Z.
Proof.
  intros H. unfold put. rewrite nth_splice by (cbn [length]; lia). cbn [length].
  destruct (Nat.eqb_spec k (fst e)) as [->|N].
  - replace (fst e <=? fst e) with true by lia. replace (fst e <? fst e + 1) with true by lia. rewrite Nat.sub_diag. reflexivity.
  - destruct (Nat.leb_spec (fst e) k), (Nat.ltb_spec k (fst e + 1)); cbn [andb]; auto; lia.
Qed.
Lemma puts_app l m : puts (l ++ m) = puts l ++ puts m.
Proof. induction l as [|[k b|] l IH]; cbn; rewrite ?IH; auto. Qed.
Lemma puts_map l : puts (map put_entry l) = l.
Proof. induction l as [|[k b] l IH]; cbn; rewrite ?IH; auto. Qed.
Lemma view_facts es : forall m, (forall e, In e es -> fst e < length m) ->
  length (fold_left put es m) = length m /\
  forall k, (forall e, In e es -> fst e <> k) -> nth k (fold_left put es m) 0%Z = nth k m 0%Z.
Proof.
  induction es as [|e es IH]; intros m H; cbn [fold_left]; auto.
  assert (He : fst e < length m) by (apply H; left; auto).
  destruct (IH (put m e)) as [L N]; [intros; rewrite put_length by auto; apply H; right; auto|].
  rewrite put_length in L by auto. split; auto. intros k Hk. rewrite N by (intros; apply Hk; right; auto). rewrite put_nth by auto.
  destruct (Nat.eqb_spec k (fst e)) as [->|]; auto. destruct (Hk e (or_introl eq_refl) eq_refl).
Qed.
Lemma written_in a v e : a_ooff a + a_olen a <= length v -> In e (written a v) ->
  touch a (fst e) /\ snd e = nth (fst e) v 0%Z.
Proof.
  intros H Hin. unfold written in Hin. apply (In_nth _ _ (0, 0%Z)) in Hin. destruct Hin as (j & Hj & <-).
  assert (L : length (slice (a_ooff a) (a_olen a) v) = a_olen a) by (unfold slice; rewrite firstn_length, skipn_length; lia).
  rewrite combine_length, seq_length, L in Hj. rewrite combine_nth by (rewrite seq_length; auto). cbn [fst snd].
  rewrite seq_nth by lia. unfold touch. split; [lia|]. rewrite nth_slice by lia. reflexivity.
Qed.
Lemma written_all a v k : a_ooff a + a_olen a <= length v -> touch a k -> exists b, In (k, b) (written a v).
Proof.
  intros H T. unfold touch in T. exists (nth k v 0%Z). unfold written.
  assert (L : length (slice (a_ooff a) (a_olen a) v) = a_olen a) by (unfold slice; rewrite firstn_length, skipn_length; lia).
  assert (E : nth (k - a_ooff a) (combine (seq (a_ooff a) (a_olen a)) (slice (a_ooff a) (a_olen a) v)) (0, 0%Z) = (k, nth k v 0%Z)).
  { rewrite combine_nth by (rewrite seq_length; auto). rewrite seq_nth by lia. rewrite nth_slice by lia. f_equal; [lia|]. f_equal. lia. }
  rewrite <- E. apply nth_In. rewrite combine_length, seq_length, L. lia.
Qed.
Lemma written_length a v : a_ooff a + a_olen a <= length v -> length (written a v) = a_olen a.
Proof. intros H. unfold written. rewrite combine_length, seq_length. unfold slice. rewrite firstn_length, skipn_length. lia. Qed.

(** ** The invariant *)
Section Machine.
Variables (nt : action -> bool) (inm outm o : mem) (sg : signal) (jobs : list (list action)).

Definition todos (cs : list core) : list action := flat_map c_todo cs.
Definition pend (cs : list core) : list (nat * Z) := flat_map pending cs.
Definition phase_ok (c : core) : Prop :=
  match c_phase c with
  | Working => exists l, c_fifo c = map put_entry l
  | Signalled => sg = Plain_store /\ c_todo c = [] /\ exists l, c_fifo c = map put_entry l ++ [Done]
  | Joined => c_todo c = [] /\ c_fifo c = [] /\ (sg = Draining -> c_wc c = [])
  end.
Record inv (s : list core * mem) : Prop := mk_inv {
  i_len : length (snd s) = length outm;
  i_pend : forall e, In e (pend (fst s)) -> fst e < length outm /\ snd e = nth (fst e) o 0%Z;
  i_good : forall a, In a (todos (fst s)) -> good inm outm o a;
  i_disj : ForallOrdPairs disj (todos (fst s));
  i_todo : forall a k, In a (todos (fst s)) -> touch a k -> nth k (snd s) 0%Z = nth k outm 0%Z /\ forall e, In e (pend (fst s)) -> fst e <> k;
  i_final : forall k, nth k (snd s) 0%Z = nth k o 0%Z \/ (exists a, In a (todos (fst s)) /\ touch a k) \/ (exists e, In e (pend (fst s)) /\ fst e = k);
  i_two : forall k, nth k (snd s) 0%Z = nth k outm 0%Z \/ nth k (snd s) 0%Z = nth k o 0%Z;
  i_phase : forall c, In c (fst s) -> phase_ok c;
  i_wc : forall c e, In c (fst s) -> In e (c_wc c) -> exists a, In a (concat jobs) /\ nt a = true /\ touch a (fst e);
  i_from : forall a, In a (todos (fst s)) -> In a (concat jobs)
}.

Lemma todos_mid pre c post : todos (pre ++ c :: post) = todos pre ++ c_todo c ++ todos post.
Proof. unfold todos. rewrite flat_map_app. reflexivity. Qed.
Lemma pend_mid pre c post : pend (pre ++ c :: post) = pend pre ++ pending c ++ pend post.
Proof. unfold pend. rewrite flat_map_app. reflexivity. Qed.

Lemma fop_remove {X} (R : X -> X -> Prop) l a m : ForallOrdPairs R (l ++ a :: m) -> ForallOrdPairs R (l ++ m).
Proof.
  induction l as [|x l IH]; cbn; intros H; inversion H as [|? ? H1 H2]; subst; auto. constructor; auto.
  apply Forall_app in H1. destruct H1 as [H1 H3]. inversion H3; subst. apply Forall_app. auto.
Qed.
Lemma fop_other (l : list action) a m b : ForallOrdPairs disj (l ++ a :: m) -> In b (l ++ m) -> disj a b.
Proof.
  induction l as [|x l IH]; cbn; intros H Hb; inversion H as [|? ? H1 H2]; subst.
  - rewrite Forall_forall in H1. auto.
  - destruct Hb as [<-|Hb]; auto. apply disj_sym. rewrite Forall_forall in H1. apply H1. apply in_or_app. right. left. auto.
Qed.

(* running the next iteration of a worker, in any reachable state *)
Lemma exec_facts pre c post m a l : inv (pre ++ c :: post, m) -> c_todo c = a :: l ->
  exists v, run_action inm a (view c m) = Ok v /\ length v = length outm /\ forall k, touch a k -> nth k v 0%Z = nth k o 0%Z.
Proof.
  intros I E. assert (Ha : In a (todos (pre ++ c :: post))) by (rewrite todos_mid, E; apply in_or_app; right; left; auto).
  destruct (i_good _ I a Ha) as (r & F & L1 & L2 & L3 & G). pose proof (i_len _ I) as Lm. cbn [snd] in Lm.
  assert (HP : forall e, In e (pending c) -> fst e < length m /\ In e (pend (pre ++ c :: post))).
  { intros e He. assert (In e (pend (pre ++ c :: post))) by (rewrite pend_mid; apply in_or_app; right; apply in_or_app; left; auto). split; auto.
    rewrite Lm. apply (i_pend _ I e). auto. }
  destruct (view_facts (pending c) m) as [VL VN]; [intros e He; apply HP; auto|]. change (fold_left put (pending c) m) with (view c m) in *.
  assert (SL : slice (a_ooff a) (a_olen a) (view c m) = slice (a_ooff a) (a_olen a) outm).
  { apply slice_ext; [lia|lia|]. intros k Hk. destruct (i_todo _ I a k Ha) as [T1 T2]; [unfold touch; lia|]. cbn [fst snd] in *.
    rewrite VN; auto. intros e He. apply T2. apply HP. auto. }
  exists (splice (a_ooff a) r (view c m)). split.
  - unfold run_action, in_bounds. rewrite SL, F. replace (a_ioff a + a_ilen a <=? length inm) with true by lia.
    replace (a_ooff a + a_olen a <=? length (view c m)) with true by lia. cbn [andb bind]. rewrite L1, Nat.eqb_refl. reflexivity.
  - split; [rewrite splice_length by lia; lia|]. intros k T. unfold touch in T. rewrite nth_splice by lia.
    replace (a_ooff a <=? k) with true by lia. replace (k <? a_ooff a + length r) with true by lia. cbn [andb].
    rewrite <- G by lia. f_equal. lia.
Qed.

Lemma in_mid {X} (x : X) pre c post : In x (pre ++ c :: post) <-> In x (pre ++ post) \/ x = c.
Proof. rewrite !in_app_iff. cbn. intuition. Qed.
Lemma in_app3 {X} (x : X) l1 l2 l3 : In x (l1 ++ l2 ++ l3) <-> In x (l1 ++ l3) \/ In x l2.
Proof. rewrite !in_app_iff. tauto. Qed.

(* an entry leaving a buffer *)
Lemma inv_commit pre c c' post m e : inv (pre ++ c :: post, m) -> c_todo c' = c_todo c ->
  (forall x, In x (pending c) <-> In x (pending c') \/ x = e) -> (forall x, In x (c_wc c') -> In x (c_wc c)) -> phase_ok c' ->
  inv (pre ++ c' :: post, put m e).
Proof.
  intros I ET HP HW HPh. pose proof (i_len _ I) as Lm. cbn [snd] in Lm.
  assert (He : In e (pend (pre ++ c :: post))) by (rewrite pend_mid, in_app3; right; apply HP; auto).
  assert (Hsub : forall x, In x (pend (pre ++ c' :: post)) -> In x (pend (pre ++ c :: post))).
  { intros x. rewrite !pend_mid, !in_app3. intros [H|H]; auto. right. apply HP. auto. }
  assert (Hsup : forall x, In x (pend (pre ++ c :: post)) -> In x (pend (pre ++ c' :: post)) \/ x = e).
  { intros x. rewrite !pend_mid, !in_app3. intros [H|H]; auto. apply HP in H. tauto. }
  assert (HT : todos (pre ++ c' :: post) = todos (pre ++ c :: post)) by (rewrite !todos_mid, ET; reflexivity).
  destruct (i_pend _ I e He) as [He1 He2]. cbn [fst snd] in *.
  constructor; cbn [fst snd]; rewrite ?HT.
  - rewrite put_length; lia.
  - intros x Hx. apply (i_pend _ I). auto.
  - apply (i_good _ I).
  - apply (i_disj _ I).
  - intros a k Ha T. destruct (i_todo _ I a k Ha T) as [T1 T2]. cbn [fst snd] in *. split; [|intros; apply T2; auto].
    rewrite put_nth by lia. destruct (Nat.eqb_spec k (fst e)) as [->|]; auto. destruct (T2 e He eq_refl).
  - intros k. rewrite put_nth by lia. destruct (Nat.eqb_spec k (fst e)) as [->|N]; auto.
    destruct (i_final _ I k) as [H|[H|(x & Hx & Ex)]]; auto. cbn [fst snd] in *. right. right. exists x. split; auto.
    destruct (Hsup x Hx) as [|Y]; auto. subst. congruence.
  - intros k. rewrite put_nth by lia. destruct (Nat.eqb_spec k (fst e)) as [->|N]; [right; auto|]. apply (i_two _ I).
  - intros x. rewrite in_mid. intros [H|H].
    + apply (i_phase _ I). apply in_mid. auto.
    + subst. auto.
  - intros x y. rewrite in_mid. intros [H|H] Hy.
    + apply (i_wc _ I x y); auto. apply in_mid. auto.
    + subst x. apply (i_wc _ I c y); auto. apply in_mid. auto.
  - apply (i_from _ I).
Qed.

(* a step that moves no byte *)
Lemma inv_quiet pre c c' post m : inv (pre ++ c :: post, m) -> c_todo c' = c_todo c -> pending c' = pending c ->
  (forall x, In x (c_wc c') -> In x (c_wc c)) -> phase_ok c' -> inv (pre ++ c' :: post, m).
Proof.
  intros I ET EP HW HPh.
  assert (HT : todos (pre ++ c' :: post) = todos (pre ++ c :: post)) by (rewrite !todos_mid, ET; reflexivity).
  assert (HPd : pend (pre ++ c' :: post) = pend (pre ++ c :: post)) by (rewrite !pend_mid, EP; reflexivity).
  destruct I as [I1 I2 I3 I4 I5 I6 I7 I8 I9 I10]. cbn [fst snd] in *. constructor; cbn [fst snd]; rewrite ?HT, ?HPd; auto.
  - intros x. rewrite in_mid. intros [H|H]; [apply I8; apply in_mid; auto|subst; auto].
  - intros x y. rewrite in_mid. intros [H|H] Hy; [apply (I9 x y); auto; apply in_mid; auto|subst x; apply (I9 c y); auto; apply in_mid; auto].
Qed.

Lemma inv_step s s' : inv s -> step nt inm sg s s' -> inv s'.
Proof.
  intros I HS. destruct HS as [pre c post m c' m' H].
  destruct H as [a l fifo wc m v Hrun|l k b fifo wc p m|l fifo wc1 e wc2 p m|m Hs|fifo wc m Hs|l fifo wc m].
  - (* exec *)
    set (c := Core (a :: l) fifo wc Working) in *.
    destruct (exec_facts pre c post m a l I eq_refl) as (v' & R & Lv & Nv). assert (v' = v) as -> by congruence. clear R Hrun.
    set (c' := if nt a then _ else _).
    assert (Ha : In a (todos (pre ++ c :: post))) by (rewrite todos_mid; apply in_or_app; right; left; auto).
    destruct (i_good _ I a Ha) as (r & _ & _ & _ & Lo & _).
    assert (ET : c_todo c' = l) by (unfold c'; destruct (nt a); reflexivity).
    assert (EP : forall x, In x (pending c') <-> In x (pending c) \/ In x (written a v)).
    { intros x. unfold c', c, pending. destruct (nt a); cbn [c_fifo c_wc]; rewrite ?puts_app, ?puts_map, !in_app_iff; tauto. }
    assert (HW : forall x, In x (written a v) -> touch a (fst x) /\ snd x = nth (fst x) o 0%Z).
    { intros x Hx. apply written_in in Hx; [|lia]. destruct Hx as [T E]. split; auto. rewrite E. apply Nv. auto. }
    assert (EPd : forall x, In x (pend (pre ++ c' :: post)) <-> In x (pend (pre ++ c :: post)) \/ In x (written a v)).
    { intros x. rewrite !pend_mid, !in_app3, EP. tauto. }
    assert (ETd : forall b, In b (todos (pre ++ c :: post)) <-> In b (todos (pre ++ c' :: post)) \/ b = a).
    { intros b. rewrite !todos_mid, !in_app3, ET. cbn [c c_todo In]. intuition. }
    assert (HO : forall b, In b (todos (pre ++ c' :: post)) -> disj a b).
    { intros b Hb. apply (fop_other (todos pre) a (l ++ todos post)).
      - pose proof (i_disj _ I) as D. cbn [fst] in D. rewrite todos_mid in D. exact D.
      - rewrite todos_mid, ET in Hb. exact Hb. }
    pose proof (i_phase _ I c) as HPh. cbn [fst] in HPh. specialize (HPh ltac:(apply in_mid; auto)).
    constructor; cbn [fst snd].
    + apply (i_len _ I).
    + intros x Hx. apply EPd in Hx. destruct Hx as [Hx|Hx]; [apply (i_pend _ I); auto|].
      apply HW in Hx. destruct Hx as [T E]. split; auto. unfold touch in T. lia.
    + intros b Hb. apply (i_good _ I). apply ETd. auto.
    + pose proof (i_disj _ I) as D. cbn [fst] in D. rewrite todos_mid in *. rewrite ET. apply fop_remove with a. exact D.
    + intros b k Hb T. destruct (i_todo _ I b k) as [T1 T2]; auto; [apply ETd; auto|]. cbn [fst snd] in *. split; auto.
      intros x Hx. apply EPd in Hx. destruct Hx as [Hx|Hx]; auto. apply HW in Hx. destruct Hx as [Tx _]. specialize (HO b Hb). unfold disj, touch in *. lia.
    + intros k. destruct (i_final _ I k) as [H|[(b & Hb & T)|(x & Hx & Ex)]]; auto; cbn [fst snd] in *.
      * apply ETd in Hb. destruct Hb as [Hb|Hb]; [right; left; eauto|]. subst b. right. right.
        destruct (written_all a v k) as [y Hy]; [lia|auto|]. exists (k, y). split; auto. apply EPd. auto.
      * right. right. exists x. split; auto. apply EPd. auto.
    + apply (i_two _ I).
    + intros x. rewrite in_mid. intros [H|H]; [apply (i_phase _ I); apply in_mid; auto|]. subst x.
      destruct HPh as [w Hw]. cbn [c c_fifo] in Hw. subst fifo. unfold c'. destruct (nt a); cbn [phase_ok c_phase c_fifo]; unfold phase_ok; cbn [c_phase c_fifo]; eauto.
      exists (w ++ written a v). rewrite map_app. reflexivity.
    + intros x y. rewrite in_mid. intros [H|H] Hy; [apply (i_wc _ I x y); auto; apply in_mid; auto|]. subst x.
      unfold c' in Hy. destruct (nt a) eqn:En; cbn [c_wc] in Hy.
      * apply in_app_or in Hy. destruct Hy as [Hy|Hy]; [apply (i_wc _ I c y); auto; apply in_mid; auto|].
        exists a. split; [apply (i_from _ I); auto|]. split; auto. apply HW. auto.
      * apply (i_wc _ I c y); auto. apply in_mid; auto.
    + intros b Hb. apply (i_from _ I). apply ETd. auto.
  - (* drain *)
    eapply inv_commit; eauto; cbn [c_todo c_wc]; auto.
    + intros x. unfold pending. cbn [c_fifo c_wc puts]. rewrite <- app_comm_cons. cbn [In]. intuition.
    + pose proof (i_phase _ I (Core l (Put k b :: fifo) wc p)) as H. specialize (H ltac:(apply in_mid; auto)).
      unfold phase_ok in *. cbn [c_phase c_fifo c_todo c_wc] in *. destruct p.
      * destruct H as ([|[k' b'] w] & E); cbn in E; [discriminate|]. exists w. congruence.
      * destruct H as (H0 & H1 & w & E). split; auto. split; auto. destruct w as [|[k' b'] w]; cbn in E; [discriminate|]. exists w. congruence.
      * destruct H as (_ & H & _). discriminate.
  - (* evict *)
    eapply inv_commit; eauto; cbn [c_todo c_wc]; auto.
    + intros x. unfold pending. cbn [c_fifo c_wc]. rewrite !in_app_iff. cbn [In]. intuition.
    + intros x. rewrite !in_app_iff. cbn [In]. tauto.
    + pose proof (i_phase _ I (Core l fifo (wc1 ++ e :: wc2) p)) as H. specialize (H ltac:(apply in_mid; auto)).
      unfold phase_ok in *. cbn [c_phase c_fifo c_todo c_wc] in *. destruct p; auto.
      destruct H as (H1 & H2 & H3). split; auto. split; auto. intros E. apply H3 in E. destruct wc1; discriminate.
  - eapply inv_quiet; eauto. unfold phase_ok. cbn. auto.
  - eapply inv_quiet; eauto.
    + unfold pending. cbn [c_fifo c_wc]. rewrite puts_app. cbn [puts]. rewrite app_nil_r. reflexivity.
    + pose proof (i_phase _ I (Core [] fifo wc Working)) as H. specialize (H ltac:(apply in_mid; auto)).
      unfold phase_ok in *. cbn [c_phase c_fifo c_todo] in *. destruct H as [w ->]. split; auto. eauto.
  - eapply inv_quiet; eauto. pose proof (i_phase _ I (Core l (Done :: fifo) wc Signalled)) as H. specialize (H ltac:(apply in_mid; auto)).
    unfold phase_ok in *. cbn [c_phase c_fifo c_todo c_wc] in *. destruct H as (H0 & H1 & w & E).
    split; auto. split; [|intros X; rewrite X in H0; discriminate]. destruct w as [|[k b] w]; [injection E as ->; auto|discriminate].
Qed.

Hypothesis Hlen : length o = length outm.
Hypothesis Hgood : Forall (good inm outm o) (concat jobs).
Hypothesis Hrest : forall k, (forall a, In a (concat jobs) -> ~ touch a k) -> nth k o 0%Z = nth k outm 0%Z.
Hypothesis Hdisj : ForallOrdPairs disj (concat jobs).

Lemma todos_start js : todos (map (fun j => Core j [] [] Working) js) = concat js.
Proof. unfold todos. induction js as [|j js IH]; auto. cbn. rewrite <- IH. auto. Qed.
Lemma pend_start js : pend (map (fun j => Core j [] [] Working) js) = [].
Proof. unfold pend. induction js as [|j js IH]; auto. Qed.
Lemma inv_start : inv (start jobs outm).
Proof.
  constructor; cbn [start fst snd]; rewrite ?todos_start, ?pend_start; auto.
  - intros e [].
  - apply Forall_forall. auto.
  - intros k. destruct (existsb (fun a => (a_ooff a <=? k) && (k <? a_ooff a + a_olen a)) (concat jobs)) eqn:E.
    + apply existsb_exists in E. destruct E as (a & Ha & T). right. left. exists a. split; auto. unfold touch. lia.
    + left. symmetry. apply Hrest. intros a Ha T. assert (existsb (fun a => (a_ooff a <=? k) && (k <? a_ooff a + a_olen a)) (concat jobs) = true); [|congruence].
      apply existsb_exists. exists a. split; auto. unfold touch in T. lia.
  - intros c Hc. apply in_map_iff in Hc. destruct Hc as (j & <- & _). exists []. reflexivity.
  - intros c e Hc. apply in_map_iff in Hc. destruct Hc as (j & <- & _). intros [].
Qed.
Lemma inv_steps s : steps nt inm sg (start jobs outm) s -> inv s.
Proof.
  intros H. remember (start jobs outm) as s0 eqn:E. induction H as [s|s s' s'' H IH HS]; subst; [apply inv_start|]. eapply inv_step; eauto.
Qed.

(** ** After the join *)
Lemma joined_todos cs m : inv (cs, m) -> joined cs -> todos cs = [].
Proof.
  intros I J. destruct (todos cs) as [|a l] eqn:E; auto. exfalso. assert (Ha : In a (todos cs)) by (rewrite E; left; auto).
  unfold todos in Ha. apply in_flat_map in Ha. destruct Ha as (c & Hc & Ha). pose proof (i_phase _ I c Hc) as P. unfold phase_ok in P. rewrite (J c Hc) in P.
  destruct P as (P & _). rewrite P in Ha. destruct Ha.
Qed.
Lemma joined_pend cs m e : inv (cs, m) -> joined cs -> In e (pend cs) ->
  sg = Plain_store /\ exists a, In a (concat jobs) /\ nt a = true /\ touch a (fst e).
Proof.
  intros I J He. unfold pend in He. apply in_flat_map in He. destruct He as (c & Hc & He). pose proof (i_phase _ I c Hc) as P. unfold phase_ok in P. rewrite (J c Hc) in P.
  destruct P as (_ & P1 & P2). unfold pending in He. rewrite P1 in He. cbn [puts app] in He. split.
  - destruct sg; auto. rewrite P2 in He by auto. destruct He.
  - apply (i_wc _ I c e); auto.
Qed.

Theorem join_draining cs m : sg = Draining -> steps nt inm sg (start jobs outm) (cs, m) -> joined cs -> m = o.
Proof.
  intros Hs H J. apply inv_steps in H. apply list_ext; [pose proof (i_len _ H) as L; cbn [snd] in L; congruence|]. intros k _.
  destruct (i_final _ H k) as [E|[(a & Ha & _)|(e & He & _)]]; auto; cbn [fst snd] in *; exfalso.
  - rewrite (joined_todos _ _ H J) in Ha. destruct Ha.
  - apply (joined_pend _ _ _ H J) in He. destruct He as [He _]. congruence.
Qed.
Theorem join_any cs m k : steps nt inm sg (start jobs outm) (cs, m) -> joined cs ->
  length m = length outm /\ (nth k m 0%Z = nth k outm 0%Z \/ nth k m 0%Z = nth k o 0%Z) /\
  ((forall a, In a (concat jobs) -> nt a = true -> ~ touch a k) -> nth k m 0%Z = nth k o 0%Z).
Proof.
  intros H J. apply inv_steps in H. split; [apply (i_len _ H)|]. split; [apply (i_two _ H)|]. intros HN.
  destruct (i_final _ H k) as [E|[(a & Ha & _)|(e & He & Ek)]]; auto; cbn [fst snd] in *; exfalso.
  - rewrite (joined_todos _ _ H J) in Ha. destruct Ha.
  - apply (joined_pend _ _ _ H J) in He. destruct He as (_ & a & Ha & Hn & T). rewrite Ek in T. apply (HN a Ha Hn T).
Qed.

(** ** Every execution ends *)
Definition weight (c : core) : nat :=
  list_sum (map (fun a => 1 + a_olen a) (c_todo c)) + length (c_fifo c) + length (c_wc c) +
  match c_phase c with Working => 2 | Signalled => 0 | Joined => 0 end.
Definition total (cs : list core) : nat := list_sum (map weight cs).
Lemma step_total s s' : inv s -> step nt inm sg s s' -> total (fst s') < total (fst s).
Proof.
  intros I HS. destruct HS as [pre c post m c' m' H]. cbn [fst]. unfold total. rewrite !map_app, !list_sum_app. cbn [map list_sum fold_right].
  change (fold_right Nat.add 0) with list_sum. assert (weight c' < weight c); [|lia].
  destruct H as [a l fifo wc m v Hrun|l k b fifo wc p m|l fifo wc1 e wc2 p m|m Hs|fifo wc m Hs|l fifo wc m]; unfold weight; cbn [c_todo c_fifo c_wc c_phase length map];
    rewrite ?app_length; cbn [length]; try lia.
  destruct (exec_facts pre _ post m a l I eq_refl) as (v' & R & Lv & _). assert (v' = v) as -> by congruence.
  assert (Ha : In a (todos (pre ++ Core (a :: l) fifo wc Working :: post))) by (rewrite todos_mid; apply in_or_app; right; left; auto).
  destruct (i_good _ I a Ha) as (r & _ & _ & _ & Lo & _).
  cbn [list_sum fold_right]. change (fold_right Nat.add 0) with list_sum.
  destruct (nt a); cbn [c_todo c_fifo c_wc c_phase]; rewrite !app_length, ?map_length, written_length by lia; lia.
Qed.
Lemma step_exists cs m : inv (cs, m) -> joined cs \/ exists s', step nt inm sg (cs, m) s'.
Proof.
  intros I. assert (D : joined cs \/ exists c, In c cs /\ c_phase c <> Joined).
  { clear I. induction cs as [|c cs IH]; [left; intros c []|]. destruct (c_phase c) eqn:E; [right; exists c; split; [left; auto|congruence]..|].
    destruct IH as [J|(d & Hd & N)]; [left; intros x [<-|Hx]; auto|right; exists d; split; auto; right; auto]. }
  destruct D as [J|(c & Hc & N)]; auto. right. apply in_split in Hc. destruct Hc as (pre & post & ->).
  pose proof (i_phase _ I c) as P. specialize (P ltac:(apply in_mid; auto)). unfold phase_ok in P.
  assert (G : forall c' m', cstep nt inm sg c m c' m' -> exists s', step nt inm sg (pre ++ c :: post, m) s') by (intros; eexists; constructor; eauto).
  destruct c as [todo fifo wc ph]. cbn [c_phase c_todo c_fifo c_wc] in *. destruct ph; [| |congruence].
  - destruct todo as [|a l].
    + destruct fifo as [|[k b|] fifo]; [|eapply G; apply s_drain|exfalso; destruct P as ([|[? ?] ?] & ?); discriminate].
      destruct sg eqn:Es; [|eapply G; apply s_signal_plain; auto]. destruct wc as [|e wc]; [eapply G; apply s_signal_draining; auto|].
      eapply G. apply (s_evict nt inm Draining [] [] [] e wc).
    + destruct (exec_facts pre _ post m a l I eq_refl) as (v & R & _). eapply G. apply s_exec. exact R.
  - destruct P as (_ & -> & w & ->). destruct w as [|[k b] w]; cbn [map app put_entry fst snd]; eapply G; [apply s_done|apply s_drain].
Qed.
Theorem reaches_join s : inv s -> exists cs m, steps nt inm sg s (cs, m) /\ joined cs.
Proof.
  remember (total (fst s)) as n eqn:E. revert s E. induction n as [n IH] using lt_wf_ind. intros [cs m] E I.
  destruct (step_exists cs m I) as [J|[s' HS]]; [exists cs, m; split; auto; constructor|].
  destruct (IH (total (fst s'))) with (s := s') as (cs' & m' & H & J); auto.
  - rewrite E. apply step_total; auto.
  - eapply inv_step; eauto.
  - exists cs', m'. split; auto. clear - HS H. remember (cs', m') as s'' eqn:E. clear E. induction H as [s|s s1 s2 H IH HS']; [eapply steps_more; eauto; constructor|].
    eapply steps_more; eauto.
Qed.

(** ** An execution in which no streaming store becomes visible before the join *)
Definition streamed (k : nat) : Prop := exists a, In a (concat jobs) /\ nt a = true /\ touch a k.
Definition lazy (s : list core * mem) : Prop :=
  (forall c e, In c (fst s) -> In e (puts (c_fifo c)) -> exists a, In a (concat jobs) /\ nt a = false /\ touch a (fst e)) /\
  forall k, streamed k -> nth k (snd s) 0%Z = nth k outm 0%Z.
Lemma plain_not_streamed k a : In a (concat jobs) -> nt a = false -> touch a k -> ~ streamed k.
Proof.
  intros Ha Na Ta (b & Hb & Nb & Tb). assert (D : disj a b \/ disj b a).
  { clear - Ha Hb Hdisj Na Nb. induction Hdisj as [|x l HF H IH]; [destruct Ha|]. rewrite Forall_forall in HF.
    destruct Ha as [->|Ha], Hb as [->|Hb]; auto. congruence. }
  unfold disj, touch in *. lia.
Qed.
Lemma lazy_step cs m : sg = Plain_store -> inv (cs, m) -> lazy (cs, m) -> joined cs \/ exists s', step nt inm sg (cs, m) s' /\ lazy s'.
Proof.
  intros Hs I [Z1 Z2]. cbn [fst snd] in *. assert (D : joined cs \/ exists c, In c cs /\ c_phase c <> Joined).
  { clear I Z1. induction cs as [|c cs IH]; [left; intros c []|]. destruct (c_phase c) eqn:E; [right; exists c; split; [left; auto|congruence]..|].
    destruct IH as [J|(d & Hd & N)]; [left; intros x [<-|Hx]; auto|right; exists d; split; auto; right; auto]. }
  destruct D as [J|(c & Hc & N)]; auto. right. apply in_split in Hc. destruct Hc as (pre & post & ->).
  pose proof (i_phase _ I c) as P. specialize (P ltac:(apply in_mid; auto)). unfold phase_ok in P.
  assert (G : forall c' m', cstep nt inm sg c m c' m' ->
     (forall e, In e (puts (c_fifo c')) -> In e (puts (c_fifo c)) \/ exists a, In a (concat jobs) /\ nt a = false /\ touch a (fst e)) ->
     (forall k, streamed k -> nth k m' 0%Z = nth k m 0%Z) -> exists s', step nt inm sg (pre ++ c :: post, m) s' /\ lazy s').
  { intros c' m' HC HF HM. exists (pre ++ c' :: post, m'). split; [constructor; auto|]. split; cbn [fst snd].
    - intros x e. rewrite in_mid. intros [Hx|Hx] He; [apply (Z1 x e); auto; apply in_mid; auto|]. subst x.
      destruct (HF e He) as [He'|]; auto. apply (Z1 c e); auto. apply in_mid; auto.
    - intros k Hk. rewrite HM; auto. }
  assert (PUT : forall k b fifo, c_fifo c = Put k b :: fifo -> forall j, streamed j -> nth j (put m (k, b)) 0%Z = nth j m 0%Z).
  { intros k b fifo Ef j Hj. assert (He : In (k, b) (puts (c_fifo c))) by (rewrite Ef; left; auto).
    assert (Hlt : k < length m).
    { pose proof (i_len _ I) as Lm. cbn [snd] in Lm. rewrite Lm. apply (i_pend _ I (k, b)). cbn [fst]. rewrite pend_mid, in_app3. right. unfold pending. apply in_or_app. auto. }
    rewrite put_nth by auto. cbn [fst snd]. destruct (Nat.eqb_spec j k) as [->|]; auto. exfalso.
    destruct (Z1 c (k, b)) as (a & Ha & Na & Ta); auto; [apply in_mid; auto|]. apply (plain_not_streamed k a Ha Na Ta Hj). }
  destruct c as [todo fifo wc ph]. cbn [c_phase c_todo c_fifo c_wc] in *. destruct ph; [| |congruence].
  - destruct todo as [|a l].
    + destruct fifo as [|[k b|] fifo]; [| |exfalso; destruct P as ([|[? ?] ?] & ?); discriminate].
      * eapply G; [apply s_signal_plain; auto| |auto]. intros e He. auto.
      * eapply G; [apply s_drain| |eauto]. intros e He. left. right. auto.
    + destruct (exec_facts pre _ post m a l I eq_refl) as (v & R & Lv & _).
      assert (Ha : In a (todos (pre ++ Core (a :: l) fifo wc Working :: post))) by (rewrite todos_mid; apply in_or_app; right; left; auto).
      destruct (i_good _ I a Ha) as (r & _ & _ & _ & Lo & _). apply (i_from _ I) in Ha.
      eapply G; [apply s_exec; exact R| |auto]. intros e He. destruct (nt a) eqn:En; cbn [c_fifo] in He; [auto|].
      rewrite puts_app, puts_map in He. apply in_app_or in He. destruct He as [He|He]; auto. right. exists a. split; auto. split; auto.
      apply (written_in a v e) in He; [tauto|lia].
  - destruct P as (_ & -> & w & ->). destruct w as [|[k b] w]; cbn [map app put_entry fst snd] in *; eapply G; [apply s_done| |auto|apply s_drain| |eauto]; intros e He; left; auto.
    right. auto.
Qed.
Theorem lazy_join : sg = Plain_store -> exists cs m, steps nt inm sg (start jobs outm) (cs, m) /\ joined cs /\ forall k, streamed k -> nth k m 0%Z = nth k outm 0%Z.
Proof.
  intros Hs. assert (G : forall n s, n = total (fst s) -> inv s -> lazy s ->
     exists cs m, steps nt inm sg s (cs, m) /\ joined cs /\ forall k, streamed k -> nth k m 0%Z = nth k outm 0%Z).
  { induction n as [n IH] using lt_wf_ind. intros [cs m] E I L.
    destruct (lazy_step cs m Hs I L) as [J|(s' & HS & L')]; [exists cs, m; split; [constructor|]; split; auto; apply L|].
    destruct (IH (total (fst s'))) with (s := s') as (cs' & m' & H & J); auto.
    - rewrite E. apply step_total; auto.
    - eapply inv_step; eauto.
    - exists cs', m'. split; auto. clear - HS H. remember (cs', m') as s'' eqn:E. clear E. induction H as [s|s s1 s2 H IH HS']; [eapply steps_more; eauto; constructor|].
      eapply steps_more; eauto. }
  apply (G _ _ eq_refl inv_start). split; cbn [start fst snd]; auto.
  intros c e Hc. apply in_map_iff in Hc. destruct Hc as (j & <- & _). intros [].
Qed.
End Machine.
