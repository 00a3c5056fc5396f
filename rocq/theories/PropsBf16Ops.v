(** PropsBf16Ops.v -- C37: the bf16 operators on infinities and zeros, the sign of their results. *)
From Coq Require Import ZArith List Lia Bool Reals Lra.
From Flocq Require Import Core Binary Bits.
From Verif Require Import Base Floats Dtypes Spec ApiSpec FloatFacts FloatFacts2 Bf16Spec Bf16Facts MinMax MinMaxFacts PropsBf16.
Local Open Scope R_scope.

(** The bf16 value is an infinity, a zero, a NaN; its sign. *)
Definition is_inf (b : Z) (s : bool) : Prop := bf16_to_f32 b = B754_infinity 24 128 s.
Definition is_zero (b : Z) (s : bool) : Prop := bf16_to_f32 b = B754_zero 24 128 s.
Definition is_nan16 (b : Z) : Prop := nan (bf16_to_f32 b).
Definition finite16 (b : Z) : Prop := finite (bf16_to_f32 b).
Definition sign16 (b : Z) : bool := Bsign 24 128 (bf16_to_f32 b).

Lemma store_inf s : is_inf (bf16_of_f32 (B754_infinity 24 128 s)) s.
Proof. apply C17_infinity. Qed.
Lemma store_zero s : is_zero (bf16_of_f32 (B754_zero 24 128 s)) s.
Proof. unfold is_zero. destruct s; vm_compute; reflexivity. Qed.
Lemma store_nan x : nan x -> is_nan16 (bf16_of_f32 x).
Proof. intros N. apply (C17_nan x N). Qed.
Lemma store_sign x : sign16 (bf16_of_f32 x) = Bsign 24 128 x.
Proof.
  unfold sign16. destruct (is_finite 24 128 x) eqn:F; [apply (C17_round_to_nearest_even x F)|].
  destruct x as [s|s|s pl Hp|s m e He]; try discriminate; [rewrite C17_infinity; reflexivity|]. apply (C17_nan (B754_nan 24 128 s pl Hp)). reflexivity.
Qed.

(** An infinite operand, IEEE 754: the infinity wins against every finite value; opposing infinities, 0 * inf and inf / inf have no value. *)
Theorem C37_infinite a b s : is_inf a s ->
  (finite16 b \/ is_inf b s -> is_inf (bf16_add a b) s /\ is_inf (bf16_add b a) s) /\
  (finite16 b \/ is_inf b (negb s) -> is_inf (bf16_sub a b) s /\ is_inf (bf16_sub b a) (negb s)) /\
  (is_inf b (negb s) -> is_nan16 (bf16_add a b)) /\ (is_inf b s -> is_nan16 (bf16_sub a b)) /\
  (~ is_nan16 b -> ~ (exists t, is_zero b t) -> is_inf (bf16_mul a b) (xorb s (sign16 b)) /\ is_inf (bf16_mul b a) (xorb (sign16 b) s)) /\
  (forall t, is_zero b t -> is_nan16 (bf16_mul a b) /\ is_nan16 (bf16_mul b a)) /\
  (finite16 b -> is_inf (bf16_div a b) (xorb s (sign16 b)) /\ is_zero (bf16_div b a) (xorb (sign16 b) s)) /\
  (forall t, is_inf b t -> is_nan16 (bf16_div a b)).
Proof.
  intros Ha. unfold is_inf at 1 in Ha. unfold bf16_add, bf16_sub, bf16_mul, bf16_div. rewrite !f32_of_bf16_eq. rewrite Ha.
  assert (I : forall r t, r = B754_infinity 24 128 t -> is_inf (bf16_of_f32 r) t) by (intros r t ->; apply store_inf).
  assert (O : forall r t, r = B754_zero 24 128 t -> is_zero (bf16_of_f32 r) t) by (intros r t ->; apply store_zero).
  assert (N : forall r, nan r -> is_nan16 (bf16_of_f32 r)) by apply store_nan.
  unfold sign16. refine (conj _ (conj _ (conj _ (conj _ (conj _ (conj _ (conj _ _))))))).
  - intros [F|F]; (split; apply I); [| |unfold is_inf in F; rewrite F; destruct s; reflexivity..]; unfold finite16 in F; destruct (bf16_to_f32 b) as [t|t|t pl Hp|t m e He]; try discriminate; reflexivity.
  - intros [F|F]; (split; apply I); [| |unfold is_inf in F; rewrite F; destruct s; reflexivity..]; unfold finite16 in F; destruct (bf16_to_f32 b) as [t|t|t pl Hp|t m e He]; try discriminate; reflexivity.
  - intros F. apply N. unfold is_inf in F. rewrite F. destruct s; reflexivity.
  - intros F. apply N. unfold is_inf in F. rewrite F. destruct s; reflexivity.
  - intros F Z. unfold is_nan16, is_zero in *. split; apply I; (destruct (bf16_to_f32 b) as [t|t|t pl Hp|t m e He]; [exfalso; apply Z; eauto| |exfalso; apply F; reflexivity|]); reflexivity.
  - intros t F. unfold is_zero in F. rewrite F. split; apply N; reflexivity.
  - intros F. unfold finite16 in F. split; [apply I|apply O]; destruct (bf16_to_f32 b) as [t|t|t pl Hp|t m e He]; try discriminate; reflexivity.
  - intros t F. unfold is_inf in F. rewrite F. apply N. reflexivity.
Qed.
(** Division by zero: a signed infinity for a nonzero dividend (infinite or not), NaN for 0/0. *)
Theorem C37_by_zero a b t : is_zero b t ->
  (~ is_nan16 a -> ~ (exists s, is_zero a s) -> is_inf (bf16_div a b) (xorb (sign16 a) t)) /\ (forall s, is_zero a s -> is_nan16 (bf16_div a b)).
Proof.
  intros Hb. unfold is_zero in Hb. unfold bf16_div. rewrite !f32_of_bf16_eq, Hb. split.
  - intros F Z. unfold is_nan16, is_zero, sign16 in *. assert (E : fdiv (bf16_to_f32 a) (B754_zero 24 128 t) = B754_infinity 24 128 (xorb (Bsign 24 128 (bf16_to_f32 a)) t)).
    { destruct (bf16_to_f32 a) as [s|s|s pl Hp|s m e He]; [exfalso; apply Z; eauto| |exfalso; apply F; reflexivity|]; reflexivity. }
    rewrite E. apply store_inf.
  - intros s Ha. unfold is_zero in Ha. rewrite Ha. apply store_nan. reflexivity.
Qed.
Lemma fmul_sign x y : is_nan 24 128 (fmul x y) = false -> Bsign 24 128 (fmul x y) = xorb (Bsign 24 128 x) (Bsign 24 128 y).
Proof.
  unfold fmul, b32_mult. match goal with |- context [Bmult _ _ ?a ?b ?c ?d _ _] => pose proof (Bmult_correct 24 128 a b c d x y) as C; set (r := Bmult 24 128 a b c d x y) in * end. clearbody r.
  destruct (Rlt_bool _ _) in C; [intros N; apply C; auto|].
  intros N. destruct r as [s|s|s pl Hp|s m e He]; cbn in C |- *; try discriminate; inversion C; reflexivity.
Qed.
Lemma fdiv_sign x y : is_nan 24 128 (fdiv x y) = false -> Bsign 24 128 (fdiv x y) = xorb (Bsign 24 128 x) (Bsign 24 128 y).
Proof.
  destruct y as [t|t|t pl Hp|t m e He].
  - destruct x as [s|s|s pl Hp|s m e He]; try reflexivity; discriminate.
  - destruct x as [s|s|s pl Hp|s m e He]; try reflexivity; discriminate.
  - destruct x as [s|s|s pl' Hp'|s m e He]; discriminate.
  - assert (Ny : B2R 24 128 (B754_finite 24 128 t m e He) <> 0).
    { cbn [B2R]. apply F2R_neq_0. destruct t; discriminate. }
    unfold fdiv, b32_div. match goal with |- context [Bdiv _ _ ?a ?b ?c ?d _ _] => pose proof (Bdiv_correct 24 128 a b c d x _ Ny) as C; set (r := Bdiv 24 128 a b c d x (B754_finite 24 128 t m e He)) in * end. clearbody r.
    destruct (Rlt_bool _ _) in C; [intros N; apply C; auto|].
    intros N. destruct r as [s|s|s pl Hp|s m' e' He']; cbn in C |- *; try discriminate; inversion C; reflexivity.
Qed.
(** The sign of every product and quotient that is not NaN (zeros and infinities included) is the product of the operands' signs. *)
Theorem C37_signs a b :
  (~ is_nan16 (bf16_mul a b) -> sign16 (bf16_mul a b) = xorb (sign16 a) (sign16 b)) /\ (~ is_nan16 (bf16_div a b) -> sign16 (bf16_div a b) = xorb (sign16 a) (sign16 b)).
Proof.
  unfold bf16_mul, bf16_div. rewrite !f32_of_bf16_eq. rewrite !store_sign. unfold sign16. split; intros N.
  - apply fmul_sign. apply not_true_is_false; intros H; apply N, store_nan, H.
  - apply fdiv_sign. apply not_true_is_false; intros H; apply N, store_nan, H.
Qed.

(** Instances: inf + 1, inf - inf, 1 / -0, a product that underflows to -0. *)
Example C37_special_witness : (
  is_inf 0x7f80 false /\ finite16 0x3f80 /\ is_inf (bf16_add 0x7f80 0x3f80) false /\ is_nan16 (bf16_sub 0x7f80 0x7f80) /\
  is_zero 0x8000 true /\ is_inf (bf16_div 0x3f80 0x8000) true /\
  sign16 (bf16_mul 0x8001 0x0001) = true /\ ~ is_nan16 (bf16_mul 0x8001 0x0001))%Z.
Proof. repeat split; try (vm_compute; reflexivity). intros H. vm_compute in H. discriminate. Qed.
