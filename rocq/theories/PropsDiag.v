(** PropsDiag.v -- C64: what a rejected call prints before it aborts. *)
From Coq Require Import ZArith Bool Ascii String List Lia.
From Verif Require Import Base Floats Dtypes Spec ApiSpec Context Api PropsDispatch MinMax Diag.
Import ListNotations.
Local Open Scope nat_scope.
Ltac Zify.zify_post_hook ::= Z.div_mod_to_equations.

(** ** Numbers *)
Definition is_digit (c : ascii) : Prop := (48 <= Z.of_N (N_of_ascii c) <= 57)%Z.
(** the number a decimal text denotes *)
Definition number (t : text) : Z := fold_left (fun a c => 10 * a + (Z.of_N (N_of_ascii c) - 48))%Z t 0%Z.
Lemma digit_ok d : (0 <= d < 10)%Z -> Z.of_N (N_of_ascii (digit d)) = (48 + d)%Z.
Proof.
  intros H. assert (D : In d [0;1;2;3;4;5;6;7;8;9]%Z) by (cbn; lia). cbn in D.
  repeat (destruct D as [<-|D]; [reflexivity|]). contradiction.
Qed.
Lemma digits_ok fuel : forall n acc, (0 <= n < 10 ^ Z.of_nat fuel)%Z -> fuel <> 0 -> exists d, digits fuel n acc = d ++ acc /\ number d = n /\ Forall is_digit d /\
  1 <= length d <= fuel /\ ((0 < n)%Z -> hd_error d <> Some "0"%char).
Proof.
  induction fuel as [|f IH]; intros n acc Hn Hf; [lia|]. cbn [digits]. destruct (Z.ltb_spec n 10) as [L|L].
  - pose proof (digit_ok n ltac:(lia)) as D. exists [digit n]. split; auto. split; [unfold number; cbn [fold_left]; rewrite D; lia|]. split; [constructor; [unfold is_digit; rewrite D; lia|constructor]|].
    split; [cbn; lia|]. intros P E. injection E as E. rewrite E in D. change (Z.of_N (N_of_ascii "0"%char)) with 48%Z in D. lia.
  - assert (f <> 0) by (intros ->; cbn in Hn; lia).
    assert (Hq : (0 <= n / 10 < 10 ^ Z.of_nat f)%Z).
    { rewrite Nat2Z.inj_succ, Z.pow_succ_r in Hn by lia. split; [apply Z.div_pos; lia|]. apply Z.div_lt_upper_bound; lia. }
    destruct (IH (n / 10)%Z (digit (n mod 10) :: acc) Hq H) as (d & E & V & F & B & P). pose proof (digit_ok (n mod 10) ltac:(apply Z.mod_pos_bound; lia)) as D.
    exists (d ++ [digit (n mod 10)]). rewrite E, <- app_assoc. split; auto. split.
    { unfold number in *. rewrite fold_left_app, V. cbn [fold_left]. rewrite D. pose proof (Z.div_mod n 10 ltac:(lia)). lia. }
    split; [apply Forall_app; split; auto; constructor; [unfold is_digit; rewrite D; pose proof (Z.mod_pos_bound n 10 ltac:(lia)); lia|constructor]|].
    split; [rewrite app_length; cbn [length]; lia|]. intros _. destruct d as [|c d]; [cbn in B; lia|]. cbn [app hd_error] in *. apply P.
    apply Z.div_str_pos. lia.
Qed.
(** [dec] prints the ordinary decimal representation of every 64-bit number. *)
Theorem C64_numbers n : (0 <= n < 2 ^ 64)%Z -> number (dec n) = n /\ Forall is_digit (dec n) /\ 1 <= length (dec n) <= 20 /\ ((0 < n)%Z -> hd_error (dec n) <> Some "0"%char).
Proof.
  intros H. destruct (digits_ok 20 n []) as (d & E & R); [|lia|].
  - change (10 ^ Z.of_nat 20)%Z with 100000000000000000000%Z. change (2 ^ 64)%Z with 18446744073709551616%Z in H. lia.
  - unfold dec. rewrite E, app_nil_r. exact R.
Qed.

(** ** The buffer *)
Definition nonul (t : text) : bool := forallb (fun c => negb (Ascii.eqb c nul)) t.
Lemma nonul_app a b : nonul (a ++ b) = nonul a && nonul b. Proof. apply forallb_app. Qed.
Lemma nonul_digits t : Forall is_digit t -> nonul t = true.
Proof.
  intros H. apply forallb_forall. intros c Hc. rewrite Forall_forall in H. specialize (H c Hc). destruct (Ascii.eqb_spec c nul) as [->|]; auto. cbv in H. destruct H as [H _]. exfalso. apply H. reflexivity.
Qed.
Lemma nonul_firstn n t : nonul t = true -> nonul (firstn n t) = true.
Proof. revert n. induction t as [|c t IH]; intros [|n]; cbn; auto. intros H. apply andb_prop in H. destruct H as [-> H]. cbn. apply IH, H. Qed.
Lemma c_string_ok l r : nonul l = true -> c_string (l ++ nul :: r) = Ok l.
Proof.
  induction l as [|c l IH]; cbn [app c_string nonul forallb]; [reflexivity|]. intros H. apply andb_prop in H. destruct H as [H1 H2].
  destruct (Ascii.eqb c nul); [discriminate|]. fold (nonul l) in H2. rewrite IH by auto. reflexivity.
Qed.
(** writing at the end [l] of what was written so far *)
Lemma snprintf_ok l r off size s : off = Z.of_nat (length l) -> (1 <= size)%Z -> length (firstn (Z.to_nat (size - 1)) s) < length r ->
  exists r', snprintf (l ++ r) off size s = Ok (l ++ firstn (Z.to_nat (size - 1)) s ++ nul :: r') /\
    length (firstn (Z.to_nat (size - 1)) s ++ nul :: r') = length r.
Proof.
  intros -> Hs HL. unfold snprintf. rewrite (proj2 (Z.eqb_neq _ _)) by lia. set (w := firstn (Z.to_nat (size - 1)) s) in *.
  rewrite (proj2 (Z.leb_le 0 _)) by lia. rewrite (proj2 (Z.leb_le _ _)).
  2: { rewrite !app_length. cbn [length]. lia. }
  cbn [andb]. rewrite Nat2Z.id. exists (skipn (length w + 1) r). split.
  - f_equal. rewrite firstn_app, Nat.sub_diag, firstn_O, app_nil_r, firstn_all. f_equal. rewrite <- app_assoc. f_equal. cbn [app]. f_equal.
    rewrite skipn_app, app_length. cbn [length]. rewrite (skipn_all2 l) by lia. cbn [app]. f_equal. lia.
  - rewrite app_length. cbn [length]. rewrite skipn_length. lia.
Qed.
Lemma wrap_small z : (0 <= z < 2 ^ 64)%Z -> wrap_u64 z = z.
Proof. intros H. apply Z.mod_small. exact H. Qed.
Lemma tmp_length : length (repeat nul (Z.to_nat tmp_size)) = Z.to_nat 8192.
Proof. apply repeat_length. Qed.

Definition shown (body : text) : text := esc_red ++ body ++ esc_reset.
Lemma esc_red_length : length esc_red = 5. Proof. reflexivity. Qed.
Lemma esc_reset_length : length esc_reset = 4. Proof. reflexivity. Qed.

(** ** C64, the buffer.  The text is printed whole up to 8182 characters, cut (nothing else happens) up to 8187, and written beyond the array
    from 8188 on. *)
Theorem C64_panic lp64 msg args s : format lp64 msg args = Ok s -> nonul s = true -> (Z.of_nat (length s) <= 8187)%Z ->
  panic lp64 msg args = Ok (firstn (Z.to_nat 8191) (shown s)).
Proof.
  intros E N L. unfold panic. cbv zeta. rewrite E. cbn [bind]. change (int_len esc_red) with 5%Z. change (tmp_size - 5)%Z with 8187%Z. rewrite (wrap_small 8187) by lia.
  pose proof tmp_length as TL. set (tmp := repeat nul (Z.to_nat tmp_size)) in *. clearbody tmp.
  assert (E8 : Z.to_nat 8191 = Z.to_nat 8186 + 5) by lia. assert (E9 : Z.to_nat 8192 = S (Z.to_nat 8191)) by lia.
  assert (K0 : (Z.of_nat (Z.to_nat 8186) = 8186)%Z) by lia.
  change (Z.to_nat (tmp_size - 1)) with (Z.to_nat 8191) in *.
  destruct (snprintf_ok [] tmp 0 tmp_size esc_red) as (r1 & E1 & L1); [reflexivity|unfold tmp_size; lia| |].
  { rewrite firstn_length, esc_red_length, TL. change (tmp_size - 1)%Z with 8191%Z. lia. }
  cbn [app] in E1. rewrite E1. cbn [bind]. change (tmp_size - 1)%Z with 8191%Z in *. rewrite (firstn_all2 esc_red) in * by (rewrite esc_red_length; lia).
  rewrite app_length, esc_red_length in L1. cbn [app] in E1.
  destruct (snprintf_ok esc_red (nul :: r1) 5 8187 s) as (r2 & E2 & L2); [reflexivity|lia| |].
  { cbn [length] in *. rewrite firstn_length. change (8187 - 1)%Z with 8186%Z. lia. }
  rewrite E2. cbn [bind]. change (8187 - 1)%Z with 8186%Z in *.
  assert (IL : int_len s = Z.of_nat (length s)) by (unfold int_len; rewrite (proj2 (Z.leb_le _ _)) by lia; reflexivity). rewrite IL.
  assert (I32 : i32 (5 + Z.of_nat (length s)) = Ok (5 + Z.of_nat (length s))%Z).
  { unfold i32, in_i32. rewrite (proj2 (Z.leb_le _ _)) by lia. cbn [andb]. rewrite ?(proj2 (Z.leb_le _ _)), ?(proj2 (Z.ltb_lt _ _)) by lia. reflexivity. }
  rewrite I32. cbn [bind]. rewrite wrap_small by (unfold tmp_size; lia).
  destruct (Z.eq_dec (Z.of_nat (length s)) 8187) as [E87|N87].
  - replace (tmp_size - (5 + Z.of_nat (length s)))%Z with 0%Z by (unfold tmp_size; lia). unfold snprintf at 1. cbn [Z.eqb bind].
    change (esc_red ++ firstn (Z.to_nat 8186) s ++ nul :: r2) with (esc_red ++ (firstn (Z.to_nat 8186) s ++ nul :: r2)). rewrite app_assoc.
    rewrite c_string_ok by (rewrite nonul_app, nonul_firstn by auto; reflexivity). f_equal. unfold shown.
    rewrite firstn_app, esc_red_length, (firstn_all2 esc_red) by (rewrite esc_red_length; lia). f_equal.
    rewrite firstn_app. replace (Z.to_nat 8191 - 5) with (Z.to_nat 8186) by lia. replace (Z.to_nat 8186 - length s) with 0 by lia. cbn [firstn]. rewrite app_nil_r. reflexivity.
  - rewrite (firstn_all2 s) in * by lia. rewrite app_assoc.
    destruct (snprintf_ok (esc_red ++ s) (nul :: r2) (5 + Z.of_nat (length s)) (tmp_size - (5 + Z.of_nat (length s))) esc_reset) as (r3 & E3 & L3).
    { rewrite app_length, esc_red_length. lia. }
    { unfold tmp_size. lia. }
    { rewrite firstn_length, esc_reset_length. rewrite app_length in L2. cbn [length] in *. unfold tmp_size. lia. }
    rewrite E3. cbn [bind]. rewrite app_assoc. rewrite c_string_ok by (rewrite !nonul_app, N, nonul_firstn by reflexivity; reflexivity).
    f_equal. unfold shown. rewrite firstn_app, esc_red_length, (firstn_all2 esc_red) by (rewrite esc_red_length; lia). rewrite <- app_assoc. f_equal.
    rewrite firstn_app, (firstn_all2 s) by lia. f_equal. f_equal. unfold tmp_size. lia.
Qed.
Theorem C64_panic_complete lp64 msg args s : format lp64 msg args = Ok s -> nonul s = true -> (Z.of_nat (length s) <= 8182)%Z ->
  panic lp64 msg args = Ok (shown s).
Proof.
  intros E N L. rewrite (C64_panic lp64 msg args s) by (auto; lia). rewrite firstn_all2; auto. unfold shown. rewrite !app_length, esc_red_length, esc_reset_length. lia.
Qed.
Theorem C64_panic_overrun_refuted lp64 msg args s : format lp64 msg args = Ok s -> (8188 <= Z.of_nat (length s) < 2 ^ 31)%Z ->
  panic lp64 msg args = UB.
Proof.
  intros E L. change (2 ^ 31)%Z with 2147483648%Z in L. unfold panic. cbv zeta. rewrite E. cbn [bind]. change (int_len esc_red) with 5%Z. change (tmp_size - 5)%Z with 8187%Z. rewrite (wrap_small 8187) by lia.
  pose proof tmp_length as TL. set (tmp := repeat nul (Z.to_nat tmp_size)) in *. clearbody tmp.
  assert (E8 : Z.to_nat 8191 = Z.to_nat 8186 + 5) by lia. assert (E9 : Z.to_nat 8192 = S (Z.to_nat 8191)) by lia.
  destruct (snprintf_ok [] tmp 0 tmp_size esc_red) as (r1 & E1 & L1); [reflexivity|unfold tmp_size; lia| |].
  { rewrite firstn_length, esc_red_length, TL. change (tmp_size - 1)%Z with 8191%Z. lia. }
  cbn [app] in E1. rewrite E1. cbn [bind]. change (tmp_size - 1)%Z with 8191%Z in *. rewrite (firstn_all2 esc_red) in * by (rewrite esc_red_length; lia).
  rewrite app_length, esc_red_length in L1.
  destruct (snprintf_ok esc_red (nul :: r1) 5 8187 s) as (r2 & E2 & L2); [reflexivity|lia| |].
  { cbn [length] in *. rewrite firstn_length. change (8187 - 1)%Z with 8186%Z. lia. }
  rewrite E2. cbn [bind]. change (8187 - 1)%Z with 8186%Z in *.
  assert (IL : int_len s = Z.of_nat (length s)) by (unfold int_len; rewrite (proj2 (Z.leb_le _ _)) by lia; reflexivity). rewrite IL.
  unfold i32. destruct (in_i32 (5 + Z.of_nat (length s))); cbn [bind]; [|reflexivity].
  assert (W : (4 < wrap_u64 (tmp_size - (5 + Z.of_nat (length s))))%Z).
  { unfold wrap_u64, tmp_size. rewrite <- (Z.mod_unique (8192 - (5 + Z.of_nat (length s))) 18446744073709551616 (-1) (8192 - (5 + Z.of_nat (length s)) + 18446744073709551616)); lia. }
  set (sz := wrap_u64 _) in *. unfold snprintf at 1. rewrite (proj2 (Z.eqb_neq _ _)) by lia.
  rewrite (firstn_all2 esc_reset) by (rewrite esc_reset_length; lia). cbv zeta.
  rewrite (proj2 (Z.leb_gt (5 + Z.of_nat (length s) + _) _)); [rewrite andb_false_r; reflexivity|].
  rewrite (app_length esc_red), L2, app_length, esc_red_length, esc_reset_length. cbn [length] in *. lia.
Qed.

(** ** The reports are the assertions of the modelled calls: the first that fails aborts the call *)
Definition rejects {X} (r : res (option report)) (call : res X) (go : res X) : Prop :=
  call = bind r (fun o => match o with None => go | Some _ => Abort end).
Theorem C64_reports A nt oaddr is din os dout scale zp rm op thr :
  rejects (quantize_report is din os dout) (quantize A nt oaddr is din os dout scale zp rm thr)
    (run_command A nt oaddr (mk_desc CMD_QUANT (to_i64 (is / Z.of_nat (stride din))) scale zp din dout rm RO_SET f_zero) thr) /\
  rejects (dequantize_report is din os dout) (dequantize A nt oaddr is din os dout scale zp op)
    (run_command A nt oaddr (mk_desc CMD_DEQUANT (to_i64 (os / Z.of_nat (stride dout))) scale zp din dout RM_NEAREST op f_zero) f_zero) /\
  rejects (fused_report is din os dout) (quantize_dequantize_fused A nt oaddr is din os dout scale zp rm op thr)
    (run_command A nt oaddr (mk_desc CMD_QUANT_DEQUANT (to_i64 (is / Z.of_nat (stride din))) scale zp din dout rm op f_zero) thr) /\
  rejects (target_report dout) (compute_type_max dout) (Ok (2 ^ Z.of_nat (if is_signed dout then bit_size dout - 1 else bit_size dout) - 1)%Z).
Proof.
  unfold rejects, failed, assert. split; [|split; [|split]].
  - unfold quantize_report, quantize, failed, assert. destruct (is_quant din), (is_quant dout); cbn [negb bind]; auto.
    match goal with |- context [bind ?e _] => destruct e as [ex| |] end; cbn [bind]; auto. destruct (os =? ex)%Z; reflexivity.
  - unfold dequantize_report, dequantize, failed, assert. destruct (is_quant din), (is_quant dout); cbn [negb bind]; auto.
    destruct packed_numel as [p| |]; cbn [bind]; auto. destruct Z.eqb; reflexivity.
  - unfold fused_report, quantize_dequantize_fused, failed, assert. destruct (is_quant din), (is_quant dout); cbn [negb bind]; auto. destruct Z.eqb; reflexivity.
  - unfold target_report, compute_type_max, failed, assert. destruct (is_quant dout && is_int dout); cbn [bind]; auto. destruct (_ && _); reflexivity.
Qed.

(** ** The texts *)
Lemma name_facts d : length (dtype_name d) <= 5 /\ nonul (dtype_name d) = true.
Proof. destruct d; vm_compute; auto with arith. Qed.
Lemma dec_facts z : (0 <= z < 2 ^ 64)%Z -> length (dec z) <= 20 /\ nonul (dec z) = true.
Proof. intros H. destruct (C64_numbers z H) as (_ & F & L & _). split; [lia|apply nonul_digits; auto]. Qed.
(** a source path that is a C string and fits the message: far longer than any PATH_MAX *)
Definition path_ok (file : text) : Prop := nonul file = true /\ (Z.of_nat (length file) <= 7000)%Z.
Lemma print_ok lp64 file r s : format lp64 (T "%s:%d Assertion failed: " ++ rp_expr r ++ T " <- " ++ rp_msg r) (A_str file :: A_int (rp_line r) :: rp_args r) = Ok (file ++ s) ->
  path_ok file -> nonul s = true -> length s <= 500 -> print_report lp64 file r = Ok (shown (file ++ s)).
Proof.
  intros E [N L] N' L'. unfold print_report. apply C64_panic_complete; auto; [rewrite nonul_app, N, N'; reflexivity|rewrite app_length; lia].
Qed.
(* symbolic execution of [format] on a literal format *)
Ltac run_format := cbn [rp_expr rp_msg rp_line rp_args]; match goal with |- format _ ?f _ = _ => let f' := eval vm_compute in f in change f with f' end;
  cbv -[dec dtype_name app Z.of_nat Z.modulo]; change (dec 288) with (T "288"); change (dec 289) with (T "289"); change (dec 292) with (T "292");
  change (dec 321) with (T "321"); change (dec 322) with (T "322"); change (dec 325) with (T "325"); change (dec 353) with (T "353");
  change (dec 354) with (T "354"); change (dec 355) with (T "355"); change (dec 215) with (T "215"); cbn [app T list_ascii_of_string]; rewrite ?app_nil_r, <- ?app_assoc; cbn [app].
Lemma expected_bytes in_size din dout : float_type din -> quant_type dout -> (Z.of_nat in_size < 2 ^ 61)%Z ->
  let n := numel din in_size in
  (Z.of_nat in_size / Z.of_nat (stride din) = Z.of_nat n)%Z /\ (Z.of_nat n < 2 ^ 61)%Z /\ (Z.of_nat (bytes_for dout n) < 2 ^ 61)%Z /\
  (if bit_size dout =? 8 then Ok (wrap_u64 (Z.of_nat n * Z.of_nat (stride dout)))
   else p <- packed_numel (Z.of_nat n) dout ;; Ok (wrap_u64 (p * Z.of_nat (stride dout)))) = Ok (Z.of_nat (bytes_for dout n)).
Proof.
  intros Hfp Hq HS n. change (2 ^ 61)%Z with 2305843009213693952%Z in *.
  assert (Hst : stride din = 4 \/ stride din = 2) by (clear -Hfp; destruct Hfp as [->| ->]; cbn; auto).
  assert (Hn : stride din * n <= in_size) by (unfold n, numel; apply Nat.mul_div_le; lia).
  assert (Hb : bytes_for dout n <= n) by (unfold bytes_for; destruct Hq as [->|[->| ->]]; cbn [bit_size]; lia).
  split; [unfold n, numel; rewrite Nat2Z.inj_div; reflexivity|]. split; [clear - Hst Hn HS; nia|]. split; [clear - Hst Hn HS Hb; nia|].
  assert (n <= in_size) by (clear - Hst Hn; nia). clear Hst Hn. clearbody n.
  destruct Hq as [->|[->| ->]]; cbn [bit_size Nat.eqb stride].
  - rewrite packed_numel_ok by (try (left; reflexivity); lia). cbn [bind]. rewrite wrap_u64_id; [f_equal; lia|].
    change (2 ^ 64)%Z with 18446744073709551616%Z. lia.
  - rewrite packed_numel_ok by (try (right; left; reflexivity); lia). cbn [bind]. rewrite wrap_u64_id; [f_equal; lia|].
    change (2 ^ 64)%Z with 18446744073709551616%Z. lia.
  - rewrite wrap_u64_id by (change (2 ^ 64)%Z with 18446744073709551616%Z; lia). unfold bytes_for. cbn [bit_size]. f_equal. lia.
Qed.
(* facts of the pieces of a message: no NUL, bounded length *)
Ltac no_nul := rewrite !nonul_app; repeat match goal with
  | |- context [nonul (dtype_name ?d)] => rewrite (proj2 (name_facts d))
  | |- context [nonul (dec ?z)] => rewrite (proj2 (dec_facts z ltac:(lia)))
  end; reflexivity.
Ltac short := rewrite !app_length; repeat match goal with
  | |- context [length (dtype_name ?d)] => let L := fresh "L" in pose proof (proj1 (name_facts d)) as L; set (length (dtype_name d)) in *
  | |- context [length (dec ?z)] => let L := fresh "L" in pose proof (proj1 (dec_facts z ltac:(lia))) as L; set (length (dec z)) in *
  end; cbn [length T list_ascii_of_string]; lia.

(** quantize: a call with wrong arguments prints the offending dtype, or the size it needs, the number of elements, the type and the size it got. *)
Theorem C64_quantize_message file in_size din out_size dout : path_ok file -> (Z.of_nat in_size < 2 ^ 61)%Z -> (Z.of_nat out_size < 2 ^ 64)%Z ->
  ~ quantize_args_ok in_size din out_size dout ->
  exists r body, quantize_report (Z.of_nat in_size) din (Z.of_nat out_size) dout = Ok (Some r) /\ print_report true file r = Ok (shown (file ++ body)) /\
   ((quant_type din /\ body = T ":288 Assertion failed: !(dti.flags & dtype_flags::is_quant) <- input dtype (" ++ dtype_name din ++ T ") must be a dequantized type") \/
    (float_type din /\ float_type dout /\ body = T ":289 Assertion failed: dto.flags & dtype_flags::is_quant <- output dtype (" ++ dtype_name dout ++ T ") must be a quantized type") \/
    (float_type din /\ quant_type dout /\ out_size <> bytes_for dout (numel din in_size) /\
     body = T ":292 Assertion failed: out.size() == expected_out_bytes <- quantize: expected output buffer to hold " ++ dec (Z.of_nat (bytes_for dout (numel din in_size))) ++
       T " byte(s) for " ++ dec (Z.of_nat (numel din in_size)) ++ T " element(s) of " ++ dtype_name dout ++ T " (bit_size=" ++ dec (Z.of_nat (bit_size dout)) ++
       T "), but got " ++ dec (Z.of_nat out_size))).
Proof.
  intros HP HI HO HN. unfold quantize_report.
  destruct (fp_dec din) as [Hfp|Hfp].
  2: { rewrite not_fp_quant by auto. cbn [negb failed].
       exists (mk_report 288 (T "!(dti.flags & dtype_flags::is_quant)") (T "input dtype (%s) must be a dequantized type") [A_str (dtype_name din)]).
       exists (T ":288 Assertion failed: !(dti.flags & dtype_flags::is_quant) <- input dtype (" ++ dtype_name din ++ T ") must be a dequantized type").
       split; [reflexivity|]. split.
       - apply print_ok; [run_format; reflexivity|exact HP|destruct din; vm_compute; reflexivity|destruct din; vm_compute; lia].
       - left. split; auto. destruct din; try (exfalso; apply Hfp; red; auto; fail); red; auto. }
  rewrite is_quant_fp by auto. cbn [negb failed].
  destruct (q_dec dout) as [Hq|Hq].
  2: { rewrite not_q_quant by auto. cbn [failed].
       exists (mk_report 289 (T "dto.flags & dtype_flags::is_quant") (T "output dtype (%s) must be a quantized type") [A_str (dtype_name dout)]).
       exists (T ":289 Assertion failed: dto.flags & dtype_flags::is_quant <- output dtype (" ++ dtype_name dout ++ T ") must be a quantized type").
       split; [reflexivity|]. split.
       - apply print_ok; [run_format; reflexivity|exact HP|destruct dout; vm_compute; reflexivity|destruct dout; vm_compute; lia].
       - right. left. split; auto. split; auto. destruct dout; try (exfalso; apply Hq; red; auto; fail); red; auto. }
  rewrite is_quant_q by auto. cbn [failed].
  destruct (expected_bytes in_size din dout Hfp Hq HI) as (E1 & B1 & B2 & E2). rewrite E1, E2. clear E1 E2. cbn [bind].
  assert (NE : out_size <> bytes_for dout (numel din in_size)) by (intros E; apply HN; split; auto).
  rewrite (proj2 (Z.eqb_neq _ _)) by lia. cbn [failed].
  set (nb := Z.of_nat (bytes_for dout (numel din in_size))) in *. set (ne := Z.of_nat (numel din in_size)) in *. set (no := Z.of_nat out_size) in *.
  assert (BS : (Z.of_nat (bit_size dout) mod 4294967296 = Z.of_nat (bit_size dout))%Z) by (destruct Hq as [->|[->| ->]]; reflexivity).
  eexists. eexists. split; [reflexivity|]. split; [|right; right; split; [exact Hfp|split; [exact Hq|split; [exact NE|reflexivity]]]].
  assert (B64 : (0 <= nb < 2 ^ 64 /\ 0 <= ne < 2 ^ 64 /\ 0 <= no < 2 ^ 64)%Z) by (clear - B1 B2 HO; change (2 ^ 61)%Z with 2305843009213693952%Z in *; change (2 ^ 64)%Z with 18446744073709551616%Z in *; lia).
  assert (B8 : (0 <= Z.of_nat (bit_size dout) < 2 ^ 64)%Z) by (clear - Hq; destruct Hq as [->|[->| ->]]; cbn; lia).
  apply print_ok.
  - clearbody nb ne no. revert BS. generalize (Z.of_nat (bit_size dout)). intros bs BS. run_format. rewrite BS. reflexivity.
  - exact HP.
  - no_nul.
  - short.
Qed.
(** dequantize: the sizes are right ... *)
Theorem C64_dequantize_message file in_size din out_size dout : path_ok file -> (Z.of_nat out_size < 2 ^ 61)%Z -> (Z.of_nat in_size < 2 ^ 64)%Z ->
  quant_type din -> float_type dout -> in_size <> bytes_for din (numel dout out_size) ->
  exists r, dequantize_report (Z.of_nat in_size) din (Z.of_nat out_size) dout = Ok (Some r) /\
    print_report true file r = Ok (shown (file ++ T ":325 Assertion failed: in.size() == min_in_bytes <- dequantize: need " ++ dec (Z.of_nat (bytes_for din (numel dout out_size))) ++
      T " byte(s) of " ++ dtype_name din ++ T " for " ++ dec (Z.of_nat (numel dout out_size)) ++ T " element(s), but got " ++ dec (Z.of_nat in_size))).
Proof.
  intros HP HO HI Hq Hfp NE. unfold dequantize_report. rewrite is_quant_q, is_quant_fp by auto. cbn [negb failed].
  destruct (expected_bytes out_size dout din Hfp Hq HO) as (E1 & B1 & B2 & _). rewrite E1. clear E1.
  change (2 ^ 61)%Z with 2305843009213693952%Z in *. change (2 ^ 64)%Z with 18446744073709551616%Z in *.
  rewrite packed_numel_ok by (auto; change (2 ^ 62)%Z with 4611686018427387904%Z; lia). cbn [bind].
  assert (Hsd : stride din = 1) by (destruct Hq as [->|[->| ->]]; reflexivity). rewrite Hsd.
  rewrite wrap_u64_id by (change (2 ^ 64)%Z with 18446744073709551616%Z; lia). rewrite (proj2 (Z.eqb_neq _ _)) by lia. cbn [failed]. change (Z.of_nat 1) with 1%Z. rewrite Z.mul_1_r.
  set (nb := Z.of_nat (bytes_for din (numel dout out_size))) in *. set (ne := Z.of_nat (numel dout out_size)) in *. set (ni := Z.of_nat in_size) in *.
  assert (B64 : (0 <= nb < 2 ^ 64 /\ 0 <= ne < 2 ^ 64 /\ 0 <= ni < 2 ^ 64)%Z) by (change (2 ^ 64)%Z with 18446744073709551616%Z; lia).
  eexists. split; [reflexivity|]. apply print_ok.
  - clearbody nb ne ni. run_format. reflexivity.
  - exact HP.
  - clearbody nb ne ni. clear - B64. no_nul.
  - clearbody nb ne ni. clear - B64. short.
Qed.
(** ... but for a wrong dtype the message names the other one: "input dtype (uint8) must be a quantized type". *)
Theorem C64_dequantize_names_refuted file is din os dout : path_ok file -> float_type din ->
  exists r, dequantize_report is din os dout = Ok (Some r) /\
    print_report true file r = Ok (shown (file ++ T ":321 Assertion failed: dti.flags & dtype_flags::is_quant <- input dtype (" ++ dtype_name dout ++ T ") must be a quantized type")).
Proof.
  intros HP Hd. unfold dequantize_report. rewrite is_quant_fp by auto. cbn [failed]. eexists. split; [reflexivity|].
  apply print_ok; [run_format; reflexivity|exact HP|destruct dout; vm_compute; reflexivity|destruct dout; vm_compute; lia].
Qed.
Theorem C64_dequantize_names2_refuted file is din os dout : path_ok file -> quant_type din -> quant_type dout ->
  exists r, dequantize_report is din os dout = Ok (Some r) /\
    print_report true file r = Ok (shown (file ++ T ":322 Assertion failed: !(dto.flags & dtype_flags::is_quant) <- output dtype (" ++ dtype_name din ++ T ") must be a dequantized type")).
Proof.
  intros HP Hd Ho. unfold dequantize_report. rewrite !is_quant_q by auto. cbn [negb failed]. eexists. split; [reflexivity|].
  apply print_ok; [run_format; reflexivity|exact HP|destruct din; vm_compute; reflexivity|destruct din; vm_compute; lia].
Qed.
(** the fused call *)
Theorem C64_fused_message file in_size d out_size dq : path_ok file -> (Z.of_nat in_size < 2 ^ 64)%Z -> (Z.of_nat out_size < 2 ^ 64)%Z ->
  ~ fused_args_ok in_size d out_size dq ->
  exists r body, fused_report (Z.of_nat in_size) d (Z.of_nat out_size) dq = Ok (Some r) /\ print_report true file r = Ok (shown (file ++ body)) /\
   ((quant_type d /\ body = T ":353 Assertion failed: !(dti.flags & dtype_flags::is_quant) <- input dtype must be a dequantized type") \/
    (float_type d /\ float_type dq /\ body = T ":354 Assertion failed: dtype_info_of(quant_type).flags & dtype_flags::is_quant <- quant dtype must be a quantized type") \/
    (float_type d /\ quant_type dq /\ in_size <> out_size /\
     body = T ":355 Assertion failed: in.size() == out.size() <- input and output spans must have the same length, but " ++ dec (Z.of_nat in_size) ++ T " != " ++ dec (Z.of_nat out_size))).
Proof.
  intros HP HI HO HN. unfold fused_report.
  destruct (fp_dec d) as [Hfp|Hfp].
  2: { rewrite not_fp_quant by auto. cbn [negb failed]. eexists.
       exists (T ":353 Assertion failed: !(dti.flags & dtype_flags::is_quant) <- input dtype must be a dequantized type").
       split; [reflexivity|]. split.
       - apply print_ok; [run_format; reflexivity|exact HP|reflexivity|vm_compute; lia].
       - left. split; auto. destruct d; try (exfalso; apply Hfp; red; auto; fail); red; auto. }
  rewrite is_quant_fp by auto. cbn [negb failed].
  destruct (q_dec dq) as [Hq|Hq].
  2: { rewrite not_q_quant by auto. cbn [failed]. eexists.
       exists (T ":354 Assertion failed: dtype_info_of(quant_type).flags & dtype_flags::is_quant <- quant dtype must be a quantized type").
       split; [reflexivity|]. split.
       - apply print_ok; [run_format; reflexivity|exact HP|reflexivity|vm_compute; lia].
       - right. left. split; auto. split; auto. destruct dq; try (exfalso; apply Hq; red; auto; fail); red; auto. }
  rewrite is_quant_q by auto. cbn [failed].
  assert (NE : in_size <> out_size) by (intros E; apply HN; split; auto). rewrite (proj2 (Z.eqb_neq _ _)) by lia. cbn [failed].
  change (2 ^ 64)%Z with 18446744073709551616%Z in *.
  eexists. eexists. split; [reflexivity|]. split; [|right; right; split; [exact Hfp|split; [exact Hq|split; [exact NE|reflexivity]]]].
  set (ni := Z.of_nat in_size) in *. set (no := Z.of_nat out_size) in *.
  assert (B64 : (0 <= ni < 2 ^ 64 /\ 0 <= no < 2 ^ 64)%Z) by (change (2 ^ 64)%Z with 18446744073709551616%Z; lia). clearbody ni no.
  apply print_ok; [run_format; reflexivity|exact HP|clear - B64; no_nul|clear - B64; short].
Qed.
(** compute_quant_config_from_data: a floating target type *)
Theorem C64_target_message file dq : path_ok file -> float_type dq ->
  exists r, target_report dq = Ok (Some r) /\
    print_report true file r = Ok (shown (file ++ T ":215 Assertion failed: info.flags & dtype_flags::is_quant && info.flags & dtype_flags::is_int <- type " ++ dtype_name dq ++ T " is not a quantization type")).
Proof.
  intros HP Hd. assert (E : is_quant dq && is_int dq = false) by (destruct Hd as [->| ->]; reflexivity). unfold target_report. rewrite E. cbn [failed]. eexists. split; [reflexivity|].
  apply print_ok; [run_format; reflexivity|exact HP|destruct dq; vm_compute; reflexivity|destruct dq; vm_compute; lia].
Qed.
(** ** Limits.  By the letter of the C standard the wrong-size message of quantize is undefined: bit_size is a size_t, printed with %u. *)
Theorem C64_bit_size_conversion_refuted file in_size din out_size dout : (Z.of_nat in_size < 2 ^ 61)%Z -> float_type din -> quant_type dout ->
  out_size <> bytes_for dout (numel din in_size) ->
  exists r, quantize_report (Z.of_nat in_size) din (Z.of_nat out_size) dout = Ok (Some r) /\ print_report false file r = UB.
Proof.
  intros HI Hfp Hq NE. unfold quantize_report. rewrite is_quant_fp, is_quant_q by auto. cbn [negb failed].
  destruct (expected_bytes in_size din dout Hfp Hq HI) as (E1 & B1 & B2 & E2). rewrite E1, E2. clear E1 E2. cbn [bind].
  rewrite (proj2 (Z.eqb_neq _ _)) by lia. cbn [failed]. eexists. split; [reflexivity|]. unfold print_report, panic.
  match goal with |- context [format ?b ?f ?a] => assert (E : format b f a = UB) end.
  { generalize (Z.of_nat (bytes_for dout (numel din in_size))) (Z.of_nat (numel din in_size)) (Z.of_nat out_size) (Z.of_nat (bit_size dout)). intros nb ne no bs.
    cbn [rp_expr rp_msg rp_line rp_args]. match goal with |- format _ ?f _ = _ => let f' := eval vm_compute in f in change f with f' end.
    cbv -[dec dtype_name app Z.of_nat Z.modulo]. reflexivity. }
  rewrite E. cbv zeta. destruct snprintf as [b| |] eqn:S; cbn [bind]; auto. exfalso. revert S. unfold snprintf. destruct (tmp_size =? 0)%Z; discriminate.
Qed.
(** The message for a missing kernel would be undefined under either reading (a std::string_view passed to %s); by C33 no public call reaches it. *)
Theorem C64_null_kernel_message_refuted lp64 file din dout : print_report lp64 file (null_kernel_report din dout) = UB.
Proof.
  unfold print_report, panic.
  match goal with |- context [format ?b ?f ?a] => assert (E : format b f a = UB) end.
  { cbn [null_kernel_report rp_expr rp_msg rp_line rp_args]. match goal with |- format _ ?f _ = _ => let f' := eval vm_compute in f in change f with f' end.
    cbv -[dec dtype_name app Z.of_nat Z.modulo]. reflexivity. }
  rewrite E. cbv zeta. destruct snprintf as [b| |] eqn:S; cbn [bind]; auto. exfalso. revert S. unfold snprintf. destruct (tmp_size =? 0)%Z; discriminate.
Qed.
Theorem C64_null_kernel_unreachable ty n scale zp din dout rm op thr :
  match ty with CMD_DEQUANT => quant_type din /\ float_type dout | _ => float_type din /\ quant_type dout end ->
  select_kernel (mk_desc ty n scale zp din dout rm op thr) <> Abort.
Proof.
  pose proof (C33_kernel_tables ty n scale zp din dout rm op thr) as C. cbv zeta in C. intros H E. destruct ty; destruct C as [(_ & _ & C)|(C & _)]; congruence || tauto.
Qed.
(** A source path of 8188 characters or more makes the diagnostic write outside the buffer. *)
Theorem C64_long_path_refuted lp64 file dq : float_type dq -> (8188 <= Z.of_nat (length file) < 2 ^ 30)%Z ->
  exists r, target_report dq = Ok (Some r) /\ print_report lp64 file r = UB.
Proof.
  intros Hd HL. assert (E : is_quant dq && is_int dq = false) by (destruct Hd as [->| ->]; reflexivity). unfold target_report. rewrite E. cbn [failed]. eexists. split; [reflexivity|].
  unfold print_report. apply (C64_panic_overrun_refuted _ _ _ (file ++ T ":215 Assertion failed: info.flags & dtype_flags::is_quant && info.flags & dtype_flags::is_int <- type " ++ dtype_name dq ++ T " is not a quantization type"));
    [run_format; reflexivity|].
  change (2 ^ 30)%Z with 1073741824%Z in HL. change (2 ^ 31)%Z with 2147483648%Z. rewrite app_length. destruct Hd as [->| ->]; cbn [length T list_ascii_of_string app dtype_name]; lia.
Qed.
