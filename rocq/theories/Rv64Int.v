(** Correctness of the integer and bit-manipulation instructions of the RV64
    lifter. *)

From Coq Require Import ZArith Lia ZifyBool List Bool.
From Verif Require Import Bits IR Facet Dsl Rv64 Rv64Spec Rv64Sim Rv64Arith.
Import ListNotations.
Open Scope Z_scope.
Ltac Zify.zify_post_hook ::= Z.div_mod_to_equations.

(** Lifting [i] succeeds and running the emitted code in [s] ends, without UB or
    type error, in a state that holds [g'], has program counter [p], has not
    touched the x0 slot, and has not returned. *)
Definition lifts_to `{FpuOps} (c : cenv) (cfg : lcfg) (kc : areg -> konst) (i : rvinst)
    (s : st) (g' : gst) (p : pcreg) : Prop :=
  exists l s', lift_rv64 c cfg kc None i = Some (true, l) /\ run c s l = Ok s' /\
    rel s' g' /\ pc_at c s' g' /\ s_pc s' = p /\
    s_reg s' (GP 0) = s_reg s (GP 0) /\ s_ret s' = s_ret s.

Lemma ibin_shl : forall w x k, 0 < w -> ibin Shl w x (k mod w) = IV (trunc w (x * 2^(k mod w))).
Proof.
  intros w x k W. pose proof (Z.mod_pos_bound k w W). cbn [ibin]. destruct (k mod w <? w) eqn:E; [|lia].
  rewrite Z.shiftl_mul_pow2 by lia. reflexivity.
Qed.
Lemma ibin_lshr : forall w x k, 0 < w -> ibin LShr w x (k mod w) = IV (x / 2^(k mod w)).
Proof.
  intros w x k W. pose proof (Z.mod_pos_bound k w W). cbn [ibin]. destruct (k mod w <? w) eqn:E; [|lia].
  rewrite Z.shiftr_div_pow2 by lia. reflexivity.
Qed.
Lemma ibin_ashr : forall w x k, 0 < w -> ibin AShr w x (k mod w) = IV (trunc w (sgn w x / 2^(k mod w))).
Proof.
  intros w x k W. pose proof (Z.mod_pos_bound k w W). cbn [ibin]. destruct (k mod w <? w) eqn:E; [|lia].
  rewrite Z.shiftr_div_pow2 by lia. reflexivity.
Qed.
Lemma kmod : forall w k, 0 < w -> 0 <= k mod w. Proof. intros. apply Z.mod_pos_bound. assumption. Qed.
Lemma b2z_U : forall x, b2z x = U 64 (bool_z x).
Proof. destruct x; reflexivity. Qed.
Lemma b2z_or : forall p q, Z.lor (b2z p) (b2z q) = b2z (p || q).
Proof. destruct p, q; reflexivity. Qed.
Lemma b2z_zero : forall p, b2z p = 0 -> p = false.
Proof. destruct p; [discriminate|reflexivity]. Qed.

Section Int.
Context `{FpuOps}.
Variable c : cenv.
Hypothesis HA : c_arch c = RV64.
Variable cfg : lcfg.
Variable kc : areg -> konst.

(** State after SetIP(inst.start()). *)
Definition at_start (i : rvinst) (s : st) : st := with_pc s (PcConst (r_start i)).

Lemma rel_at_start : forall i s g, rel s g -> rel (at_start i s) g.
Proof. intros. apply rel_with_pc. assumption. Qed.

Lemma next_pc : forall i g, g_pc g = addr_pc_base c (r_start i) ->
  addr_pc_base c (r_end i) = U 64 (g_pc g + r_len i).
Proof.
  intros i g P. unfold r_end. rewrite addr_pc_base_trunc, addr_pc_base_add, P. reflexivity.
Qed.

(** Instructions of the form: preparation, StoreGp, SetIP(end). *)
Lemma plain_pre : forall i s g pre e w z v s1,
  lift_mnem c cfg kc i = plain (pre ++ StoreGp (r_rd i) e) i ->
  run c (at_start i s) pre = Ok s1 ->
  rel s1 g -> s_reg s1 (GP 0) = s_reg s (GP 0) -> s_ret s1 = s_ret s ->
  val c s1 e w z -> 0 < w <= 64 -> inr w z -> sext w 64 z = U 64 v ->
  g_pc g = addr_pc_base c (r_start i) ->
  lifts_to c cfg kc i s (wpc (wx g (r_rd i) v) (g_pc g + r_len i)) (PcConst (r_end i)).
Proof.
  intros i s g pre e w z v s1 L P R X0 RT E W I V PC.
  unfold lifts_to, lift_rv64. rewrite L. unfold plain.
  eexists _, (with_pc (gp_written s1 (r_rd i) w z) (PcConst (r_end i))). split; [reflexivity|].
  split.
  { cbn [run run1 bind]. fold (at_start i s). rewrite <- app_assoc, run_app, P. cbn [bind].
    rewrite run_app, (run_StoreGp c s1 (r_rd i) e w z) by assumption. reflexivity. }
  split. { apply rel_with_pc, rel_wpc. apply rel_gp_written; assumption. }
  split. { unfold pc_at. cbn [with_pc s_pc pc_value wpc g_pc]. rewrite Z.add_0_r.
           rewrite (next_pc i g PC). reflexivity. }
  split; [reflexivity|]. cbn [with_pc s_reg s_ret].
  split; [rewrite gp_written_x0; assumption|rewrite gp_written_ret; assumption].
Qed.
Lemma plain_gp : forall i s g e w z v,
  lift_mnem c cfg kc i = plain (StoreGp (r_rd i) e) i ->
  rel s g -> val c (at_start i s) e w z -> 0 < w <= 64 -> inr w z -> sext w 64 z = U 64 v ->
  g_pc g = addr_pc_base c (r_start i) ->
  lifts_to c cfg kc i s (wpc (wx g (r_rd i) v) (g_pc g + r_len i)) (PcConst (r_end i)).
Proof.
  intros i s g e w z v L R E W I V PC.
  apply (plain_pre i s g [] e w z v (at_start i s)); try assumption; try reflexivity.
  apply rel_at_start. assumption.
Qed.
Lemma plain_gp64 : forall i s g e z v,
  lift_mnem c cfg kc i = plain (StoreGp (r_rd i) e) i ->
  rel s g -> val c (at_start i s) e 64 z -> z = U 64 v ->
  g_pc g = addr_pc_base c (r_start i) ->
  lifts_to c cfg kc i s (wpc (wx g (r_rd i) v) (g_pc g + r_len i)) (PcConst (r_end i)).
Proof.
  intros i s g e z v L R E V PC. subst z.
  apply (plain_gp i s g e 64 (U 64 v) v L R E); try lia; try (apply trunc_range; lia); try assumption.
  rewrite sext_same; [reflexivity|lia|apply trunc_range; lia].
Qed.
Lemma plain_gp32 : forall i s g e z v,
  lift_mnem c cfg kc i = plain (StoreGp (r_rd i) e) i ->
  rel s g -> val c (at_start i s) e 32 z -> z = U 32 v ->
  g_pc g = addr_pc_base c (r_start i) ->
  lifts_to c cfg kc i s (wpc (wx g (r_rd i) (S_ 32 v)) (g_pc g + r_len i)) (PcConst (r_end i)).
Proof.
  intros i s g e z v L R E V PC. subst z.
  apply (plain_gp i s g e 32 (U 32 v) (S_ 32 v) L R E); try lia; try (apply trunc_range; lia); try assumption.
  reflexivity.
Qed.

Section One.
Variable i : rvinst.
Variable s : st.
Variable g : gst.
Hypothesis R : rel s g.
Hypothesis PC : g_pc g = addr_pc_base c (r_start i).
Let a := rx g (r_rs1 i).
Let b := rx g (r_rs2 i).
Let imm := r_imm i.
Let s0 := at_start i s.

Lemma Ha : inr 64 a. Proof. apply (rx_inr s). assumption. Qed.
Lemma Hb : inr 64 b. Proof. apply (rx_inr s). assumption. Qed.
Lemma R0 : rel s0 g. Proof. apply rel_at_start. assumption. Qed.
Lemma ld64 : forall n, val c s0 (LoadGp n I64) 64 (rx g n).
Proof. intros. apply val_LoadGp64. apply R0. Qed.
Lemma ld32 : forall n, val c s0 (LoadGp n I32) 32 (trunc 32 (rx g n)).
Proof. intros. apply val_LoadGp32. apply R0. Qed.
Lemma ldUw : forall n, val c s0 (LoadUw n) 64 (trunc 32 (rx g n)).
Proof. intros. unfold LoadUw. apply val_zext with (w := 32); [apply ld32|lia]. Qed.

Definition Goal_ (v : Z) : Prop :=
  lifts_to c cfg kc i s (wpc (wx g (r_rd i) v) (g_pc g + r_len i)) (PcConst (r_end i)).

(** Tactic: reduce a plain 64-/32-bit instruction to its value equation. *)
Ltac go64 H := eapply plain_gp64; [unfold lift_mnem; rewrite H; reflexivity|exact R| | |exact PC].
Ltac go32 H := eapply plain_gp32; [unfold lift_mnem; rewrite H; reflexivity|exact R| | |exact PC].
Ltac bin := eapply val_bin.

Lemma int_LUI : r_mn i = R_LUI -> Goal_ imm.
Proof. intro E. go64 E; [apply val_cI|reflexivity]. Qed.
Lemma int_AUIPC : r_mn i = R_AUIPC -> Goal_ (g_pc g + imm).
Proof. intro E. go64 E; [apply val_pc; reflexivity|]. rewrite PC. apply addr_pc_base_add. Qed.

Ltac binR64 := bin; [apply ld64|apply ld64|reflexivity].
Ltac binI64 := bin; [apply ld64|apply val_cI|reflexivity].
Ltac binR32 := bin; [apply ld32|apply ld32|reflexivity].
Ltac binI32 := bin; [apply ld32|apply val_cI|reflexivity].

Lemma int_ADD : r_mn i = R_ADD -> Goal_ (a + b).
Proof. intro E. go64 E; [binR64|reflexivity]. Qed.
Lemma int_ADDI : r_mn i = R_ADDI -> Goal_ (a + imm).
Proof. intro E. go64 E; [binI64|]. cbn [facet_size]. rewrite trunc_add_r by lia. reflexivity. Qed.
Lemma int_SUB : r_mn i = R_SUB -> Goal_ (a - b).
Proof. intro E. go64 E; [binR64|reflexivity]. Qed.
Lemma int_ADDW : r_mn i = R_ADDW -> Goal_ (S_ 32 (a + b)).
Proof. intro E. go32 E; [binR32|]. rewrite trunc_add_l, trunc_add_r by lia. reflexivity. Qed.
Lemma int_ADDIW : r_mn i = R_ADDIW -> Goal_ (S_ 32 (a + imm)).
Proof. intro E. go32 E; [binI32|]. rewrite trunc_add_l, trunc_add_r by lia. reflexivity. Qed.
Lemma int_SUBW : r_mn i = R_SUBW -> Goal_ (S_ 32 (a - b)).
Proof. intro E. go32 E; [binR32|]. rewrite trunc_sub_l, trunc_sub_r by lia. reflexivity. Qed.
Lemma int_MUL : r_mn i = R_MUL -> Goal_ (a * b).
Proof. intro E. go64 E; [binR64|reflexivity]. Qed.
Lemma int_MULW : r_mn i = R_MULW -> Goal_ (S_ 32 (a * b)).
Proof. intro E. go32 E; [binR32|]. rewrite trunc_mul_l, trunc_mul_r by lia. reflexivity. Qed.

Lemma tr_a : trunc 64 a = a. Proof. apply trunc_small, Ha. Qed.
Lemma tr_b : trunc 64 b = b. Proof. apply trunc_small, Hb. Qed.

Lemma int_AND : r_mn i = R_AND -> Goal_ (Z.land a b).
Proof. intro E. go64 E; [binR64|]. change U with trunc. rewrite trunc_land, tr_a, tr_b by lia. reflexivity. Qed.
Lemma int_ANDI : r_mn i = R_ANDI -> Goal_ (Z.land a imm).
Proof. intro E. go64 E; [binI64|]. change U with trunc. rewrite trunc_land, tr_a by lia. reflexivity. Qed.
Lemma int_OR : r_mn i = R_OR -> Goal_ (Z.lor a b).
Proof. intro E. go64 E; [binR64|]. change U with trunc. rewrite trunc_lor, tr_a, tr_b by lia. reflexivity. Qed.
Lemma int_ORI : r_mn i = R_ORI -> Goal_ (Z.lor a imm).
Proof. intro E. go64 E; [binI64|]. change U with trunc. rewrite trunc_lor, tr_a by lia. reflexivity. Qed.
Lemma int_XOR : r_mn i = R_XOR -> Goal_ (Z.lxor a b).
Proof. intro E. go64 E; [binR64|]. change U with trunc. rewrite trunc_lxor, tr_a, tr_b by lia. reflexivity. Qed.
Lemma int_XORI : r_mn i = R_XORI -> Goal_ (Z.lxor a imm).
Proof. intro E. go64 E; [binI64|]. change U with trunc. rewrite trunc_lxor, tr_a by lia. reflexivity. Qed.

(** Shifts. *)
Lemma sh64 : forall op e y z, val c s0 e 64 (trunc 64 y) -> ibin op 64 a (y mod 64) = IV z ->
  val c s0 (eBin op (LoadGp (r_rs1 i) I64) (eAnd e (cI 64 (64 - 1)))) 64 z.
Proof.
  intros op e y z E I. eapply val_bin; [apply ld64| |exact I].
  eapply val_bin; [exact E|apply val_cI|]. cbn [ibin]. change (64 - 1) with 63. rewrite mask64. reflexivity.
Qed.
Lemma sh32 : forall op e y z, val c s0 e 32 (trunc 32 y) -> ibin op 32 (trunc 32 a) (y mod 32) = IV z ->
  val c s0 (eBin op (LoadGp (r_rs1 i) I32) (eAnd e (cI 32 (32 - 1)))) 32 z.
Proof.
  intros op e y z E I. eapply val_bin; [apply ld32| |exact I].
  eapply val_bin; [exact E|apply val_cI|]. cbn [ibin]. change (32 - 1) with 31. rewrite mask32. reflexivity.
Qed.
Lemma ldb64 : val c s0 (LoadGp (r_rs2 i) I64) 64 (trunc 64 b).
Proof. rewrite tr_b. apply ld64. Qed.

Lemma int_SLL : r_mn i = R_SLL -> Goal_ (a * 2^(b mod 64)).
Proof. intro E. go64 E; [apply sh64 with (y := b); [apply ldb64|apply ibin_shl; lia]|]. reflexivity. Qed.
Lemma int_SLLI : r_mn i = R_SLLI -> Goal_ (a * 2^(imm mod 64)).
Proof. intro E. go64 E; [apply sh64 with (y := imm); [apply val_cI|apply ibin_shl; lia]|]. reflexivity. Qed.
Lemma int_SLLW : r_mn i = R_SLLW -> Goal_ (S_ 32 (a * 2^(b mod 32))).
Proof.
  intro E. go32 E; [apply sh32 with (y := b); [apply ld32|apply ibin_shl; lia]|].
  rewrite trunc_mul_l by lia. reflexivity.
Qed.
Lemma int_SLLIW : r_mn i = R_SLLIW -> Goal_ (S_ 32 (a * 2^(imm mod 32))).
Proof.
  intro E. go32 E; [apply sh32 with (y := imm); [apply val_cI|apply ibin_shl; lia]|].
  rewrite trunc_mul_l by lia. reflexivity.
Qed.
Lemma srl_in : forall k, 0 <= k -> a / 2^k = U 64 (a / 2^k).
Proof. intros. symmetry. apply trunc_small. apply div_inr; [lia|assumption|apply Ha]. Qed.
Lemma srlw_in : forall k, 0 <= k -> trunc 32 a / 2^k = U 32 (U 32 a / 2^k).
Proof. intros. symmetry. apply trunc_small. apply div_inr; [lia|assumption|apply trunc_range; lia]. Qed.
Lemma int_SRL : r_mn i = R_SRL -> Goal_ (a / 2^(b mod 64)).
Proof. intro E. go64 E; [apply sh64 with (y := b); [apply ldb64|apply ibin_lshr; lia]|]. apply srl_in, kmod. lia. Qed.
Lemma int_SRLI : r_mn i = R_SRLI -> Goal_ (a / 2^(imm mod 64)).
Proof. intro E. go64 E; [apply sh64 with (y := imm); [apply val_cI|apply ibin_lshr; lia]|]. apply srl_in, kmod. lia. Qed.
Lemma int_SRLW : r_mn i = R_SRLW -> Goal_ (S_ 32 (U 32 a / 2^(b mod 32))).
Proof. intro E. go32 E; [apply sh32 with (y := b); [apply ld32|apply ibin_lshr; lia]|]. apply srlw_in, kmod. lia. Qed.
Lemma int_SRLIW : r_mn i = R_SRLIW -> Goal_ (S_ 32 (U 32 a / 2^(imm mod 32))).
Proof. intro E. go32 E; [apply sh32 with (y := imm); [apply val_cI|apply ibin_lshr; lia]|]. apply srlw_in, kmod. lia. Qed.
Lemma int_SRA : r_mn i = R_SRA -> Goal_ (S_ 64 a / 2^(b mod 64)).
Proof.
  intro E. go64 E; [apply sh64 with (y := b); [apply ldb64|apply ibin_ashr; lia]|].
  rewrite S_small by apply Ha. reflexivity.
Qed.
Lemma int_SRAI : r_mn i = R_SRAI -> Goal_ (S_ 64 a / 2^(imm mod 64)).
Proof.
  intro E. go64 E; [apply sh64 with (y := imm); [apply val_cI|apply ibin_ashr; lia]|].
  rewrite S_small by apply Ha. reflexivity.
Qed.
(** The W shifts produce a 32-bit value whose sign extension is the result. *)
Lemma sraw_val : forall k, 0 <= k -> S_ 32 (S_ 32 a / 2^k) = S_ 32 a / 2^k.
Proof.
  intros k K. apply S_id; [lia|]. pose proof (S_range 32 a ltac:(lia)) as B.
  change (2^(32-1)) with 2147483648 in *. pose proof (pow2_pos k K) as P. split.
  - apply Z.div_le_lower_bound; nia.
  - apply Z.div_lt_upper_bound; nia.
Qed.
Lemma int_SRAW : r_mn i = R_SRAW -> Goal_ (S_ 32 a / 2^(b mod 32)).
Proof.
  intro E. rewrite <- sraw_val by (apply kmod; lia).
  go32 E; [apply sh32 with (y := b); [apply ld32|apply ibin_ashr; lia]|]. reflexivity.
Qed.
Lemma int_SRAIW : r_mn i = R_SRAIW -> Goal_ (S_ 32 a / 2^(imm mod 32)).
Proof.
  intro E. rewrite <- sraw_val by (apply kmod; lia).
  go32 E; [apply sh32 with (y := imm); [apply val_cI|apply ibin_ashr; lia]|]. reflexivity.
Qed.

(** Comparisons. *)
Lemma S_64a : S_ 64 a = sgn 64 a. Proof. apply S_small, Ha. Qed.
Lemma S_64b : S_ 64 b = sgn 64 b. Proof. apply S_small, Hb. Qed.
Lemma int_SLT : r_mn i = R_SLT -> Goal_ (bool_z (S_ 64 a <? S_ 64 b)).
Proof.
  intro E. go64 E; [eapply val_zext; [eapply val_cmp; apply ld64|lia]|]. rewrite S_64a, S_64b. apply b2z_U.
Qed.
Lemma int_SLTI : r_mn i = R_SLTI -> Goal_ (bool_z (S_ 64 a <? S_ 64 imm)).
Proof.
  intro E. go64 E; [eapply val_zext; [eapply val_cmp; [apply ld64|apply val_cI]|lia]|]. rewrite S_64a. apply b2z_U.
Qed.
Lemma int_SLTU : r_mn i = R_SLTU -> Goal_ (bool_z (a <? b)).
Proof. intro E. go64 E; [eapply val_zext; [eapply val_cmp; apply ld64|lia]|]. apply b2z_U. Qed.
Lemma int_SLTIU : r_mn i = R_SLTIU -> Goal_ (bool_z (a <? U 64 imm)).
Proof. intro E. go64 E; [eapply val_zext; [eapply val_cmp; [apply ld64|apply val_cI]|lia]|]. apply b2z_U. Qed.

(** High products. *)
Lemma mulh_val : forall e1 e2 x y P, val c s0 e1 128 x -> val c s0 e2 128 y ->
  trunc 128 (x * y) = trunc 128 P ->
  val c s0 (eTrunc 64 (eLShr (eMul e1 e2) (cI 128 64))) 64 (U 64 (P / 2^64)).
Proof.
  intros e1 e2 x y P E1 E2 Q. change U with trunc. rewrite <- (trunc_shiftr_trunc 64 64 128 P) by lia. rewrite <- Q.
  apply val_trunc with (w := 128); [|lia|apply shiftr_inr; try lia; apply trunc_range; lia].
  eapply val_bin; [eapply val_bin; [exact E1|exact E2|reflexivity]|apply val_cI|reflexivity].
Qed.
Lemma sx128 : forall e x, val c s0 e 64 x -> inr 64 x -> val c s0 (E1 (OCast CSExt (TInt 128)) e) 128 (sext 64 128 x).
Proof. intros. apply val_sext; [assumption|lia|assumption]. Qed.
Lemma zx128 : forall e x, val c s0 e 64 x -> val c s0 (E1 (OCast CZExt (TInt 128)) e) 128 x.
Proof. intros. eapply val_zext; [eassumption|lia]. Qed.
Lemma int_MULH : r_mn i = R_MULH -> Goal_ (S_ 64 a * S_ 64 b / 2^64).
Proof.
  intro E. go64 E; [|reflexivity].
  eapply mulh_val; [apply sx128; [apply ld64|apply Ha]|apply sx128; [apply ld64|apply Hb]|].
  unfold sext. rewrite trunc_mul_l, trunc_mul_r by lia. rewrite S_64a, S_64b. reflexivity.
Qed.
Lemma int_MULHSU : r_mn i = R_MULHSU -> Goal_ (S_ 64 a * b / 2^64).
Proof.
  intro E. go64 E; [|reflexivity].
  eapply mulh_val; [apply sx128; [apply ld64|apply Ha]|apply zx128; apply ld64|].
  unfold sext. rewrite trunc_mul_l by lia. rewrite S_64a. reflexivity.
Qed.
Lemma int_MULHU : r_mn i = R_MULHU -> Goal_ (a * b / 2^64).
Proof.
  intro E. go64 E; [|reflexivity]. eapply mulh_val; [apply zx128; apply ld64|apply zx128; apply ld64|]. reflexivity.
Qed.

(** Divisions: the special cases never reach the division. *)
Definition div_e (op : binop) (w : Z) : dexp :=
  let zero := cI w 0 in let minusone := cI w (-1) in
  let dividend := vX 0 in let divisor := vX 1 in
  let is_zero := eCmp EQ divisor zero in
  let is_minusone := eCmp EQ divisor minusone in
  let is_spc := match op with SDiv | SRem => eOr is_zero is_minusone | _ => is_zero end in
  let spcRes := match op with
                | UDiv => minusone | URem => dividend
                | SDiv => eSel is_minusone dividend minusone
                | _ => eSel is_minusone zero dividend end in
  EIf is_spc spcRes (eBin op dividend divisor).

(** Specified result of a division at width [w], as a [w]-bit pattern. *)
Definition div_spec (op : binop) (w x y : Z) : Z :=
  trunc w (match op with
           | UDiv => udiv x y | URem => urem x y
           | SDiv => sdiv (S_ w x) (S_ w y) | _ => srem (S_ w x) (S_ w y) end).


(** What the emitted code computes: the specified value, except that a signed
    quotient by -1 returns the dividend instead of its negation (lifter.cc:160). *)
Definition div_impl (op : binop) (w x y : Z) : Z :=
  match op with
  | SDiv => if y =? 2^w - 1 then x else div_spec op w x y
  | _ => div_spec op w x y
  end.

Lemma div_val : forall op w t x y, In op [UDiv; URem; SDiv; SRem] -> 1 < w -> inr w x -> inr w y ->
  s_var t 0 = Some (V (TInt w) x) -> s_var t 1 = Some (V (TInt w) y) ->
  val c t (div_e op w) w (div_impl op w x y).
Proof.
  intros op w t x y O W X Y V0 V1.
  pose proof (val_var c t 0 w x V0) as D0. pose proof (val_var c t 1 w y V1) as D1.
  pose proof (val_cmp c t EQ _ _ w _ _ D1 (val_cI c t w 0)) as Ez.
  pose proof (val_cmp c t EQ _ _ w _ _ D1 (val_cI c t w (-1))) as Em.
  cbn [icmp_sem] in Ez, Em. rewrite trunc_m1 in Em by lia.
  assert (T0 : trunc w 0 = 0) by reflexivity. rewrite T0 in Ez.
  pose proof (pow2_pos w ltac:(lia)) as P.
  assert (SX : S_ w x = sgn w x) by (apply S_small; assumption).
  assert (SY : S_ w y = sgn w y) by (apply S_small; assumption).
  assert (P2 : 2 < 2^w) by (change 2 with (2^1) at 1; apply Z.pow_lt_mono_r; lia).
  simpl in O. destruct O as [<-|[<-|[<-|[<-|[]]]]]; unfold div_e, div_impl, div_spec.
  - eapply val_if; [exact Ez| |].
    + intro Z0. apply b2z_zero in Z0. eapply val_bin; [exact D0|exact D1|]. cbn [ibin]. rewrite Z0.
      unfold udiv. rewrite Z0. rewrite trunc_small; [reflexivity|]. apply udiv_inr; (assumption || lia).
    + intro NZ. destruct (y =? 0) eqn:Y0; [|contradiction]. unfold udiv. rewrite Y0. apply val_cI.
  - eapply val_if; [exact Ez| |].
    + intro Z0. apply b2z_zero in Z0. eapply val_bin; [exact D0|exact D1|]. cbn [ibin]. rewrite Z0.
      unfold urem. rewrite Z0. rewrite trunc_small; [reflexivity|]. apply urem_inr; (assumption || lia).
    + intro NZ. destruct (y =? 0) eqn:Y0; [|contradiction]. unfold urem. rewrite Y0.
      rewrite trunc_small by assumption. exact D0.
  - eapply val_if; [eapply val_bin; [exact Ez|exact Em|cbn [ibin]; rewrite b2z_or; reflexivity]| |].
    + intro Z0. apply b2z_zero in Z0. apply orb_false_elim in Z0. destruct Z0 as [Z0 M0].
      eapply val_bin; [exact D0|exact D1|]. rewrite sdiv_ok by (assumption || lia).
      rewrite M0. unfold sdiv. rewrite SX, SY.
      pose proof (sgn_zero_iff w y ltac:(lia) Y) as SZ.
      destruct (sgn w y =? 0) eqn:Q; [lia|]. reflexivity.
    + intro NZ.
      pose proof (val_sel c t _ _ _ w _ _ _ Em D0 (val_cI c t w (-1))) as Q.
      rewrite trunc_m1 in Q by lia. unfold sdiv. rewrite SX, SY.
      destruct (y =? 0) eqn:Y0.
      * apply Z.eqb_eq in Y0. subst y. destruct (0 =? 2^w - 1) eqn:Q1; [lia|].
        rewrite (proj2 (sgn_zero_iff w 0 ltac:(lia) Y) eq_refl). cbn [Z.eqb]. cbn [b2z Z.eqb] in Q. rewrite trunc_m1 by lia. exact Q.
      * destruct (y =? 2^w - 1) eqn:Y1; [|contradiction].
        cbn [b2z Z.eqb] in Q. exact Q.
  - eapply val_if; [eapply val_bin; [exact Ez|exact Em|cbn [ibin]; rewrite b2z_or; reflexivity]| |].
    + intro Z0. apply b2z_zero in Z0. apply orb_false_elim in Z0. destruct Z0 as [Z0 M0].
      eapply val_bin; [exact D0|exact D1|]. rewrite srem_ok by (assumption || lia).
      unfold srem. rewrite SX, SY.
      pose proof (sgn_zero_iff w y ltac:(lia) Y) as SZ.
      destruct (sgn w y =? 0) eqn:Q; [lia|]. reflexivity.
    + intro NZ.
      pose proof (val_sel c t _ _ _ w _ _ _ Em (val_cI c t w 0) D0) as Q. rewrite T0 in Q.
      unfold srem. rewrite SX, SY.
      destruct (y =? 0) eqn:Y0.
      * apply Z.eqb_eq in Y0. subst y. destruct (0 =? 2^w - 1) eqn:Q1; [lia|].
        rewrite (proj2 (sgn_zero_iff w 0 ltac:(lia) Y) eq_refl). cbn [Z.eqb]. cbn [b2z Z.eqb] in Q.
        rewrite trunc_sgn by (assumption || lia). exact Q.
      * destruct (y =? 2^w - 1) eqn:Y1; [|contradiction]. apply Z.eqb_eq in Y1.
        cbn [b2z Z.eqb] in Q. rewrite Y1, sgn_ones by lia. cbn [Z.eqb].
        replace (Z.rem (sgn w x) (-1)) with 0; [exact Q|].
        change (-1) with (- (1)). rewrite Z.rem_opp_r by lia. rewrite Z.rem_1_r. reflexivity.
Qed.

Lemma div_impl_spec : forall op w x y, 1 < w -> inr w x ->
  (op = SDiv -> y = 2^w - 1 -> x = 0 \/ x = 2^(w-1)) -> inr w y ->
  div_impl op w x y = div_spec op w x y.
Proof.
  intros op w x y W X OK Y. destruct op; try reflexivity. cbn [div_impl]. destruct (y =? 2^w - 1) eqn:E; [|reflexivity].
  apply Z.eqb_eq in E. unfold div_spec, sdiv.
  rewrite (S_small w x), (S_small w y) by assumption. rewrite E, sgn_ones by lia. cbn [Z.eqb].
  assert (N : Z.quot (sgn w x) (-1) = - sgn w x).
  { change (-1) with (- (1)). rewrite Z.quot_opp_r by lia. rewrite Z.quot_1_r. reflexivity. }
  rewrite N. destruct (OK eq_refl E) as [-> | ->].
  - rewrite (proj2 (sgn_zero_iff w 0 ltac:(lia) (inr0 w ltac:(lia))) eq_refl). reflexivity.
  - assert (M : sgn w (2^(w-1)) = - 2^(w-1)).
    { unfold sgn. rewrite (pow2_succ w) by lia. destruct (2^(w-1) <? 2^(w-1)) eqn:L; lia. }
    rewrite M, Z.opp_involutive, trunc_small; [reflexivity|assumption].
Qed.
Lemma div_impl_inr : forall op w x y, In op [UDiv; URem; SDiv; SRem] -> 1 < w -> inr w x -> inr w (div_impl op w x y).
Proof.
  intros op w x y O W X. simpl in O.
  destruct O as [<-|[<-|[<-|[<-|[]]]]]; unfold div_impl; try (apply trunc_range; lia).
  destruct (y =? 2^w - 1); [assumption|apply trunc_range; lia].
Qed.

Lemma LiftDivRem_split : forall op f, LiftDivRem i op f =
  [SLet 0 (LoadGp (r_rs1 i) f); SLet 1 (LoadGp (r_rs2 i) f); SLet 2 (div_e op (facet_size f))]
  ++ StoreGp (r_rd i) (vX 2).
Proof. reflexivity. Qed.

(** The whole division sequence. No precondition on the operands: it always
    terminates normally. *)
Lemma div_any : forall op f w v, In op [UDiv; URem; SDiv; SRem] ->
  (f = I64 \/ f = I32) -> w = facet_size f ->
  lift_mnem c cfg kc i = plain (LiftDivRem i op f) i ->
  sext w 64 (div_impl op w (trunc w a) (trunc w b)) = U 64 v -> Goal_ v.
Proof.
  intros op f w v O F Ew L E.
  assert (W : 1 < w <= 64) by (destruct F as [-> | ->]; rewrite Ew; cbn [facet_size]; lia).
  assert (LD : forall n t, rel t g -> val c t (LoadGp n f) w (trunc w (rx g n))).
  { intros n t Rt. rewrite Ew. apply val_LoadGp; [assumption|]. destruct F as [-> | ->]; simpl; tauto. }
  set (s1 := with_var s0 (upd_var (s_var s0) 0 (V (TInt w) (trunc w a)))).
  set (s2 := with_var s1 (upd_var (s_var s1) 1 (V (TInt w) (trunc w b)))).
  set (s3 := with_var s2 (upd_var (s_var s2) 2 (V (TInt w) (div_impl op w (trunc w a) (trunc w b))))).
  assert (R1 : rel s1 g) by (apply rel_with_var, R0). assert (R2 : rel s2 g) by (apply rel_with_var, R1).
  assert (R3 : rel s3 g) by (apply rel_with_var, R2).
  rewrite LiftDivRem_split in L. rewrite <- Ew in L.
  eapply (plain_pre i s g _ (vX 2) w _ v s3 L); try assumption; try reflexivity.
  - transitivity (run c s1 [SLet 1 (LoadGp (r_rs2 i) f); SLet 2 (div_e op w)]).
    { apply run_let. apply (LD (r_rs1 i) s0 R0). }
    transitivity (run c s2 [SLet 2 (div_e op w)]).
    { apply run_let. apply (LD (r_rs2 i) s1 R1). }
    transitivity (run c s3 []); [|reflexivity]. apply run_let.
    apply div_val; try reflexivity; try assumption; try lia; apply trunc_range; lia.
  - lia.
  - apply div_impl_inr; [assumption|lia|apply trunc_range; lia].
  - exact E.
Qed.

(** Exclude the quotients by -1 that the code gets wrong. *)
Definition quot_ok (w x y : Z) : Prop := S_ w y = -1 -> S_ w x = 0 \/ S_ w x = - 2^(w-1).
Lemma quot_ok_impl : forall w x y, 1 < w -> quot_ok w x y ->
  div_impl SDiv w (trunc w x) (trunc w y) = div_spec SDiv w (trunc w x) (trunc w y).
Proof.
  intros w x y W Q. apply div_impl_spec; try lia; try (apply trunc_range; lia).
  intros _ E. unfold quot_ok in Q. change (S_ w y) with (sgn w (trunc w y)) in Q.
  change (S_ w x) with (sgn w (trunc w x)) in Q.
  rewrite E, sgn_ones in Q by lia. specialize (Q eq_refl).
  pose proof (trunc_range w x ltac:(lia)) as X. destruct Q as [Q|Q].
  - left. apply (sgn_zero_iff w); (lia || assumption).
  - right. rewrite <- (trunc_sgn w (trunc w x)) by (lia || assumption). rewrite Q.
    unfold trunc. symmetry. pose proof (pow2_pos (w-1) ltac:(lia)). apply Z.mod_unique with (q := -1); rewrite (pow2_succ w) by lia; lia.
Qed.
Lemma S_trunc : forall w z, 0 <= w -> S_ w (trunc w z) = S_ w z.
Proof. intros. apply S_congr. apply trunc_trunc. lia. Qed.

Ltac dv op_ f_ w_ E := apply (div_any op_ f_ w_); [simpl; tauto|tauto|reflexivity|unfold lift_mnem; rewrite E; reflexivity|].
Lemma int_DIV : r_mn i = R_DIV -> quot_ok 64 a b -> Goal_ (sdiv (S_ 64 a) (S_ 64 b)).
Proof.
  intros E Q. dv SDiv I64 64 E. rewrite quot_ok_impl by (lia || assumption).
  unfold div_spec. rewrite sext_same, !S_trunc by (try lia; apply trunc_range; lia). reflexivity.
Qed.
Lemma int_DIVW : r_mn i = R_DIVW -> quot_ok 32 a b -> Goal_ (S_ 32 (sdiv (S_ 32 a) (S_ 32 b))).
Proof.
  intros E Q. dv SDiv I32 32 E. rewrite quot_ok_impl by (lia || assumption).
  unfold div_spec. rewrite !S_trunc by lia. reflexivity.
Qed.
Lemma int_REM : r_mn i = R_REM -> Goal_ (srem (S_ 64 a) (S_ 64 b)).
Proof.
  intros E. dv SRem I64 64 E. cbn [div_impl].
  unfold div_spec. rewrite sext_same, !S_trunc by (try lia; apply trunc_range; lia). reflexivity.
Qed.
Lemma int_REMW : r_mn i = R_REMW -> Goal_ (S_ 32 (srem (S_ 32 a) (S_ 32 b))).
Proof. intros E. dv SRem I32 32 E. cbn [div_impl]. unfold div_spec. rewrite !S_trunc by lia. reflexivity. Qed.
Lemma int_DIVU : r_mn i = R_DIVU -> Goal_ (udiv a b).
Proof.
  intros E. dv UDiv I64 64 E. cbn [div_impl].
  unfold div_spec. rewrite sext_same by (try lia; apply trunc_range; lia). rewrite tr_a, tr_b. reflexivity.
Qed.
Lemma int_REMU : r_mn i = R_REMU -> Goal_ (urem a b).
Proof.
  intros E. dv URem I64 64 E. cbn [div_impl].
  unfold div_spec. rewrite sext_same by (try lia; apply trunc_range; lia). rewrite tr_a, tr_b. reflexivity.
Qed.
Lemma int_DIVUW : r_mn i = R_DIVUW -> Goal_ (S_ 32 (udiv (U 32 a) (U 32 b))).
Proof. intros E. dv UDiv I32 32 E. reflexivity. Qed.
Lemma int_REMUW : r_mn i = R_REMUW -> Goal_ (S_ 32 (urem (U 32 a) (U 32 b))).
Proof. intros E. dv URem I32 32 E. reflexivity. Qed.

(** Both W and D quotients need the exclusion; all other mnemonics do not. *)
Definition int_pre (mn : rvmnem) (x y : Z) : Prop :=
  match mn with R_DIV => quot_ok 64 x y | R_DIVW => quot_ok 32 x y | _ => True end.

Theorem int_correct : forall v, isa_int (r_mn i) a b imm (g_pc g) = Some v ->
  int_pre (r_mn i) a b -> Goal_ v.
Proof.
  intros v E Q. remember (r_mn i) as mn eqn:M. symmetry in M.
  destruct mn; cbn [isa_int] in E; try discriminate; injection E as <-; cbn [int_pre] in Q;
  first [ apply int_LUI | apply int_AUIPC | apply int_ADDI | apply int_ADD | apply int_ADDIW | apply int_ADDW
        | apply int_SUB | apply int_SUBW | apply int_ANDI | apply int_AND | apply int_ORI | apply int_OR
        | apply int_XORI | apply int_XOR | apply int_SLLI | apply int_SLL | apply int_SLLIW | apply int_SLLW
        | apply int_SRLI | apply int_SRL | apply int_SRLIW | apply int_SRLW | apply int_SRAI | apply int_SRA
        | apply int_SRAIW | apply int_SRAW | apply int_SLT | apply int_SLTI | apply int_SLTU | apply int_SLTIU
        | apply int_MUL | apply int_MULW | apply int_MULH | apply int_MULHSU | apply int_MULHU
        | apply int_DIV | apply int_DIVW | apply int_REM | apply int_REMW
        | apply int_DIVU | apply int_REMU | apply int_DIVUW | apply int_REMUW ]; assumption.
Qed.
End One.
End Int.
