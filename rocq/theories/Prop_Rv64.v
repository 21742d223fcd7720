(** Properties C01-C08, C44-C49: RV64 instructions against the ISA manual.

    In all statements [c] is the configuration (PC base, global base, external
    functions), [cfg] the call/syscall functions set by the user, [kc] what the
    lifter takes for constants, [i] the decoded instruction at [r_start i], [s]
    the state of the lifted code and [g] the guest state it holds. *)

From Coq Require Import ZArith List Bool.
From Verif Require Import Bits IR Facet Dsl Rv64 Rv64Spec Rv64Sim Rv64Int Rv64Bit Rv64Mem Rv64Fp Rv64Step Rv64Bad Rv64FpSpec Rv64FpArith Rv64Ex.
Import ListNotations.
Open Scope Z_scope.

(** C01. Integer computational instructions other than the signed quotients. *)
Theorem rv64_int_correct : forall `{FpuOps} c cfg kc i s g v, rv_ctx c kc i s g ->
  isa_int (r_mn i) (rx g (r_rs1 i)) (rx g (r_rs2 i)) (r_imm i) (g_pc g) = Some v ->
  r_mn i <> R_DIV -> r_mn i <> R_DIVW ->
  lifts_to c cfg kc i s (wpc (wx g (r_rd i) v) (g_pc g + r_len i)) (PcConst (r_end i)).
Proof. intros; eapply int_correct_ctx; eassumption. Qed.
Print Assumptions rv64_int_correct.
Example rv64_int_correct_nv : exists i s g v,
  rv_ctx c_pic kc_ex i s g /\ isa_int (r_mn i) (rx g (r_rs1 i)) (rx g (r_rs2 i)) (r_imm i) (g_pc g) = Some v /\
  r_mn i = R_SRAW /\ v = -2.
Proof.
  exists (i_ex R_SRAW 0), (st_of (g_ex 0x555000 (fun n => if n =? 1 then 0xffffffe0 else 0x24))),
    (g_ex 0x555000 (fun n => if n =? 1 then 0xffffffe0 else 0x24)), (-2).
  split; [apply ctx_pic; reflexivity|]. split; [vm_compute; reflexivity|split; reflexivity].
Qed.

(** C02. Division and remainder: always defined, for all operands, with the value
    of [div_result]: the ISA's except for the signed quotient by -1. *)
Theorem rv64_div_total : forall `{FpuOps} c cfg kc i s g op f, rv_ctx c kc i s g ->
  div_mn (r_mn i) = Some (op, f) ->
  lifts_to c cfg kc i s
    (wpc (wx g (r_rd i) (div_result op (facet_size f) (rx g (r_rs1 i)) (rx g (r_rs2 i)))) (g_pc g + r_len i))
    (PcConst (r_end i)).
Proof. intros; eapply div_total_ctx; eassumption. Qed.
Print Assumptions rv64_div_total.
Theorem rv64_div_correct : forall `{FpuOps} c cfg kc i s g g', rv_ctx c kc i s g ->
  div_mn (r_mn i) <> None -> isa_step i g = Some g' ->
  (r_mn i = R_DIV -> S_ 64 (rx g (r_rs2 i)) = -1 -> S_ 64 (rx g (r_rs1 i)) = 0 \/ S_ 64 (rx g (r_rs1 i)) = - 2^63) ->
  (r_mn i = R_DIVW -> S_ 32 (rx g (r_rs2 i)) = -1 -> S_ 32 (rx g (r_rs1 i)) = 0 \/ S_ 32 (rx g (r_rs1 i)) = - 2^31) ->
  lifts_to c cfg kc i s g' (PcConst (r_end i)).
Proof. intros; eapply div_correct_ctx; eassumption. Qed.
Print Assumptions rv64_div_correct.
(** C44. The missing case is wrong for every such operand pair (finding F01). *)
Theorem rv64_div_minus_one_refuted : forall `{FpuOps} c cfg kc i s g g' f, rv_ctx c kc i s g ->
  isa_step i g = Some g' -> div_mn (r_mn i) = Some (SDiv, f) -> r_rd i <> 0 ->
  S_ (facet_size f) (rx g (r_rs2 i)) = -1 ->
  S_ (facet_size f) (rx g (r_rs1 i)) <> 0 -> S_ (facet_size f) (rx g (r_rs1 i)) <> - 2^(facet_size f - 1) ->
  misses c cfg kc i s g'.
Proof. intros; eapply div_minus_one_ctx; eassumption. Qed.
Print Assumptions rv64_div_minus_one_refuted.
Example rv64_div_nv : exists i s g g',
  rv_ctx c_ex kc_ex i s g /\ div_mn (r_mn i) = Some (SDiv, I64) /\ isa_step i g = Some g' /\ g_x g' 3 = 2^64 - 5 /\
  exists l, lift_rv64 c_ex cfg_ex kc_ex None i = Some (true, l) /\ reg_after (H := fpu0) c_ex s l (GP 3) = Some 5.
Proof.
  set (g := g_ex 0x1000 (fun n => if n =? 1 then 5 else -1)).
  exists (i_ex R_DIV 0), (st_of g), g, (wpc (wx g 3 (-5)) 0x1004).
  split; [apply (ctx_ex (i_ex R_DIV 0))|]. split; [reflexivity|]. split; [reflexivity|]. split; [reflexivity|].
  eexists. split; [reflexivity|]. vm_compute; reflexivity.
Qed.

(** C03. x0: for every instruction, every configuration and override, garbage in
    x0's slot has no influence and is preserved. *)
Theorem rv64_x0_irrelevant : forall `{FpuOps} c cfg kc ov i b l s s' t, ext_x0 c ->
  lift_rv64 c cfg kc ov i = Some (b, l) -> eqx0 s s' -> run c s l = Ok t ->
  exists t', run c s' l = Ok t' /\ eqx0 t t' /\ s_reg t (GP 0) = s_reg s (GP 0) /\ s_reg t' (GP 0) = s_reg s' (GP 0).
Proof. exact @x0_irrelevant. Qed.
Print Assumptions rv64_x0_irrelevant.
Example rv64_x0_nv : exists l, ext_x0 c_ex /\
  lift_rv64 c_ex cfg_call kc_ex None (RvInst R_JALR 0 5 128 128 16 0 0x1000 4) = Some (true, l) /\
  (let s := st_of (g_ex 0 (fun n => n)) in
   eqx0 s (with_reg s (upd_reg (s_reg s) (GP 0) (Some 77))) /\ reg_after (H := fpu0) c_ex s l (GP 5) = Some 5).
Proof.
  eexists. split; [|split; [reflexivity|split; [|vm_compute; reflexivity]]].
  - intros f u u' A B C. cbn. auto.
  - repeat split. intros r N. cbn [with_reg s_reg]. unfold upd_reg. rewrite areg_eqb_neq; [reflexivity|]. congruence.
Qed.

(** C04. Loads, stores, LR and AMO. *)
Theorem rv64_load_correct : forall `{FpuOps} c cfg kc i s g n sg, rv_ctx c kc i s g ->
  isa_load (r_mn i) = Some (n, sg) ->
  let v := rd_mem (g_mem g) (U 64 (rx g (r_rs1 i) + r_imm i)) n in
  lifts_to c cfg kc i s (wpc (wx g (r_rd i) (if sg then S_ (8 * Z.of_nat n) v else v)) (g_pc g + r_len i)) (PcConst (r_end i)).
Proof. intros; eapply load_ctx; eassumption. Qed.
Print Assumptions rv64_load_correct.
Theorem rv64_store_correct : forall `{FpuOps} c cfg kc i s g n, rv_ctx c kc i s g ->
  isa_store (r_mn i) = Some n ->
  lifts_to c cfg kc i s
    (wpc (wmem g (wr_mem (g_mem g) (U 64 (rx g (r_rs1 i) + r_imm i)) n (rx g (r_rs2 i)))) (g_pc g + r_len i)) (PcConst (r_end i)).
Proof. intros; eapply store_ctx; eassumption. Qed.
Print Assumptions rv64_store_correct.
Theorem rv64_lr_correct : forall `{FpuOps} c cfg kc i s g n, rv_ctx c kc i s g ->
  isa_lr (r_mn i) = Some n ->
  lifts_to c cfg kc i s
    (wpc (wx g (r_rd i) (S_ (8 * Z.of_nat n) (rd_mem (g_mem g) (rx g (r_rs1 i)) n))) (g_pc g + r_len i)) (PcConst (r_end i)).
Proof. intros; eapply lr_ctx; eassumption. Qed.
Print Assumptions rv64_lr_correct.
Theorem rv64_amo_correct : forall `{FpuOps} c cfg kc i s g n F, rv_ctx c kc i s g ->
  isa_amo (r_mn i) = Some (n, F) -> 0 <= r_imm i <= 3 ->
  let old := rd_mem (g_mem g) (rx g (r_rs1 i)) n in
  lifts_to c cfg kc i s
    (wpc (wx (wmem g (wr_mem (g_mem g) (rx g (r_rs1 i)) n (F old (U (8 * Z.of_nat n) (rx g (r_rs2 i)))))) (r_rd i)
             (S_ (8 * Z.of_nat n) old)) (g_pc g + r_len i)) (PcConst (r_end i)).
Proof. intros; eapply amo_ctx; eassumption. Qed.
Print Assumptions rv64_amo_correct.
Example rv64_mem_nv : exists i s g, rv_ctx c_ex kc_ex i s g /\ isa_load (r_mn i) = Some (4%nat, true) /\
  U 64 (rx g (r_rs1 i) + r_imm i) = 2^64 - 2 /\ rd_mem (g_mem g) (2^64 - 2) 4 = 0x0100fffe.
Proof.
  exists (i_ex R_LW (-2)), (st_of (g_ex 0x1000 (fun _ => 0))), (g_ex 0x1000 (fun _ => 0)).
  split; [apply (ctx_ex (i_ex R_LW (-2)))|]. repeat split.
Qed.

(** C05. Store-conditional (taken to succeed), when rd differs from the sources;
    otherwise the code is wrong (finding F02). *)
Theorem rv64_sc_correct_partial : forall `{FpuOps} c cfg kc i s g n, rv_ctx c kc i s g ->
  isa_sc (r_mn i) = Some n -> r_rd i = 0 \/ (r_rd i <> r_rs1 i /\ r_rd i <> r_rs2 i) ->
  lifts_to c cfg kc i s
    (wpc (wx (wmem g (wr_mem (g_mem g) (rx g (r_rs1 i)) n (rx g (r_rs2 i)))) (r_rd i) 0) (g_pc g + r_len i)) (PcConst (r_end i)).
Proof. intros; eapply sc_ctx; eassumption. Qed.
Print Assumptions rv64_sc_correct_partial.
Theorem rv64_sc_alias_refuted : exists i s g g', rv_ctx c_ex kc_ex i s g /\ isa_sc (r_mn i) = Some 4%nat /\
  r_rd i = r_rs2 i /\ isa_step i g = Some g' /\ forall F : FpuOps, misses c_ex cfg_ex kc_ex i s g'.
Proof. exact sc_alias_witness. Qed.
Print Assumptions rv64_sc_alias_refuted.

(** C06. Conditional branches and JAL. *)
Theorem rv64_branch_correct : forall `{FpuOps} c cfg kc i s g t, rv_ctx c kc i s g ->
  isa_branch (r_mn i) (rx g (r_rs1 i)) (rx g (r_rs2 i)) = Some t ->
  lifts_to c cfg kc i s (wpc g (if t then g_pc g + r_imm i else g_pc g + r_len i))
    (PcCond (V (TInt 1) (if t then 1 else 0)) (U 64 (r_start i + r_imm i)) (r_end i)).
Proof. intros; eapply branch_ctx; eassumption. Qed.
Print Assumptions rv64_branch_correct.
Theorem rv64_jump_correct : forall `{FpuOps} c cfg kc i s g g', rv_ctx c kc i s g ->
  isa_step i g = Some g' -> jump_pre cfg i g ->
  lifts_to c cfg kc i s g'
    (if r_rs1 i =? FRV_REG_INV then PcConst (U 64 (r_start i + r_imm i))
     else PcVal (V (TInt 64) (U 64 (rx g (r_rs1 i) + r_imm i)))).
Proof. intros; eapply jump_ctx; eassumption. Qed.
Print Assumptions rv64_jump_correct.
(** With a call function: a return leaves the lifted function in the ISA's state. *)
Theorem rv64_ret_correct : forall `{FpuOps} c cfg kc i s g g', rv_ctx c kc i s g ->
  isa_step i g = Some g' -> jal_dec i -> jal_kind cfg i = JRet ->
  (r_mn i = R_JALR -> (rx g (r_rs1 i) + r_imm i) mod 2 = 0) ->
  exists l s', lift_rv64 c cfg kc None i = Some (true, l) /\ run c s l = Ok s' /\
    rel s' g' /\ pc_at c s' g' /\ s_reg s' (GP 0) = s_reg s (GP 0) /\ s_ret s' = true.
Proof. intros; eapply ret_ctx; eassumption. Qed.
Print Assumptions rv64_ret_correct.
(** ... and a call hands the ISA's state to the call function; afterwards the
    lifted code holds what that function returned, with the return check armed. *)
Theorem rv64_call_correct : forall `{FpuOps} c cfg kc i s g g' f, rv_ctx c kc i s g ->
  isa_step i g = Some g' -> jal_dec i -> jal_kind cfg i = JCall f ->
  (r_mn i = R_JALR -> (rx g (r_rs1 i) + r_imm i) mod 2 = 0) ->
  exists l u s', lift_rv64 c cfg kc None i = Some (true, l) /\ run c s l = Ok s' /\
    cpu_of u g' /\ u_reg u (GP 0) = s_reg s (GP 0) /\
    s_reg s' = u_reg (c_ext c f u) /\ s_mem s' = u_mem (c_ext c f u) /\ s_ret s' = s_ret s /\
    s_pc s' = PcCheck (match u_pc (c_ext c f u) with Some z => V (TInt 64) (U 64 z) | None => Poison (TInt 64) end)
                      (r_end i).
Proof. intros; eapply call_ctx; eassumption. Qed.
Print Assumptions rv64_call_correct.
(** C45. JALR keeps bit 0 of an odd sum (finding F03). *)
Theorem rv64_jalr_odd_refuted : forall `{FpuOps} c cfg kc i s g g', rv_ctx c kc i s g ->
  isa_step i g = Some g' -> r_mn i = R_JALR -> r_rs1 i <> FRV_REG_INV -> jal_kind cfg i = JJump ->
  (rx g (r_rs1 i) + r_imm i) mod 2 = 1 -> misses c cfg kc i s g'.
Proof. intros; eapply jalr_odd_ctx; eassumption. Qed.
Print Assumptions rv64_jalr_odd_refuted.
Example rv64_jump_nv : exists i s g g', rv_ctx c_pic kc_ex i s g /\ isa_step i g = Some g' /\
  jump_pre cfg_call i g /\ g_pc g' = 0x554ff0 /\ g_x g' 9 = 0x555004.
Proof.
  set (g := g_ex 0x555000 (fun n => n)). set (i := RvInst R_JAL 9 128 128 128 (-16) 0 0x1000 4).
  exists i, (st_of g), g, (wpc (wx g 9 (0x555000 + 4)) (0x555000 + -16)).
  split; [apply ctx_pic; reflexivity|]. split; [reflexivity|]. split; [|split; reflexivity].
  split; [left; split; reflexivity|split; [reflexivity|discriminate]].
Qed.
Example rv64_callret_nv :
  jal_kind cfg_call (RvInst R_JAL 1 128 128 128 64 0 0x1000 4) = JCall 7 /\
  jal_kind cfg_call (RvInst R_JALR 0 1 128 128 0 0 0x1000 4) = JRet /\
  jal_dec (RvInst R_JALR 0 1 128 128 0 0 0x1000 4) /\
  isa_step (RvInst R_JALR 0 1 128 128 3 0 0x1000 4) (g_ex 0x1000 (fun _ => 0x2000))
    = Some (wpc (g_ex 0x1000 (fun _ => 0x2000)) 0x2002).
Proof. split; [reflexivity|]. split; [reflexivity|]. split; [right; split; [reflexivity|discriminate]|reflexivity]. Qed.

(** C07. Bit manipulation; CLMULR (C46) is wrong when bit 63 of rs2 is set and
    rs1 is not zero (finding F04). *)
Theorem rv64_bit_correct : forall `{FpuOps} c cfg kc i s g v, rv_ctx c kc i s g ->
  isa_bit (r_mn i) (rx g (r_rs1 i)) (rx g (r_rs2 i)) (r_imm i) = Some v ->
  r_mn i <> R_CLMULR -> (r_mn i = R_SLLIUW -> 0 <= r_imm i < 64) ->
  lifts_to c cfg kc i s (wpc (wx g (r_rd i) v) (g_pc g + r_len i)) (PcConst (r_end i)).
Proof. intros; eapply bit_ctx; eassumption. Qed.
Print Assumptions rv64_bit_correct.
Theorem rv64_clmulr_correct_partial : forall `{FpuOps} c cfg kc i s g, rv_ctx c kc i s g ->
  r_mn i = R_CLMULR -> Z.testbit (rx g (r_rs2 i)) 63 = false ->
  lifts_to c cfg kc i s (wpc (wx g (r_rd i) (clprod (rx g (r_rs1 i)) (rx g (r_rs2 i)) 64 / 2^63)) (g_pc g + r_len i)) (PcConst (r_end i)).
Proof. intros; eapply clmulr_ctx; eassumption. Qed.
Print Assumptions rv64_clmulr_correct_partial.
Theorem rv64_clmulr_refuted : forall `{FpuOps} c cfg kc i s g g', rv_ctx c kc i s g ->
  isa_step i g = Some g' -> r_mn i = R_CLMULR -> r_rd i <> 0 -> Z.testbit (rx g (r_rs2 i)) 63 = true ->
  rx g (r_rs1 i) <> 0 -> misses c cfg kc i s g'.
Proof. intros; eapply clmulr_bad_ctx; eassumption. Qed.
Print Assumptions rv64_clmulr_refuted.
Example rv64_bit_nv : exists i s g v, rv_ctx c_ex kc_ex i s g /\
  isa_bit (r_mn i) (rx g (r_rs1 i)) (rx g (r_rs2 i)) (r_imm i) = Some v /\ r_mn i = R_RORW /\ v = - 2^31 + 1.
Proof.
  exists (i_ex R_RORW 0), (st_of (g_ex 0x1000 (fun n => if n =? 1 then 0xf00000003 else 33))),
    (g_ex 0x1000 (fun n => if n =? 1 then 0xf00000003 else 33)), (- 2^31 + 1).
  split; [apply (ctx_ex (i_ex R_RORW 0))|]. repeat split.
Qed.

(** C08. FP instructions that move bits, double precision and stores. *)
Theorem rv64_fpd_correct : forall `{FpuOps} c cfg kc i s g g', rv_ctx c kc i s g ->
  isa_fpd i g = Some g' -> lifts_to c cfg kc i s (wpc g' (g_pc g + r_len i)) (PcConst (r_end i)).
Proof. intros; eapply fpd_ctx; eassumption. Qed.
Print Assumptions rv64_fpd_correct.
(** C47. Single-precision results: the right low 32 bits, but never NaN-boxed
    (finding F05). *)
Theorem rv64_fps_low_partial : forall `{FpuOps} c cfg kc i s g z, rv_ctx c kc i s g ->
  isa_fps i g (U 32 (g_f g (r_rs1 i))) (U 32 (g_f g (r_rs2 i))) = Some z ->
  lifts_to c cfg kc i s (wpc (wf g (r_rd i) (U 32 z)) (g_pc g + r_len i)) (PcConst (r_end i)).
Proof. intros; eapply fps_ctx; eassumption. Qed.
Print Assumptions rv64_fps_low_partial.
Theorem rv64_nanbox_refuted : forall `{FpuOps} c cfg kc i s g g' z, rv_ctx c kc i s g ->
  isa_step i g = Some g' ->
  isa_fps i g (U 32 (g_f g (r_rs1 i))) (U 32 (g_f g (r_rs2 i))) = Some z -> misses c cfg kc i s g'.
Proof. intros; eapply fps_bad_ctx; eassumption. Qed.
Print Assumptions rv64_nanbox_refuted.
(** C48. FCLASS writes the class index instead of the one-hot mask (finding F06). *)
Theorem rv64_fclass_index_partial : forall `{FpuOps} c cfg kc i s g, rv_ctx c kc i s g ->
  (r_mn i = R_FCLASSS -> lifts_to c cfg kc i s
    (wpc (wx g (r_rd i) (fclass 32 23 (U 32 (g_f g (r_rs1 i))))) (g_pc g + r_len i)) (PcConst (r_end i))) /\
  (r_mn i = R_FCLASSD -> lifts_to c cfg kc i s
    (wpc (wx g (r_rd i) (fclass 64 52 (g_f g (r_rs1 i)))) (g_pc g + r_len i)) (PcConst (r_end i))).
Proof. intros; eapply fclass_ctx; eassumption. Qed.
Print Assumptions rv64_fclass_index_partial.
Theorem rv64_fclass_refuted : forall `{FpuOps} c cfg kc i s g g', rv_ctx c kc i s g ->
  isa_step i g = Some g' -> r_rd i <> 0 ->
  r_mn i = R_FCLASSD \/ (r_mn i = R_FCLASSS /\ unbox (g_f g (r_rs1 i)) = U 32 (g_f g (r_rs1 i))) ->
  misses c cfg kc i s g'.
Proof. intros; eapply fclass_bad_ctx; eassumption. Qed.
Print Assumptions rv64_fclass_refuted.
Example rv64_fp_nv : exists i s g g', rv_ctx c_ex kc_ex i s g /\ isa_fpd i g = Some g' /\ r_mn i = R_FSGNJXD /\
  g_f g' 3 = 2^63 + 0x300000003.
Proof.
  set (g := g_ex 0x1000 (fun n => if n =? 1 then 3 else 2^31)).
  exists (i_ex R_FSGNJXD 0), (st_of g), g, (wf g 3 (2^63 + 0x300000003)).
  split; [apply (ctx_ex (i_ex R_FSGNJXD 0))|]. repeat split.
Qed.

(** C49. Any specified instruction in one statement, floating-point arithmetic included. *)
Theorem rv64_step_correct : forall `{FpuOps} c cfg kc i s g g', rv_ctx c kc i s g ->
  isa_all i g = Some g' -> all_pre cfg i g -> exists p, lifts_to c cfg kc i s g' p.
Proof. intros F c cfg kc i s g g' [HA GB R KC PC] E P. eapply all_correct; eassumption. Qed.
Print Assumptions rv64_step_correct.
Example rv64_step_nv : exists i s g g', rv_ctx c_pic kc_ex i s g /\ @isa_all fpu0 i g = Some g' /\ @all_pre fpu0 cfg_call i g /\
  r_mn i = R_AMOMAXW /\ g_x g' 3 = 2^64 - 0xc0d0e10 /\ g_mem g' 0xf0 = 2.
Proof.
  set (g := g_ex 0x555000 (fun n => if n =? 1 then 0xf0 else 2)).
  exists (i_ex R_AMOMAXW 2), (st_of g), g. eexists.
  split; [apply ctx_pic; reflexivity|]. split; [reflexivity|]. split; [split; discriminate|].
  split; [reflexivity|]. split; vm_compute; reflexivity.
Qed.
