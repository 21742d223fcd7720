(** Concrete states used to show that the hypotheses of the RV64 theorems can be
    met, and the bundle of those hypotheses. *)

From Coq Require Import ZArith Lia List Bool.
From Verif Require Import Bits IR Facet Dsl Rv64 Rv64Spec Rv64Sim Rv64Arith Rv64Int Rv64Bit Rv64Mem Rv64Fp Rv64Step Rv64Bad.
Import ListNotations.
Open Scope Z_scope.

(** Lifted code for instruction [i] is about to run in state [s], which holds the
    guest state [g] with the PC at [i]. *)
Record rv_ctx (c : cenv) (kc : areg -> konst) (i : rvinst) (s : st) (g : gst) : Prop := RvCtx {
  x_arch : c_arch c = RV64;
  x_gb : gbase_ok c;
  x_rel : rel s g;
  x_kc : kc_sound kc s;
  x_pc : g_pc g = addr_pc_base c (r_start i);
}.

(** Trivial FPU, no PC base, no global base; external functions return the CPU unchanged. *)
Definition fpu0 : FpuOps := fun _ _ _ _ => Some 0.
Definition c_ex : cenv := CEnv RV64 None 0 None 0 (fun _ u => u).
(** Position-independent: PC base at run time 0x555000, lifted at 0x1000; global
    base at its own address. *)
Definition c_pic : cenv := CEnv RV64 (Some 0x555000) 0x1000 (Some 0x8000) 0x8000 (fun _ u => u).
Definition g_ex (pc : Z) (x : Z -> Z) : gst :=
  Gst (fun n => U 64 (x n)) (fun n => U 64 (x n * 0x100000001)) pc (fun a => a mod 256).
Definition st_of (g : gst) : st :=
  St (fun r => match r with GP n => Some (if n =? 0 then 0xdead else g_x g n) | VEC n => Some (g_f g n) | FLAG _ => None end)
     (PcVal (Poison (TInt 64))) (g_mem g) (fun _ => None) false.
Definition kc_ex : areg -> konst := fun _ => KNone.
Definition cfg_ex : lcfg := LCfg None None None.
Definition cfg_call : lcfg := LCfg (Some 7) None None.
Definition i_ex (mn : rvmnem) (imm : Z) : rvinst := RvInst mn 3 1 2 4 imm 7 0x1000 4.

Lemma rel_st_of : forall pc x, rel (st_of (g_ex pc x)) (g_ex pc x).
Proof.
  intros pc x. split; cbn [st_of g_ex s_reg s_mem g_x g_f g_mem].
  - intros n N. destruct (n =? 0) eqn:E; [lia|reflexivity].
  - intros. apply trunc_range. lia.
  - reflexivity.
  - intros. apply trunc_range. lia.
  - reflexivity.
Qed.
Lemma ctx_ex : forall i x, rv_ctx c_ex kc_ex i (st_of (g_ex (U 64 (r_start i)) x)) (g_ex (U 64 (r_start i)) x).
Proof.
  intros. split; [reflexivity|exact I|apply rel_st_of|intros r z E; discriminate|reflexivity].
Qed.
Lemma ctx_pic : forall i x pc, pc = addr_pc_base c_pic (r_start i) ->
  rv_ctx c_pic kc_ex i (st_of (g_ex pc x)) (g_ex pc x).
Proof.
  intros. split; [reflexivity|reflexivity|apply rel_st_of|intros r z E; discriminate|assumption].
Qed.

(** The theorems over this bundle. *)
Section Ctx.
Context `{F : FpuOps}.
Variables (c : cenv) (cfg : lcfg) (kc : areg -> konst) (i : rvinst) (s : st) (g : gst).
Hypothesis X : rv_ctx c kc i s g.
Let R := x_rel _ _ _ _ _ X.
Let PC := x_pc _ _ _ _ _ X.
Let GB := x_gb _ _ _ _ _ X.
Let HA := x_arch _ _ _ _ _ X.
Let KC := x_kc _ _ _ _ _ X.

Lemma int_correct_ctx : forall v,
  isa_int (r_mn i) (rx g (r_rs1 i)) (rx g (r_rs2 i)) (r_imm i) (g_pc g) = Some v ->
  r_mn i <> R_DIV -> r_mn i <> R_DIVW ->
  lifts_to c cfg kc i s (wpc (wx g (r_rd i) v) (g_pc g + r_len i)) (PcConst (r_end i)).
Proof.
  intros v E N1 N2. apply int_correct; try assumption. unfold int_pre. destruct (r_mn i); try exact I; congruence.
Qed.
Lemma div_total_ctx : forall op f, div_mn (r_mn i) = Some (op, f) ->
  lifts_to c cfg kc i s
    (wpc (wx g (r_rd i) (div_result op (facet_size f) (rx g (r_rs1 i)) (rx g (r_rs2 i)))) (g_pc g + r_len i))
    (PcConst (r_end i)).
Proof. intros. apply div_total; assumption. Qed.
Lemma div_correct_ctx : forall g', div_mn (r_mn i) <> None -> isa_step i g = Some g' ->
  (r_mn i = R_DIV -> S_ 64 (rx g (r_rs2 i)) = -1 -> S_ 64 (rx g (r_rs1 i)) = 0 \/ S_ 64 (rx g (r_rs1 i)) = - 2^63) ->
  (r_mn i = R_DIVW -> S_ 32 (rx g (r_rs2 i)) = -1 -> S_ 32 (rx g (r_rs1 i)) = 0 \/ S_ 32 (rx g (r_rs1 i)) = - 2^31) ->
  lifts_to c cfg kc i s g' (PcConst (r_end i)).
Proof.
  intros g' D E Q1 Q2. unfold isa_step in E.
  destruct (isa_int (r_mn i) (rx g (r_rs1 i)) (rx g (r_rs2 i)) (r_imm i) (g_pc g)) as [v|] eqn:E1.
  - injection E as <-. apply int_correct; try assumption. unfold int_pre, quot_ok.
    destruct (r_mn i); try exact I; auto.
  - exfalso. destruct (r_mn i); try (apply D; reflexivity); discriminate E1.
Qed.
Lemma div_minus_one_ctx : forall g' f, isa_step i g = Some g' -> div_mn (r_mn i) = Some (SDiv, f) -> r_rd i <> 0 ->
  S_ (facet_size f) (rx g (r_rs2 i)) = -1 ->
  S_ (facet_size f) (rx g (r_rs1 i)) <> 0 -> S_ (facet_size f) (rx g (r_rs1 i)) <> - 2^(facet_size f - 1) ->
  misses c cfg kc i s g'.
Proof. intros. eapply div_minus_one_misses; eassumption. Qed.
Lemma load_ctx : forall n sg, isa_load (r_mn i) = Some (n, sg) ->
  let v := rd_mem (g_mem g) (U 64 (rx g (r_rs1 i) + r_imm i)) n in
  lifts_to c cfg kc i s (wpc (wx g (r_rd i) (if sg then S_ (8 * Z.of_nat n) v else v)) (g_pc g + r_len i)) (PcConst (r_end i)).
Proof. intros. apply load_correct; assumption. Qed.
Lemma store_ctx : forall n, isa_store (r_mn i) = Some n ->
  lifts_to c cfg kc i s
    (wpc (wmem g (wr_mem (g_mem g) (U 64 (rx g (r_rs1 i) + r_imm i)) n (rx g (r_rs2 i)))) (g_pc g + r_len i)) (PcConst (r_end i)).
Proof. intros. apply store_correct; assumption. Qed.
Lemma lr_ctx : forall n, isa_lr (r_mn i) = Some n ->
  lifts_to c cfg kc i s
    (wpc (wx g (r_rd i) (S_ (8 * Z.of_nat n) (rd_mem (g_mem g) (rx g (r_rs1 i)) n))) (g_pc g + r_len i)) (PcConst (r_end i)).
Proof. intros. apply lr_correct; assumption. Qed.
Lemma amo_ctx : forall n G, isa_amo (r_mn i) = Some (n, G) -> 0 <= r_imm i <= 3 ->
  let old := rd_mem (g_mem g) (rx g (r_rs1 i)) n in
  lifts_to c cfg kc i s
    (wpc (wx (wmem g (wr_mem (g_mem g) (rx g (r_rs1 i)) n (G old (U (8 * Z.of_nat n) (rx g (r_rs2 i)))))) (r_rd i)
             (S_ (8 * Z.of_nat n) old)) (g_pc g + r_len i)) (PcConst (r_end i)).
Proof. intros. apply amo_correct; assumption. Qed.
Lemma sc_ctx : forall n, isa_sc (r_mn i) = Some n -> r_rd i = 0 \/ (r_rd i <> r_rs1 i /\ r_rd i <> r_rs2 i) ->
  lifts_to c cfg kc i s
    (wpc (wx (wmem g (wr_mem (g_mem g) (rx g (r_rs1 i)) n (rx g (r_rs2 i)))) (r_rd i) 0) (g_pc g + r_len i)) (PcConst (r_end i)).
Proof. intros. apply sc_correct; assumption. Qed.
Lemma branch_ctx : forall t, isa_branch (r_mn i) (rx g (r_rs1 i)) (rx g (r_rs2 i)) = Some t ->
  lifts_to c cfg kc i s (wpc g (if t then g_pc g + r_imm i else g_pc g + r_len i))
    (PcCond (V (TInt 1) (if t then 1 else 0)) (U 64 (r_start i + r_imm i)) (r_end i)).
Proof. intros. apply branch_correct; assumption. Qed.
Lemma jump_ctx : forall g', isa_step i g = Some g' -> jump_pre cfg i g ->
  lifts_to c cfg kc i s g'
    (if r_rs1 i =? FRV_REG_INV then PcConst (U 64 (r_start i + r_imm i))
     else PcVal (V (TInt 64) (U 64 (rx g (r_rs1 i) + r_imm i)))).
Proof. intros. apply jump_correct; assumption. Qed.
Lemma ret_ctx : forall g', isa_step i g = Some g' -> jal_dec i -> jal_kind cfg i = JRet ->
  (r_mn i = R_JALR -> (rx g (r_rs1 i) + r_imm i) mod 2 = 0) ->
  exists l s', lift_rv64 c cfg kc None i = Some (true, l) /\ run c s l = Ok s' /\
    rel s' g' /\ pc_at c s' g' /\ s_reg s' (GP 0) = s_reg s (GP 0) /\ s_ret s' = true.
Proof. intros. eapply ret_correct; eassumption. Qed.
Lemma call_ctx : forall g' f, isa_step i g = Some g' -> jal_dec i -> jal_kind cfg i = JCall f ->
  (r_mn i = R_JALR -> (rx g (r_rs1 i) + r_imm i) mod 2 = 0) ->
  exists l u s', lift_rv64 c cfg kc None i = Some (true, l) /\ run c s l = Ok s' /\
    cpu_of u g' /\ u_reg u (GP 0) = s_reg s (GP 0) /\
    s_reg s' = u_reg (c_ext c f u) /\ s_mem s' = u_mem (c_ext c f u) /\ s_ret s' = s_ret s /\
    s_pc s' = PcCheck (match u_pc (c_ext c f u) with Some z => V (TInt 64) (U 64 z) | None => Poison (TInt 64) end)
                      (r_end i).
Proof. intros. eapply call_correct; eassumption. Qed.
Lemma jalr_odd_ctx : forall g', isa_step i g = Some g' -> r_mn i = R_JALR -> r_rs1 i <> FRV_REG_INV -> jal_kind cfg i = JJump ->
  (rx g (r_rs1 i) + r_imm i) mod 2 = 1 -> misses c cfg kc i s g'.
Proof. intros. eapply jalr_odd_misses; eassumption. Qed.
Lemma bit_ctx : forall v, isa_bit (r_mn i) (rx g (r_rs1 i)) (rx g (r_rs2 i)) (r_imm i) = Some v ->
  r_mn i <> R_CLMULR -> (r_mn i = R_SLLIUW -> 0 <= r_imm i < 64) ->
  lifts_to c cfg kc i s (wpc (wx g (r_rd i) v) (g_pc g + r_len i)) (PcConst (r_end i)).
Proof.
  intros v E N1 N2. apply bit_correct; try assumption. unfold bit_pre. destruct (r_mn i); try exact I; try congruence; auto.
Qed.
Lemma clmulr_ctx : r_mn i = R_CLMULR -> Z.testbit (rx g (r_rs2 i)) 63 = false ->
  lifts_to c cfg kc i s (wpc (wx g (r_rd i) (clprod (rx g (r_rs1 i)) (rx g (r_rs2 i)) 64 / 2^63)) (g_pc g + r_len i)) (PcConst (r_end i)).
Proof.
  intros M E. apply bit_correct; try assumption; [rewrite M; reflexivity|]. unfold bit_pre. rewrite M. assumption.
Qed.
Lemma clmulr_bad_ctx : forall g', isa_step i g = Some g' -> r_mn i = R_CLMULR -> r_rd i <> 0 ->
  Z.testbit (rx g (r_rs2 i)) 63 = true -> rx g (r_rs1 i) <> 0 -> misses c cfg kc i s g'.
Proof. intros. eapply clmulr_misses; eassumption. Qed.
Lemma fpd_ctx : forall g', isa_fpd i g = Some g' ->
  lifts_to c cfg kc i s (wpc g' (g_pc g + r_len i)) (PcConst (r_end i)).
Proof. intros. apply fpd_correct; assumption. Qed.
Lemma fps_ctx : forall z, isa_fps i g (U 32 (g_f g (r_rs1 i))) (U 32 (g_f g (r_rs2 i))) = Some z ->
  lifts_to c cfg kc i s (wpc (wf g (r_rd i) (U 32 z)) (g_pc g + r_len i)) (PcConst (r_end i)).
Proof. intros. apply fps_correct; assumption. Qed.
Lemma fps_bad_ctx : forall g' z, isa_step i g = Some g' ->
  isa_fps i g (U 32 (g_f g (r_rs1 i))) (U 32 (g_f g (r_rs2 i))) = Some z -> misses c cfg kc i s g'.
Proof. intros. eapply fps_misses; eassumption. Qed.
Lemma fclass_ctx :
  (r_mn i = R_FCLASSS -> lifts_to c cfg kc i s
    (wpc (wx g (r_rd i) (fclass 32 23 (U 32 (g_f g (r_rs1 i))))) (g_pc g + r_len i)) (PcConst (r_end i))) /\
  (r_mn i = R_FCLASSD -> lifts_to c cfg kc i s
    (wpc (wx g (r_rd i) (fclass 64 52 (g_f g (r_rs1 i)))) (g_pc g + r_len i)) (PcConst (r_end i))).
Proof.
  split; intros M.
  - apply (fclass_goal c cfg kc i s g R PC I32 32 23); [tauto|]. unfold lift_mnem. rewrite M. reflexivity.
  - rewrite <- (trunc_small 64 (g_f g (r_rs1 i))) by apply R.
    apply (fclass_goal c cfg kc i s g R PC I64 64 52); [tauto|]. unfold lift_mnem. rewrite M. reflexivity.
Qed.
Lemma fclass_bad_ctx : forall g', isa_step i g = Some g' -> r_rd i <> 0 ->
  r_mn i = R_FCLASSD \/ (r_mn i = R_FCLASSS /\ unbox (g_f g (r_rs1 i)) = U 32 (g_f g (r_rs1 i))) ->
  misses c cfg kc i s g'.
Proof.
  intros g' E D [M|[M B]]; [eapply fclassd_misses; eassumption|eapply fclasss_misses; eassumption].
Qed.
Lemma step_ctx : forall g', isa_step i g = Some g' -> step_pre cfg i g -> exists p, lifts_to c cfg kc i s g' p.
Proof. intros. eapply step_correct; eassumption. Qed.
End Ctx.

(** SC whose rd is also the value register: 0 is stored instead of the value. *)
Definition i_sc : rvinst := RvInst R_SCW 2 1 2 128 0 0 0x1000 4.
Definition g_sc : gst := g_ex 0x1000 (fun n => if n =? 1 then 0x4000 else 0x11223344).
Lemma sc_alias_witness : exists i s g g', rv_ctx c_ex kc_ex i s g /\ isa_sc (r_mn i) = Some 4%nat /\
  r_rd i = r_rs2 i /\ isa_step i g = Some g' /\ forall F : FpuOps, misses c_ex cfg_ex kc_ex i s g'.
Proof.
  exists i_sc, (st_of g_sc), g_sc. eexists. split; [apply (ctx_ex i_sc)|].
  split; [reflexivity|]. split; [reflexivity|]. split; [reflexivity|].
  intros F. eexists _, _. split; [reflexivity|]. split; [reflexivity|].
  intros [RR _]. pose proof (rel_m _ _ RR 0x4000) as E. vm_compute in E. discriminate E.
Qed.

(** Reading one register after a run, for the examples. *)
Definition reg_after `{FpuOps} (c : cenv) (s : st) (l : list stm) (r : areg) : option Z :=
  match run c s l with Ok s' => s_reg s' r | _ => None end.
Lemma reg_after_ok : forall `{FpuOps} c s l r z, reg_after c s l r = Some z ->
  exists s', run c s l = Ok s' /\ s_reg s' r = Some z.
Proof. intros F c s l r z E. unfold reg_after in E. destruct (run c s l) as [s'| |]; try discriminate. eauto. Qed.
