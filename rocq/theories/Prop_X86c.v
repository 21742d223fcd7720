(** Properties C32, C33, C35 and C36: x86-64 stack, calls and returns, the flags
    image, bit and exchange instructions. *)

From Coq Require Import ZArith Lia ZifyBool List Bool.
From Verif Require Import Bits IR Facet Dsl Rv64 Rv64Spec Rv64Sim Rv64Arith Rv64Int Rv64Ex X86 X86Spec X86Arith X86Sim X86Ops
  X86Gp X86Gp2 X86Gp3 X86Gp4 X86Gp5 X86Gp6 X86Gp7 X86Step X86Cond X86Ex Layout Prop_Config.
Import ListNotations.
Open Scope Z_scope.
Ltac Zify.zify_post_hook ::= Z.div_mod_to_equations.

Ltac xgp MN := solve [unfold xsupp, xext, xlost, xrets; rewrite MN; first [reflexivity | exact I | assumption | solve [auto]]].

(** ** C32: stack, call and return *)
(** PUSH of every operand; for RSP the value before the decrement is stored. *)
Theorem x86_push_correct : forall `{FpuOps} c cfg kc kcp kd i s g, x_ctx c cfg kc i s g -> x_mn i = X_PUSH ->
  let w := op_bits (x_op0 i) in let n := if w =? 16 then 2%nat else 8%nat in let v := rd_op (adv i g) (x_op0 i) in let sp := (y_r g 4 - Z.of_nat n) mod 2^64 in
  exists l s', lift_x86 c cfg kc kcp None kd i = (true, CPlain l) /\ run c s l = Ok s' /\
    s_reg s' (GP 4) = Some sp /\ rd_mem (s_mem s') sp n = v /\
    (forall x, 0 <= x < 2^64 -> Z.of_nat n <= (x - sp) mod 2^64 -> s_mem s' x = y_m g x) /\
    (forall k, 0 <= k < 16 -> k <> 4 -> s_reg s' (GP k) = Some (y_r g k)) /\ (forall f b, y_f g f = Some b -> flag_is s' f b).
Proof.
  intros F c cfg kc kcp kd i s g C MN w n v sp.
  destruct (whole_exact c cfg kc kcp kd i s g (push (adv i g) w v)) as (l & s' & L & R & X & _ & _); try assumption; try xgp MN.
  { unfold xspec, isa. rewrite MN. reflexivity. }
  pose proof (xc_wf _ _ _ _ _ _ C) as WF. unfold xwf in WF. apply andb_prop in WF as [WF _]. apply andb_prop in WF as [WF SH]. apply andb_prop in WF as [WF _]. apply andb_prop in WF as [W0 _].
  unfold shape_ok in SH. rewrite MN in SH. apply andb_prop in SH as [V W].
  assert (I : inr w v) by exact (rdi (adv i g) _ W0 V). unfold inr in I. fold w in W.
  assert (N : bytes_of w = n /\ w = 8 * Z.of_nat n). { unfold n. assert (WW : w = 16 \/ w = 64) by lia. destruct WW as [-> | ->]; split; reflexivity. } destruct N as [N1 N2].
  assert (NN : (n = 2 \/ n = 8)%nat) by (unfold n; destruct (w =? 16); auto).
  assert (SP : U 64 (y_r (adv i g) 4 - w / 8) = sp). { unfold sp, U. cbn [adv set_ip y_r]. do 2 f_equal. lia. }
  exists l, s'. split; [exact L|]. split; [exact R|]. unfold push in X. rewrite SP, N1 in X. cbn [adv set_ip y_m] in X.
  assert (SPR : 0 <= sp < 2 ^ 64) by (unfold sp; apply Z.mod_pos_bound; lia).
  split; [|split; [|split; [|split]]].
  - rewrite (xr_r _ _ X 4) by lia. f_equal. cbn [wr_reg set_r y_r Z.eqb Pos.eqb]. unfold reg_merge. cbn [Z.eqb Pos.eqb]. change U with trunc. apply trunc_small. exact SPR.
  - rewrite (rd_mem_ext n _ _ sp (xr_m _ _ X)). cbn [wr_reg set_r y_m set_m]. rewrite rd_wr_same by lia. apply Z.mod_small. replace (256 ^ Z.of_nat n) with (2 ^ w); [exact I|]. rewrite N2, Z.pow_mul_r by lia. reflexivity.
  - intros x R1 R2. rewrite (xr_m _ _ X x). cbn [wr_reg set_r y_m set_m]. unfold wr_mem. cbv zeta. unfold U. replace (_ <? Z.of_nat n) with false by lia. reflexivity.
  - intros k K NK. rewrite (xr_r _ _ X k K). cbn [wr_reg set_r y_r]. destruct (k =? 4) eqn:Q; [lia|reflexivity].
  - intros f b E. apply (xr_f _ _ X). exact E.
Qed.
Print Assumptions x86_push_correct.
(** POP of a 64-bit register, including RSP. [kcp] is what the lifter knows after
    the increment of RSP. *)
Theorem x86_pop_correct_partial : forall `{FpuOps} c cfg kc kcp kd i s g r, x_ctx c cfg kc i s g -> x_mn i = X_POP ->
  x_op0 i = XReg 64 false r -> xkc_sound kcp (wr_reg (adv i g) 64 4 (y_r g 4 + 8)) ->
  exists l s', lift_x86 c cfg kc kcp None kd i = (true, CPlain l) /\ run c s l = Ok s' /\
    s_reg s' (GP r) = Some (rd_mem (y_m g) (y_r g 4) 8) /\ (r <> 4 -> s_reg s' (GP 4) = Some ((y_r g 4 + 8) mod 2^64)) /\
    (forall k, 0 <= k < 16 -> k <> 4 -> k <> r -> s_reg s' (GP k) = Some (y_r g k)) /\
    (forall x, s_mem s' x = y_m g x) /\ (forall f b, y_f g f = Some b -> flag_is s' f b).
Proof.
  intros F c cfg kc kcp kd i s g r C MN O K.
  destruct (whole_exact c cfg kc kcp kd i s g (wr_op (wr_reg (adv i g) 64 4 (y_r g 4 + 8)) (XReg 64 false r) (rd_mem (y_m g) (y_r g 4) 8))) as (l & s' & L & R & X & _ & _); try assumption.
  { unfold xsupp. rewrite MN, O. split; [reflexivity|exact K]. }
  { unfold xspec, isa. rewrite MN, O. reflexivity. }
  1-3: xgp MN.
  pose proof (xc_wf _ _ _ _ _ _ C) as WF. unfold xwf in WF. apply andb_prop in WF as [WF _]. apply andb_prop in WF as [WF _]. apply andb_prop in WF as [WF _]. apply andb_prop in WF as [W0 _].
  rewrite O in W0. cbn [wf_op] in W0. unfold okr in W0.
  exists l, s'. split; [exact L|]. split; [exact R|].
  unfold wr_op, loc_of in X. cbn [wr_loc] in X.
  split; [|split; [|split; [|split]]].
  - rewrite (xr_r _ _ X r) by lia. f_equal. cbn [wr_reg set_r y_r]. rewrite Z.eqb_refl. unfold reg_merge. cbn [Z.eqb Pos.eqb]. change U with trunc. apply trunc_small. exact (rd_mem_inr 8 _ _).
  - intros NR. rewrite (xr_r _ _ X 4) by lia. f_equal. cbn [wr_reg set_r y_r]. destruct (4 =? r) eqn:Q; [lia|]. reflexivity.
  - intros k KR N4 NR. rewrite (xr_r _ _ X k KR). f_equal. cbn [wr_reg set_r y_r]. destruct (k =? r) eqn:Q; [lia|]. destruct (k =? 4) eqn:Q4; [lia|]. reflexivity.
  - intros x. exact (xr_m _ _ X x).
  - intros f b E. apply (xr_f _ _ X). exact E.
Qed.
Print Assumptions x86_pop_correct_partial.
(** The other stack instructions against the architectural step. *)
Theorem x86_stack_correct_partial : forall `{FpuOps} c cfg kc kcp kd i s g g', x_ctx c cfg kc i s g ->
  In (x_mn i) [X_PUSH; X_POP; X_PUSHF; X_POPF; X_LEAVE] -> (x_mn i = X_POPF -> x_opsz i = 8) ->
  (x_mn i = X_POP -> op_bits (x_op0 i) = 64 /\ xkc_sound kcp (wr_reg (adv i g) 64 4 (y_r g 4 + 8))) ->
  xspec i g = Some g' -> x_lifts c cfg kc kcp kd i s g' (s_ret s).
Proof.
  intros F c cfg kc kcp kd i s g g' C MN P1 P2 E.
  eapply whole_exact; try eassumption; mns MN; xgp MN.
Qed.
Print Assumptions x86_stack_correct_partial.
(** CALL and RET without a call function: jumps with a push or pop; with
    [call_ret_clobber_flags] the status flags are given up. *)
Theorem x86_call_jump : forall `{FpuOps} c cfg kc kcp kd i s g g', x_ctx c cfg kc i s g -> xl_call cfg = None ->
  In (x_mn i) [X_CALL; X_RET] -> (forall w m, x_op0 i = XMem w m -> m_seg m <> 4 /\ m_seg m <> 5) -> xspec i g = Some g' ->
  x_lifts c cfg kc kcp kd i s (if xl_clobber cfg then forget [fOF; fSF; fZF; fAF; fPF; fCF] g' else g') (s_ret s).
Proof.
  intros F c cfg kc kcp kd i s g g' C NC MN SG E.
  assert (FD : forced_ds (x_op0 i) = true). { unfold forced_ds. destruct (x_op0 i) as [| | | |w m] eqn:O; try reflexivity. destruct (SG w m eq_refl). lia. }
  assert (X : xsupp kcp kd i (adv i g) /\ xext cfg i = [] /\ xlost cfg i (adv i g) = clob cfg /\ xrets cfg i (s_ret s) = s_ret s).
  { unfold xsupp, xext, xlost, xrets. mns MN; rewrite MN, NC; auto. }
  destruct X as (X1 & X2 & X3 & X4). unfold clob in X3. destruct (xl_clobber cfg).
  - rewrite <- X3, <- X4. apply whole_step; assumption.
  - eapply whole_exact; eassumption.
Qed.
Print Assumptions x86_call_jump.
(** CALL with a call function [f]: [f] sees the callee address as PC, and the state
    with the return address pushed; afterwards control continues behind the CALL
    exactly if [f] left that address as PC, else the function is left with it. *)
Theorem x86_call_function : forall `{FpuOps} c cfg kc kcp kd i s g g' f p, x_ctx c cfg kc i s g -> xl_call cfg = Some f ->
  x_mn i = X_CALL -> (forall w m, x_op0 i = XMem w m -> m_seg m <> 4 /\ m_seg m <> 5) -> xspec i g = Some g' -> x_end i <> 0 ->
  exists pre s1, lift_x86 c cfg kc kcp None kd i = (true, CPlain (pre ++ [SCall f; SPcCallret (x_end i)])) /\ run c s pre = Ok s1 /\
    xrel s1 (if xl_clobber cfg then forget [fOF; fSF; fZF; fAF; fPF; fCF] g' else g') /\
    pc_value c (s_pc s1) 0 = Ok (V (TInt 64) (y_ip g')) /\ s_ret s1 = s_ret s /\
    (u_pc (c_ext c f (to_cpu s1 (V (TInt 64) (y_ip g')))) = Some p -> inr 64 p ->
     exists s2 b, run c s (pre ++ [SCall f; SPcCallret (x_end i)]) = Ok s2 /\ pc_branch c (s_pc s2) = Ok (V (TInt 1) b, x_end i, 0) /\
       (b = 1 <-> p = runtime_addr c (x_end i)) /\ (b = 0 <-> p <> runtime_addr c (x_end i)) /\ pc_value c (s_pc s2) 0 = Ok (V (TInt 64) p)).
Proof.
  intros F c cfg kc kcp kd i s g g' f p C NC MN SG E NE.
  assert (FD : forced_ds (x_op0 i) = true). { unfold forced_ds. destruct (x_op0 i) as [| | | |w m] eqn:O; try reflexivity. destruct (SG w m eq_refl). lia. }
  destruct (whole_pre c cfg kc kcp kd i s g g' C) as (pre & s1 & L & R & D1 & D2 & D3); [xgp MN|exact E|].
  unfold xext in L. rewrite MN, NC in L. unfold xlost in D1, D2. rewrite MN in D1, D2. unfold xrets in D3. rewrite MN in D3.
  exists pre, s1. split; [exact L|]. split; [exact R|]. split; [|split; [exact D2|split; [exact D3|]]].
  - unfold clob in D1. destruct (xl_clobber cfg); [exact D1|]. eapply xrel_gle; [exact D1|]. repeat split; auto.
  - intros U P. rewrite run_app, R. exact (call_return_check c s1 f (x_end i) _ p D2 U P NE).
Qed.
Print Assumptions x86_call_function.
(** RET with a call function leaves the lifted function. *)
Theorem x86_ret_function : forall `{FpuOps} c cfg kc kcp kd i s g g' f, x_ctx c cfg kc i s g -> xl_call cfg = Some f ->
  x_mn i = X_RET -> xspec i g = Some g' ->
  x_lifts c cfg kc kcp kd i s (if xl_clobber cfg then forget [fOF; fSF; fZF; fAF; fPF; fCF] g' else g') true.
Proof.
  intros F c cfg kc kcp kd i s g g' f C NC MN E.
  assert (X : xsupp kcp kd i (adv i g) /\ xext cfg i = [] /\ xlost cfg i (adv i g) = clob cfg /\ xrets cfg i (s_ret s) = true).
  { unfold xsupp, xext, xlost, xrets. rewrite MN, NC; auto. }
  destruct X as (X1 & X2 & X3 & X4). unfold clob in X3.
  pose proof (whole_step c cfg kc kcp kd i s g g' C X1 E X2) as W. rewrite X3, X4 in W. destruct (xl_clobber cfg); [exact W|].
  destruct W as (l & s' & L & R & D1 & D2 & D3). exists l, s'. split; [exact L|]. split; [exact R|]. split; [|split; assumption].
  eapply xrel_gle; [exact D1|]. repeat split; auto.
Qed.
Print Assumptions x86_ret_function.
(** SYSCALL: RCX and R11 before the syscall function runs. *)
Theorem x86_syscall_correct : forall `{FpuOps} c cfg kc kcp kd i s g g', x_ctx c cfg kc i s g -> x_mn i = X_SYSCALL -> xspec i g = Some g' ->
  exists pre s1, lift_x86 c cfg kc kcp None kd i = (true, CPlain (pre ++ match xl_syscall cfg with Some f => [SCall f] | None => [] end)) /\
    run c s pre = Ok s1 /\ xrel s1 g' /\ pc_value c (s_pc s1) 0 = Ok (V (TInt 64) (y_ip g')) /\ s_ret s1 = s_ret s.
Proof.
  intros F c cfg kc kcp kd i s g g' C MN E.
  destruct (whole_pre c cfg kc kcp kd i s g g' C) as (pre & s1 & L & R & D1 & D2 & D3); [xgp MN|exact E|].
  unfold xext in L. rewrite MN in L. unfold xlost in D1, D2. rewrite MN in D1, D2. unfold xrets in D3. rewrite MN in D3.
  exists pre, s1. split; [exact L|]. split; [exact R|]. split; [|split; [exact D2|exact D3]]. eapply xrel_gle; [exact D1|]. repeat split; auto.
Qed.
Print Assumptions x86_syscall_correct.
(** F24: POP of a 16-bit operand builds ill-typed IR. F25: POPF with a 16-bit
    operand size pops eight bytes. *)
Theorem x86_pop16_refuted : forall r f,
  let i := xi_ex X_POP (XReg 16 false 3) XNone XNone in
  x_ctx c_x xcfg_ex kc_ex i (xst_of (gex r f)) (gex r f) /\ (exists g', xspec i (gex r f) = Some g') /\ cell_after c_x xcfg_ex i (xst_of (gex r f)) (GP 3) = TyErr.
Proof. intros r f. split; [apply xctx_ex; reflexivity|]. split; [eexists; reflexivity|]. reflexivity. Qed.
Print Assumptions x86_pop16_refuted.
Theorem x86_popf16_refuted : wrong_reg (XInst X_POPF XNone XNone XNone 2 8 false false false 0x1000 2) (fun _ => 0x2000) (all_set true) 4.
Proof. wreg. Qed.
Print Assumptions x86_popf16_refuted.
Example x86_push_nv : let i := xi_ex X_PUSH (XReg 64 false 4) XNone XNone in
  exists s g, x_ctx c_x xcfg_ex kc_ex i s g /\ rd_op (adv i g) (x_op0 i) = 0x2000.
Proof. intros i. exists (xst_of (gex (fun _ => 0x2000) (all_set true))), (gex (fun _ => 0x2000) (all_set true)). split; [apply xctx_ex; reflexivity|reflexivity]. Qed.
Example x86_pop_nv : let i := xi_ex X_POP (XReg 64 false 4) XNone XNone in
  exists s g, x_ctx c_x xcfg_ex kc_ex i s g /\ xkc_sound kc_ex (wr_reg (adv i g) 64 4 (y_r g 4 + 8)) /\ rd_mem (y_m g) (y_r g 4) 8 = 0x0706050403020100.
Proof.
  intros i. exists (xst_of (gex (fun _ => 0x2000) (all_set true))), (gex (fun _ => 0x2000) (all_set true)). split; [apply xctx_ex; reflexivity|].
  split; [intros n z _ E; discriminate|reflexivity].
Qed.
Example x86_call_nv : let i := xi_ex X_CALL (XMem 64 (XMemOp (BReg 3) None 0 8 3 8)) XNone XNone in let cfg := XCfg (Some 7) None true false false in
  let c := CEnv X86_64 None 0 None 0 (fun _ u => Cpu (Some 0x1004) (u_reg u) (u_mem u)) in
  exists s g g', x_ctx c cfg kc_ex i s g /\ xspec i g = Some g' /\ x_end i <> 0 /\ y_ip g' <> 0x1004 /\ y_r g' 4 = 0x1ff8 /\
    inr 64 0x1004 /\ 0x1004 = runtime_addr c (x_end i).
Proof.
  intros i cfg c. exists (xst_of (gex (fun _ => 0x2000) (all_set true))), (gex (fun _ => 0x2000) (all_set true)). eexists.
  split; [split; try reflexivity; [apply xrel_ex|intros n z _ E; discriminate]|]. split; [reflexivity|].
  split; [discriminate|]. split; [vm_compute; discriminate|]. split; [vm_compute; reflexivity|]. split; [split; lia|reflexivity].
Qed.

(** ** C33: the flags image *)
(** Architectural positions, bit 1 set, the remaining bits fixed. *)
Theorem x86_flags_image : forall g, (forall f, Z.testbit (rflags g) (flag_pos f) = fl g f) /\ Z.testbit (rflags g) 1 = true /\
  Z.testbit (rflags g) 9 = true /\ Z.testbit (rflags g) 3 = false /\ Z.testbit (rflags g) 5 = false /\ Z.testbit (rflags g) 8 = false /\
  (forall n, 12 <= n -> Z.testbit (rflags g) n = false).
Proof.
  intros g. destruct (rflags_fixed g) as (A & B & C & D & E & F & _). split; [|repeat (split; [assumption|]); assumption].
  intros f. rewrite <- (rflags_bit g f). symmetry. rewrite <- Z.bit0_odd, Z.div_pow2_bits by (destruct f; cbn; lia). reflexivity.
Qed.
Print Assumptions x86_flags_image.
(** PUSHF directly followed by POPF gives back every flag and RSP. *)
Theorem x86_pushf_popf : forall `{FpuOps} c cfg kc kcp kd kc' kcp' kd' i j s g, x_ctx c cfg kc i s g ->
  x_mn i = X_PUSHF -> x_opsz i = 8 -> x_mn j = X_POPF -> x_opsz j = 8 -> xwf j = true ->
  good_op cfg (x_op0 j) = true -> good_op cfg (x_op1 j) = true -> good_op cfg (x_op2 j) = true -> x_start j = x_end i ->
  xkc_sound kc' (push (adv i g) 64 (rflags g)) -> (forall f, y_f g f <> None) ->
  exists l l' s', lift_x86 c cfg kc kcp None kd i = (true, CPlain l) /\ lift_x86 c cfg kc' kcp' None kd' j = (true, CPlain l') /\
    run c s (l ++ l') = Ok s' /\ (forall f b, y_f g f = Some b -> flag_is s' f b) /\ (forall r, 0 <= r < 16 -> s_reg s' (GP r) = Some (y_r g r)).
Proof.
  intros F c cfg kc kcp kd kc' kcp' kd' i j s g C MI NI MJ NJ WJ J0 J1 J2 AD K DF.
  pose proof (xc_rel _ _ _ _ _ _ C) as R0.
  set (ga := adv i g). set (g1 := push ga 64 (rflags g)). set (sp := y_r g1 4).
  assert (SP : sp = U 64 (y_r g 4 - 8)) by (apply Z.mod_mod; lia).
  set (g2 := load_flags 64 (rd_mem (y_m g1) sp 8) (wr_reg (adv j g1) 64 4 (sp + 8))).
  destruct (block_step c cfg g [XItem kc kcp kd i; XItem kc' kcp' kd' j] (forget [] g2)) with (s := s) as (k & s' & L & R & X & _ & _).
  - exact (xc_arch _ _ _ _ _ _ C).
  - exact (xc_gb _ _ _ _ _ _ C).
  - apply xb_cons with (g1 := g1); cbn [xi_i xi_kc xi_kcp xi_kd]; try apply C; try (xgp MI).
    + rewrite MI. discriminate.
    + unfold xspec, isa. rewrite MI, NI. fold (adv i g). fold ga.
      assert (D : defined ga all_flags = true). { unfold defined, all_flags. cbn [forallb ga adv set_ip y_f]. pose proof (DF fCF). pose proof (DF fPF). pose proof (DF fAF). pose proof (DF fZF). pose proof (DF fSF). pose proof (DF fOF). pose proof (DF fDF). destruct (y_f g fCF), (y_f g fPF), (y_f g fAF), (y_f g fZF), (y_f g fSF), (y_f g fOF), (y_f g fDF); try congruence; reflexivity. }
      rewrite D. reflexivity.
    + apply xb_cons with (g1 := g2); cbn [xi_i xi_kc xi_kcp xi_kd]; try assumption; try (xgp MJ).
      * cbn [forget set_f y_ip]. unfold g1, push. cbn [wr_reg set_r set_m y_ip]. unfold ga, adv. cbn [set_ip y_ip]. rewrite AD. unfold x_end.
        rewrite (xc_ip _ _ _ _ _ _ C), addr_pc_base_trunc, addr_pc_base_add. reflexivity.
      * rewrite MJ. discriminate.
      * unfold xspec, isa, xlost. rewrite MJ, NJ, MI. reflexivity.
      * unfold xlost at 1. rewrite MJ. apply xb_nil.
  - exact R0.
  - cbn [lift_items xi_kc xi_kcp xi_kd xi_i] in L.
    destruct (lift_x86 c cfg kc kcp None kd i) as [[|] [l| |]] eqn:L1; try discriminate.
    destruct (lift_x86 c cfg kc' kcp' None kd' j) as [[|] [l'| |]] eqn:L2; try discriminate. injection L as <-. rewrite app_nil_r in R.
    exists l, l', s'. split; [reflexivity|]. split; [reflexivity|]. split; [exact R|].
    assert (SPM : rd_mem (y_m g1) sp 8 = rflags g).
    { unfold g1, push. cbn [wr_reg set_r y_m set_m]. change (U 64 (y_r ga 4 - 64 / 8)) with (U 64 (y_r g 4 - 8)). rewrite <- SP. change (bytes_of 64) with 8%nat. rewrite rd_wr_same by lia.
      destruct (rflags_fixed g) as (_ & _ & _ & _ & _ & _ & RG). apply Z.mod_small. change (256 ^ Z.of_nat 8) with (2 ^ 64). lia. }
    split.
    + intros f b E. apply (xr_f _ _ X). cbn [forget set_f y_f existsb]. unfold g2. rewrite SPM. apply load_rflags. exact E.
    + intros r RR. rewrite (xr_r _ _ X r RR). f_equal. unfold g2, load_flags. cbn [forget set_f wr_reg set_r y_r adv set_ip g1 push ga set_m].
      pose proof (xr_rr _ _ R0 r RR) as RI. unfold inr in RI. unfold reg_merge. cbn [Z.eqb Pos.eqb]. destruct (r =? 4) eqn:Q; [|reflexivity].
      assert (r = 4) as -> by lia. rewrite SP. unfold U. rewrite Zplus_mod_idemp_l. replace (y_r g 4 - 8 + 8) with (y_r g 4) by lia. apply Z.mod_small. lia.
Qed.
Print Assumptions x86_pushf_popf.
(** LAHF and SAHF. LAHF is lifted through the whole flags image; the model's
    undefined flags make the proof ask for all of them to be defined. *)
Theorem x86_lahf_sahf_correct : forall `{FpuOps} c cfg kc kcp kd i s g g', x_ctx c cfg kc i s g ->
  In (x_mn i) [X_LAHF; X_SAHF] -> (x_mn i = X_LAHF -> forall f, y_f g f <> None) -> xspec i g = Some g' -> x_lifts c cfg kc kcp kd i s g' (s_ret s).
Proof.
  intros F c cfg kc kcp kd i s g g' C MN DF E.
  assert (D : x_mn i = X_LAHF -> defined (adv i g) all_flags = true).
  { intros H. specialize (DF H). unfold defined, all_flags. cbn [forallb adv set_ip y_f]. pose proof (DF fCF). pose proof (DF fPF). pose proof (DF fAF). pose proof (DF fZF). pose proof (DF fSF). pose proof (DF fOF). pose proof (DF fDF). destruct (y_f g fCF), (y_f g fPF), (y_f g fAF), (y_f g fZF), (y_f g fSF), (y_f g fOF), (y_f g fDF); try congruence; reflexivity. }
  eapply whole_exact; try eassumption; mns MN; xgp MN.
Qed.
Print Assumptions x86_lahf_sahf_correct.
Example x86_flags_nv : let i := XInst X_PUSHF XNone XNone XNone 8 8 false false false 0x1000 1 in let j := XInst X_POPF XNone XNone XNone 8 8 false false false 0x1001 1 in
  exists s g, x_ctx c_x xcfg_ex kc_ex i s g /\ xwf j = true /\ x_start j = x_end i /\ xkc_sound kc_ex (push (adv i g) 64 (rflags g)) /\ (forall f, y_f g f <> None) /\
  rflags g = 0xa53.
Proof.
  intros i j. set (f := fun x => match x with fPF | fSF | fDF => Some false | _ => Some true end).
  exists (xst_of (gex (fun _ => 0x2000) f)), (gex (fun _ => 0x2000) f). split; [apply xctx_ex; reflexivity|].
  split; [reflexivity|]. split; [reflexivity|]. split; [intros n z _ E; discriminate|]. split; [intros []; discriminate|]. reflexivity.
Qed.

(** ** C35: bit instructions *)
Theorem x86_bit_correct : forall `{FpuOps} c cfg kc kcp kd i s g g', x_ctx c cfg kc i s g ->
  In (x_mn i) [X_BT; X_BTS; X_BTR; X_BTC; X_BSF; X_BSR; X_POPCNT; X_BSWAP; X_MOVBE] -> xspec i g = Some g' -> x_lifts c cfg kc kcp kd i s g' (s_ret s).
Proof.
  intros F c cfg kc kcp kd i s g g' C MN E.
  eapply whole_exact; try eassumption; mns MN; xgp MN.
Qed.
Print Assumptions x86_bit_correct.
(** What BT* with a memory operand and a register offset does, with the bit string
    of the whole memory: bit [n] of the byte at address [a + n/8]. *)
Definition mem_bit (m : Z -> Z) (a n : Z) : bool := Z.testbit (m ((a + n / 8) mod 2^64)) (n mod 8).
Theorem x86_bt_memory : forall `{FpuOps} c cfg kc kcp kd i s g m r w, x_ctx c cfg kc i s g -> x_mn i = X_BT ->
  x_op0 i = XMem w m -> x_op1 i = XReg w false r -> m_asz m = 8 ->
  exists l s', lift_x86 c cfg kc kcp None kd i = (true, CPlain l) /\ run c s l = Ok s' /\
    flag_is s' fCF (mem_bit (y_m g) (ea (adv i g) m) (S_ w (y_r g r))).
Proof.
  intros F c cfg kc kcp kd i s g m r w C MN O0 O1 AS.
  pose proof (xc_wf _ _ _ _ _ _ C) as WF. unfold xwf in WF. apply andb_prop in WF as [WF _]. apply andb_prop in WF as [WF SH]. apply andb_prop in WF as [WF _]. apply andb_prop in WF as [W0 _].
  rewrite O0 in W0. cbn [wf_op] in W0. apply andb_prop in W0 as [OW _]. unfold shape_ok in SH. rewrite MN, O0, O1 in SH. cbn [op_rm op_bits andb] in SH.
  assert (W : w = 16 \/ w = 32 \/ w = 64) by (unfold okw in OW; lia).
  eassert (E : xspec i g = Some _). { unfold xspec, isa. rewrite MN, O0, O1, AS. cbn [op_ismem op_isreg andb negb Z.eqb Pos.eqb]. reflexivity. }
  destruct (whole_exact c cfg kc kcp kd i s g _ C ltac:(xgp MN) E ltac:(xgp MN) ltac:(xgp MN) ltac:(xgp MN)) as (l & s' & L & R & X & _ & _).
  exists l, s'. split; [exact L|]. split; [exact R|]. apply (xr_f _ _ X). cbn [set1 set_f y_f xflag_eqb]. f_equal.
  fold (adv i g). cbn [op_bits]. set (a := ea (adv i g) m). unfold mem_bit. cbn [rd_loc rd_op loc_of]. cbn [adv set_ip y_r y_m].
  set (v := y_r g r). set (q := S_ w v).
  assert (SU : S_ w (U w v) = q). { unfold q, S_, U. rewrite Z.mod_mod by lia. reflexivity. } rewrite SU.
  assert (K : U w v mod w = q mod w).
  { unfold q, S_, U. set (u := v mod 2 ^ w). clearbody u. destruct (u <? 2 ^ (w - 1)); [reflexivity|]. destruct W as [-> | [-> | ->]]; lia. }
  rewrite K. clearbody q. rewrite rd_mem_bit by (destruct W as [-> | [-> | ->]]; cbn [bytes_of Z.to_nat]; change (bytes_of 16) with 2%nat; change (bytes_of 32) with 4%nat; change (bytes_of 64) with 8%nat; lia).
  replace ((q mod w) mod 8) with (q mod 8) by (destruct W as [-> | [-> | ->]]; lia). unfold U. rewrite Zplus_mod_idemp_l. do 3 f_equal.
  clear - W. destruct W as [-> | [-> | ->]]; [change (16 / 8) with 2|change (32 / 8) with 4|change (64 / 8) with 8]; lia.
Qed.
Print Assumptions x86_bt_memory.
(** BSF and BSR against the bits of the source. *)
Lemma ctz_spec : forall n v, v mod 2 ^ Z.of_nat n <> 0 -> 0 <= ctz n v < Z.of_nat n /\ Z.testbit v (ctz n v) = true /\ forall k, 0 <= k < ctz n v -> Z.testbit v k = false.
Proof.
  induction n as [|n IH]; intros v N.
  - change (2 ^ Z.of_nat 0) with 1 in N. rewrite Z.mod_1_r in N. congruence.
  - cbn [ctz]. destruct (Z.odd v) eqn:O.
    + split; [lia|]. split; [rewrite Z.bit0_odd; exact O|]. intros k K. lia.
    + assert (V : v = 2 * (v / 2)). { pose proof (Zmod_odd v) as M. rewrite O in M. lia. }
      destruct (IH (v / 2)) as (A & B & C).
      { intros Z0. apply N. rewrite V. rewrite Nat2Z.inj_succ, Z.pow_succ_r, Z.mul_mod_distr_l by lia. lia. }
      split; [lia|]. assert (S : forall k, 0 <= k -> Z.testbit v (1 + k) = Z.testbit (v / 2) k). { intros k K. change 2 with (2 ^ 1). rewrite Z.div_pow2_bits by lia. f_equal. lia. }
      split; [rewrite S by lia; exact B|]. intros k K. destruct (Z.eq_dec k 0) as [->|NZ]; [rewrite Z.bit0_odd; exact O|]. replace k with (1 + (k - 1)) by lia. rewrite S by lia. apply C. lia.
Qed.
Lemma clz_spec : forall n v, v mod 2 ^ Z.of_nat n <> 0 -> let k := Z.of_nat n - 1 - clz n v in 0 <= k < Z.of_nat n /\ Z.testbit v k = true /\ forall j, k < j < Z.of_nat n -> Z.testbit v j = false.
Proof.
  induction n as [|n IH]; intros v N; cbv zeta in *.
  - change (2 ^ Z.of_nat 0) with 1 in N. rewrite Z.mod_1_r in N. congruence.
  - cbn [clz]. destruct (Z.testbit v (Z.of_nat n)) eqn:T.
    + split; [lia|]. split; [rewrite <- T; f_equal; lia|]. intros j J. lia.
    + destruct (IH v) as (A & B & C).
      { intros Z0. apply N. rewrite Nat2Z.inj_succ. rewrite <- Z0. apply Z.bits_inj'. intros k K. destruct (Z.lt_ge_cases k (Z.succ (Z.of_nat n))) as [L|L].
        - rewrite Z.mod_pow2_bits_low by lia. destruct (Z.eq_dec k (Z.of_nat n)) as [->|NE]; [rewrite Z.mod_pow2_bits_high by lia; exact T|rewrite Z.mod_pow2_bits_low by lia; reflexivity].
        - rewrite !Z.mod_pow2_bits_high by lia. reflexivity. }
      replace (Z.of_nat (S n) - 1 - (1 + clz n v)) with (Z.of_nat n - 1 - clz n v) by lia. split; [lia|]. split; [exact B|].
      intros j J. destruct (Z.eq_dec j (Z.of_nat n)) as [->|NE]; [exact T|apply C; lia].
Qed.
Theorem x86_scan_correct : forall `{FpuOps} c cfg kc kcp kd i s g r, x_ctx c cfg kc i s g -> x_mn i = X_BSF \/ x_mn i = X_BSR ->
  let w := op_bits (x_op0 i) in let v := rd_op (adv i g) (x_op1 i) in x_op0 i = XReg w false r -> w <> 16 -> v <> 0 ->
  exists l s' k, lift_x86 c cfg kc kcp None kd i = (true, CPlain l) /\ run c s l = Ok s' /\ s_reg s' (GP r) = Some k /\
    0 <= k < w /\ Z.testbit v k = true /\ (forall n, (if match x_mn i with X_BSF => true | _ => false end then 0 <= n < k else k < n < w) -> Z.testbit v n = false) /\ flag_is s' fZF false.
Proof.
  intros F c cfg kc kcp kd i s g r C MN w v O W16 NZ.
  pose proof (xc_wf _ _ _ _ _ _ C) as WF. unfold xwf in WF. apply andb_prop in WF as [WF _]. apply andb_prop in WF as [WF SH]. apply andb_prop in WF as [WF _]. apply andb_prop in WF as [W0 W1].
  assert (SH' : op_isreg (x_op0 i) && op_rm (x_op1 i) && (op_bits (x_op1 i) =? op_bits (x_op0 i)) && (16 <=? op_bits (x_op0 i)) = true). { unfold shape_ok in SH. destruct MN as [MN|MN]; rewrite MN in SH; exact SH. }
  repeat match goal with H : _ && _ = true |- _ => apply andb_prop in H; destruct H end.
  match goal with A : (16 <=? op_bits (x_op0 i)) = true |- _ => change (op_bits (x_op0 i)) with w in A end.
  assert (WW : op_bits (x_op1 i) = w) by lia.
  pose proof (rdi (adv i g) _ W1 ltac:(apply op_rm_val; assumption)) as I. fold v in I. rewrite WW in I. unfold inr in I.
  rewrite O in W0. cbn [wf_op] in W0. apply andb_prop in W0 as [OW OR]. unfold okr in OR. assert (CW : w = 32 \/ w = 64) by (unfold okw in OW; lia).
  assert (VM : v mod 2 ^ Z.of_nat (Z.to_nat w) <> 0) by (rewrite Z2Nat.id by lia; rewrite Z.mod_small by lia; exact NZ).
  pose proof (ctz_spec _ _ VM) as CT. pose proof (clz_spec _ _ VM) as CL. cbv zeta in CL. rewrite Z2Nat.id in CT, CL by lia.
  set (k := if match x_mn i with X_BSF => true | _ => false end then ctz (Z.to_nat w) v else msb w v).
  assert (KS : 0 <= k < w /\ Z.testbit v k = true /\ (forall n, (if match x_mn i with X_BSF => true | _ => false end then 0 <= n < k else k < n < w) -> Z.testbit v n = false)).
  { unfold k, msb. destruct MN as [MN|MN]; rewrite MN; assumption. }
  assert (E : xspec i g = Some (set1 (forget [fCF; fOF; fSF; fAF; fPF] (wr_op (adv i g) (XReg w false r) k)) fZF (Some false))).
  { unfold xspec, isa, k. fold (adv i g). replace (rd_op (adv i g) (x_op1 i)) with v by reflexivity. rewrite WW. fold w.
    destruct MN as [MN|MN]; rewrite MN; cbv zeta; replace (v =? 0) with false by lia; rewrite <- O; reflexivity. }
  destruct (whole_exact c cfg kc kcp kd i s g _ C ltac:(destruct MN as [MN|MN]; xgp MN) E ltac:(destruct MN as [MN|MN]; xgp MN) ltac:(destruct MN as [MN|MN]; xgp MN) ltac:(destruct MN as [MN|MN]; xgp MN)) as (l & s' & L & R & X & _ & _).
  exists l, s', k. split; [exact L|]. split; [exact R|]. split; [|destruct KS as (K1 & K2 & K3); repeat (split; [assumption|]); apply (xr_f _ _ X); reflexivity].
  rewrite (xr_r _ _ X r) by lia. f_equal. cbn [set1 forget set_f y_r]. unfold wr_op, loc_of. cbn [wr_loc wr_reg set_r y_r]. rewrite Z.eqb_refl. unfold reg_merge.
  destruct KS as (K1 & _). destruct CW as [-> | ->]; cbn [Z.eqb Pos.eqb]; unfold U; apply Z.mod_small; lia.
Qed.
Print Assumptions x86_scan_correct.
(** TZCNT of a non-zero source: the result; ZF and CF are not produced. *)
Theorem x86_tzcnt_correct_partial : forall `{FpuOps} c cfg kc kcp kd i s g g', x_ctx c cfg kc i s g -> x_mn i = X_TZCNT ->
  rd_op (adv i g) (x_op1 i) <> 0 -> xspec i g = Some g' -> x_lifts c cfg kc kcp kd i s (forget [fZF; fCF] g') (s_ret s).
Proof.
  intros F c cfg kc kcp kd i s g g' C MN NZ E.
  pose proof (whole_step c cfg kc kcp kd i s g g' C ltac:(xgp MN) E ltac:(xgp MN)) as W. unfold xlost, xrets in W. rewrite MN in W. exact W.
Qed.
Print Assumptions x86_tzcnt_correct_partial.
(** F26: TZCNT is lifted as BSF, F27: LZCNT as BSR. *)
Theorem x86_tzcnt_refuted : let i := xi_ex X_TZCNT (XReg 64 false 3) (XReg 64 false 2) XNone in
  wrong_reg i (fun n => if n =? 2 then 0 else 9) (all_set true) 3 /\ wrong_flag i (fun _ => 1) (all_set true) fZF /\ wrong_flag i (fun _ => 1) (all_set true) fCF.
Proof. split; [wreg|split; wflag]. Qed.
Print Assumptions x86_tzcnt_refuted.
Theorem x86_lzcnt_refuted : wrong_reg (xi_ex X_LZCNT (XReg 64 false 3) (XReg 64 false 2) XNone) (fun _ => 1) (all_set true) 3.
Proof. wreg. Qed.
Print Assumptions x86_lzcnt_refuted.
Example x86_bit_nv : let i := xi_ex X_BTS (XMem 32 (XMemOp (BReg 3) None 0 0 3 8)) (XReg 32 false 2) XNone in
  exists s g g', x_ctx c_x xcfg_ex kc_ex i s g /\ xspec i g = Some g' /\ y_m g 0x1ffb = 0xfb /\ S_ 32 (y_r g 2) = -38 /\ y_m g' 0x1ffb = 0xff.
Proof.
  intros i. set (r := fun n => if n =? 2 then 2^32 - 38 else 0x2000).
  exists (xst_of (gex r (all_set true))), (gex r (all_set true)). eexists. split; [apply xctx_ex; reflexivity|]. split; [reflexivity|]. repeat split.
Qed.
Example x86_scan_nv : let i := xi_ex X_BSR (XReg 64 false 3) (XReg 64 false 2) XNone in
  exists s g, x_ctx c_x xcfg_ex kc_ex i s g /\ rd_op (adv i g) (x_op1 i) = 0x5000.
Proof. intros i. exists (xst_of (gex (fun _ => 0x5000) (all_set true))), (gex (fun _ => 0x5000) (all_set true)). split; [apply xctx_ex; reflexivity|reflexivity]. Qed.

(** ** C36: exchange instructions *)
Theorem x86_xchg_correct : forall `{FpuOps} c cfg kc kcp kd i s g g', x_ctx c cfg kc i s g ->
  x_mn i = X_XCHG -> xspec i g = Some g' -> x_lifts c cfg kc kcp kd i s g' (s_ret s).
Proof. intros F c cfg kc kcp kd i s g g' C MN E. eapply whole_exact; try eassumption; xgp MN. Qed.
Print Assumptions x86_xchg_correct.
Theorem x86_xadd_correct_partial : forall `{FpuOps} c cfg kc kcp kd i s g g', x_ctx c cfg kc i s g ->
  x_mn i = X_XADD -> same_loc (x_op0 i) (x_op1 i) = false -> xspec i g = Some g' -> x_lifts c cfg kc kcp kd i s g' (s_ret s).
Proof. intros F c cfg kc kcp kd i s g g' C MN SL E. eapply whole_exact; try eassumption; xgp MN. Qed.
Print Assumptions x86_xadd_correct_partial.
(** CMPXCHG: destinations other than the accumulator; a successful 32-bit exchange
    only if the upper half of RAX is zero; memory holds bytes. *)
Theorem x86_cmpxchg_correct_partial : forall `{FpuOps} c cfg kc kcp kd i s g g', x_ctx c cfg kc i s g ->
  x_mn i = X_CMPXCHG -> (forall w, x_op0 i <> XReg w false 0) ->
  (op_bits (x_op0 i) = 32 -> (y_r g 0) mod 2^32 = rd_op (adv i g) (x_op0 i) -> y_r g 0 < 2^32) ->
  (x_lock i = true -> forall x, 0 <= y_m g x < 256) -> xspec i g = Some g' -> x_lifts c cfg kc kcp kd i s g' (s_ret s).
Proof. intros F c cfg kc kcp kd i s g g' C MN A1 A2 A3 E. eapply whole_exact; try eassumption; xgp MN. Qed.
Print Assumptions x86_cmpxchg_correct_partial.
(** F28: XADD of a register with itself loses the sum. F29: a successful CMPXCHG
    on the accumulator keeps the old value. F30: a successful 32-bit CMPXCHG clears
    the upper half of RAX. *)
Theorem x86_xadd_same_refuted : wrong_reg (xi_ex X_XADD (XReg 64 false 3) (XReg 64 false 3) XNone) (fun _ => 5) (all_set true) 3.
Proof. wreg. Qed.
Print Assumptions x86_xadd_same_refuted.
Theorem x86_cmpxchg_refuted :
  wrong_reg (xi_ex X_CMPXCHG (XReg 64 false 0) (XReg 64 false 3) XNone) (fun n => n + 5) (all_set true) 0 /\
  wrong_reg (xi_ex X_CMPXCHG (XReg 32 false 3) (XReg 32 false 2) XNone) (fun n => if n =? 0 then 0x100000007 else 7) (all_set true) 0.
Proof. split; wreg. Qed.
Print Assumptions x86_cmpxchg_refuted.
Example x86_xchg_nv : let i := xi_ex X_XCHG (XReg 8 true 4) (XReg 8 false 0) XNone in
  exists s g g', x_ctx c_x xcfg_ex kc_ex i s g /\ xspec i g = Some g' /\ y_r g 0 = 0x123456 /\ y_r g' 0 = 0x125634.
Proof. intros i. exists (xst_of (gex (fun _ => 0x123456) (all_set true))), (gex (fun _ => 0x123456) (all_set true)). eexists. split; [apply xctx_ex; reflexivity|]. repeat split. Qed.
Example x86_cmpxchg_nv : let i := XInst X_CMPXCHG (XMem 32 (XMemOp (BReg 3) None 0 0 3 8)) (XReg 32 false 2) XNone 4 8 false false true 0x1000 4 in
  exists s g g', x_ctx c_x xcfg_ex kc_ex i s g /\ xspec i g = Some g' /\ (y_r g 0) mod 2^32 = rd_op (adv i g) (x_op0 i) /\ y_r g 0 < 2^32 /\ (forall x, 0 <= y_m g x < 256) /\ y_m g' 0x2001 = 0x55.
Proof.
  intros i. set (r := fun n => if n =? 0 then 0x03020100 else if n =? 2 then 0x5555 else 0x2000).
  exists (xst_of (gex r (all_set true))), (gex r (all_set true)). eexists. split; [apply xctx_ex; reflexivity|]. split; [reflexivity|].
  split; [vm_compute; reflexivity|]. split; [vm_compute; reflexivity|]. split; [|vm_compute; reflexivity]. intros x. cbn [xst_ex y_m]. lia.
Qed.
Example x86_xadd_nv : let i := xi_ex X_XADD (XReg 16 false 3) (XReg 16 false 2) XNone in
  exists s g g', x_ctx c_x xcfg_ex kc_ex i s g /\ xspec i g = Some g' /\ same_loc (x_op0 i) (x_op1 i) = false /\ y_r g' 3 = 0x10001 /\ y_r g' 2 = 0x1ffff.
Proof.
  intros i. set (r := fun n => if n =? 3 then 0x1ffff else 0x10002).
  exists (xst_of (gex r (all_set true))), (gex r (all_set true)). eexists. split; [apply xctx_ex; reflexivity|]. repeat split.
Qed.
