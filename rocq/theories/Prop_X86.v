(** Properties C25-C27 and C51: x86-64 general-purpose instructions. Each
    theorem ranges over all guest states, operands, configurations, PC bases and
    global bases; [xspec] is the architectural step function of X86Spec.v. *)

From Coq Require Import ZArith Lia ZifyBool List Bool.
From Verif Require Import Bits IR Facet Dsl Rv64 Rv64Spec Rv64Sim Rv64Arith Rv64Int Rv64Ex X86 X86Spec X86Arith X86Sim X86Ops
  X86Gp X86Gp2 X86Gp3 X86Gp4 X86Gp5 X86Gp6 X86Gp7 X86Step X86Cond X86Ex.
Import ListNotations.
Open Scope Z_scope.
Ltac Zify.zify_post_hook ::= Z.div_mod_to_equations.

(** ** C51: every supported instruction *)
(** One statement for all modelled mnemonics. [xsupp]: the forms and states for
    which result, memory and PC are right; [xlost]: the flags that may deviate. *)
Theorem x86_gp_step : forall `{FpuOps} c cfg kc kcp kd i s g g', x_ctx c cfg kc i s g ->
  xspec i g = Some g' -> xsupp kcp kd i (adv i g) -> xext cfg i = [] ->
  x_lifts c cfg kc kcp kd i s (forget (xlost cfg i (adv i g)) g') (xrets cfg i (s_ret s)).
Proof. intros. apply whole_step; assumption. Qed.
Print Assumptions x86_gp_step.
(** ... and for every straight-line sequence of them (induction over the sequence). *)
Theorem x86_gp_block : forall `{FpuOps} c cfg g l g', c_arch c = X86_64 -> gbase_ok c -> xblock c cfg g l g' ->
  forall s, xrel s g -> exists k s', lift_items c cfg l = Some k /\ run c s k = Ok s' /\ xrel s' g' /\ s_ret s' = s_ret s /\
    (l <> [] -> pc_value c (s_pc s') 0 = Ok (V (TInt 64) (y_ip g'))).
Proof. intros F c cfg g l g' HA GB B s R. exact (block_step c cfg g l g' HA GB B s R). Qed.
Print Assumptions x86_gp_block.
Definition ex_add : xinst := xi_ex X_ADD (XReg 64 false 3) (XMem 64 (XMemOp (BReg 2) (Some 1) 3 (-16) 3 8)) XNone.
Example x86_gp_step_nv : exists s g g', x_ctx c_x xcfg_ex kc_ex ex_add s g /\ xspec ex_add g = Some g' /\
  xsupp kc_ex DNone ex_add (adv ex_add g) /\ xext xcfg_ex ex_add = [] /\ y_r g' 3 <> y_r g 3.
Proof.
  exists (xst_of (xst_ex (fun n => n + 0x3000) (all_set false) 0x1000)), (xst_ex (fun n => n + 0x3000) (all_set false) 0x1000). eexists.
  split; [apply xctx_ex; reflexivity|]. split; [reflexivity|]. split; [exact I|]. split; [reflexivity|]. vm_compute. discriminate.
Qed.
Example x86_gp_block_nv : exists g g', let l := [XItem kc_ex kc_ex DNone ex_add;
    XItem kc_ex kc_ex DNone (XInst (X_J 4) (XOff (-100)) XNone XNone 8 8 false false false 0x1004 2)] in
  xblock c_x xcfg_ex g l g' /\ y_ip g' = 0x1006.
Proof.
  exists (xst_ex (fun n => n + 0x3000) (all_set false) 0x1000). eexists. split.
  - eapply xb_cons; try reflexivity; try exact I; [intros n z _ E; discriminate|discriminate|].
    eapply xb_cons; try reflexivity; try exact I; [intros n z _ E; discriminate|discriminate|]. apply xb_nil.
  - reflexivity.
Qed.

(** ** C25: condition codes *)
Definition all5 (g : xst) (cf zf sf pf of_ : bool) : Prop :=
  y_f g fCF = Some cf /\ y_f g fZF = Some zf /\ y_f g fSF = Some sf /\ y_f g fPF = Some pf /\ y_f g fOF = Some of_.
Theorem x86_jcc_correct : forall `{FpuOps} c cfg kc kcp kd i s g cc d cf zf sf pf of_, x_ctx c cfg kc i s g ->
  all5 g cf zf sf pf of_ -> x_mn i = X_J cc -> x_op0 i = XOff d ->
  x_lifts c cfg kc kcp kd i s
    (set_ip g (y_ip g + x_len i + (if cc_sdm cc cf zf sf pf of_ then d else 0))) (s_ret s).
Proof.
  intros F c cfg kc kcp kd i s g cc d cf zf sf pf of_ C (A1 & A2 & A3 & A4 & A5) MN OP.
  assert (CC : 0 <= cc < 16). { pose proof (xc_wf _ _ _ _ _ _ C) as W. unfold xwf, shape_ok in W. rewrite MN in W. lia. }
  eapply whole_exact; try eassumption; unfold xsupp, xext, xlost, xrets; rewrite ?MN; try reflexivity; try exact I.
  unfold xspec, isa. rewrite MN, OP. cbv zeta. rewrite (cond_all _ _ cf zf sf pf of_) by assumption. rewrite cc_bool_sdm by exact CC. cbn [obind].
  destruct (cc_sdm cc cf zf sf pf of_); unfold set_ip; cbn [y_r y_f y_fs y_gs y_ip y_m]; do 2 f_equal; change U with trunc.
  - rewrite trunc_trunc, trunc_add_l by lia. reflexivity.
  - rewrite Z.add_0_r. reflexivity.
Qed.
Print Assumptions x86_jcc_correct.
Theorem x86_setcc_correct : forall `{FpuOps} c cfg kc kcp kd i s g cc cf zf sf pf of_, x_ctx c cfg kc i s g ->
  all5 g cf zf sf pf of_ -> x_mn i = X_SET cc ->
  x_lifts c cfg kc kcp kd i s (wr_op (adv i g) (x_op0 i) (if cc_sdm cc cf zf sf pf of_ then 1 else 0)) (s_ret s).
Proof.
  intros F c cfg kc kcp kd i s g cc cf zf sf pf of_ C (A1 & A2 & A3 & A4 & A5) MN.
  assert (CC : 0 <= cc < 16). { pose proof (xc_wf _ _ _ _ _ _ C) as W. unfold xwf, shape_ok in W. rewrite MN in W. lia. }
  eapply whole_exact; try eassumption; unfold xsupp, xext, xlost, xrets; rewrite ?MN; try reflexivity; try exact I.
  unfold xspec, isa. rewrite MN. cbv zeta. rewrite (cond_all _ _ cf zf sf pf of_) by assumption. rewrite cc_bool_sdm by exact CC. reflexivity.
Qed.
Print Assumptions x86_setcc_correct.
(** CMOV writes its destination also if the condition is false (which clears the
    upper half of a 32-bit destination). *)
Theorem x86_cmovcc_correct : forall `{FpuOps} c cfg kc kcp kd i s g cc cf zf sf pf of_, x_ctx c cfg kc i s g ->
  all5 g cf zf sf pf of_ -> x_mn i = X_CMOV cc -> let ga := adv i g in
  x_lifts c cfg kc kcp kd i s (wr_op ga (x_op0 i) (rd_op ga (if cc_sdm cc cf zf sf pf of_ then x_op1 i else x_op0 i))) (s_ret s).
Proof.
  intros F c cfg kc kcp kd i s g cc cf zf sf pf of_ C (A1 & A2 & A3 & A4 & A5) MN ga.
  assert (CC : 0 <= cc < 16). { pose proof (xc_wf _ _ _ _ _ _ C) as W. unfold xwf, shape_ok in W. rewrite MN in W. lia. }
  eapply whole_exact; try eassumption; unfold xsupp, xext, xlost, xrets; rewrite ?MN; try reflexivity; try exact I.
  unfold xspec, isa. rewrite MN. cbv zeta. rewrite (cond_all _ _ cf zf sf pf of_) by assumption. rewrite cc_bool_sdm by exact CC.
  cbn [obind]. destruct (cc_sdm cc cf zf sf pf of_); reflexivity.
Qed.
Print Assumptions x86_cmovcc_correct.
(** Opposite codes are complementary. *)
Theorem x86_cc_complementary : forall cc cf zf sf pf of_, 0 <= cc < 8 ->
  cc_sdm (2 * cc + 1) cf zf sf pf of_ = negb (cc_sdm (2 * cc) cf zf sf pf of_).
Proof. exact cc_compl. Qed.
Print Assumptions x86_cc_complementary.
(** CMP a, b followed by Jcc branches exactly if the comparison of a and b holds. *)
Theorem x86_cmp_jcc : forall `{FpuOps} c cfg kc kcp kd kc2 kcp2 kd2 i j s g cc d q, x_ctx c cfg kc i s g -> x_mn i = X_CMP ->
  xwf j = true -> good_op cfg (x_op1 j) = true -> good_op cfg (x_op2 j) = true -> xkc_sound kc2 g ->
  x_mn j = X_J cc -> x_op0 j = XOff d -> x_start j = x_end i ->
  let ga := adv i g in let w := op_bits (x_op0 i) in
  cmp_pred cc w (rd_op ga (x_op0 i)) (rd_op ga (x_op1 i)) = Some q ->
  exists l s', lift_items c cfg [XItem kc kcp kd i; XItem kc2 kcp2 kd2 j] = Some l /\ run c s l = Ok s' /\
    pc_value c (s_pc s') 0 = Ok (V (TInt 64) (U 64 (y_ip g + x_len i + x_len j + (if q then d else 0)))) /\
    (forall n, 0 <= n < 16 -> s_reg s' (GP n) = Some (y_r g n)) /\ (forall x, s_mem s' x = y_m g x).
Proof.
  intros F c cfg kc kcp kd kc2 kcp2 kd2 i j s g cc d q C MI WJ OJ1 OJ2 KC2 MJ OJ ST ga w P.
  destruct C as [HA GB R WF O0 O1 O2 KC IP].
  assert (SO : op_rm (x_op0 i) = true /\ op_val (x_op1 i) = true /\ op_bits (x_op1 i) = w /\ wf_op (x_op0 i) = true /\ wf_op (x_op1 i) = true).
  { unfold xwf, shape_ok in WF. rewrite MI in WF. repeat match goal with H : _ && _ = true |- _ => apply andb_prop in H; destruct H end. fold w in H3. repeat (split; [assumption||lia|]). assumption. }
  destruct SO as (R0 & V1 & BB & W0 & W1).
  pose proof (rdi ga _ W0 (op_rm_val _ R0)) as J0. pose proof (rdi ga _ W1 V1) as J1. rewrite BB in J1. fold w in J0.
  pose proof (bitsok _ W0 (op_rm_val _ R0)) as BW. fold w in BW.
  set (g1 := sub_flags w (rd_op ga (x_op0 i)) (rd_op ga (x_op1 i)) 0 false ga).
  assert (E1 : xspec i g = Some g1) by (unfold xspec, isa; rewrite MI; reflexivity).
  assert (IP1 : y_ip g1 = addr_pc_base c (x_start j)).
  { rewrite ST. unfold g1. cbn [sub_flags set_f y_ip ga adv set_ip]. rewrite IP. unfold x_end. rewrite addr_pc_base_trunc, addr_pc_base_add. reflexivity. }
  assert (E2 : xspec j (forget [] g1) = Some (set_ip g1 (y_ip g1 + x_len j + (if q then d else 0)))).
  { unfold xspec, isa. rewrite MJ, OJ. cbv zeta. assert (CD : cond (set_ip (forget [] g1) (y_ip (forget [] g1) + x_len j)) cc = Some q) by (exact (cond_cmp cc w _ _ (set_ip ga (y_ip (forget [] g1) + x_len j)) q ltac:(lia) J0 J1 P)).
    rewrite CD. cbn [obind]. destruct q; unfold set_ip, forget, set_f; cbn [y_r y_f y_fs y_gs y_ip y_m existsb]; do 2 f_equal; change U with trunc.
    - rewrite trunc_trunc, trunc_add_l by lia. reflexivity.
    - rewrite Z.add_0_r. reflexivity. }
  assert (XB : xblock c cfg g [XItem kc kcp kd i; XItem kc2 kcp2 kd2 j] (forget [] (set_ip g1 (y_ip g1 + x_len j + (if q then d else 0))))).
  { eapply (xb_cons _ _ (XItem kc kcp kd i)); cbn [xi_i xi_kc xi_kcp xi_kd]; try eassumption; try (unfold xsupp, xext; rewrite MI; reflexivity || exact I); [rewrite MI; discriminate|].
    unfold xlost. rewrite MI.
    eapply (xb_cons _ _ (XItem kc2 kcp2 kd2 j)); cbn [xi_i xi_kc xi_kcp xi_kd]; try eassumption; try (rewrite OJ; reflexivity); try (unfold xsupp, xext; rewrite MJ; reflexivity || exact I); [rewrite MJ; discriminate|].
    unfold xlost. rewrite MJ. apply xb_nil. }
  destruct (block_step c cfg _ _ _ HA GB XB s R) as (k & s' & L & RN & X & T & PV).
  exists k, s'. split; [exact L|]. split; [exact RN|]. split; [|split].
  - rewrite PV by discriminate. do 2 f_equal. cbn [forget set_f set_ip y_ip g1 sub_flags ga adv]. change U with trunc. rewrite <- !Z.add_assoc. rewrite trunc_add_l by lia. f_equal; lia.
  - intros n N. rewrite (xr_r _ _ X n N). reflexivity.
  - intros x. rewrite (xr_m _ _ X x). reflexivity.
Qed.
Print Assumptions x86_cmp_jcc.
Example x86_cmp_jcc_nv : let i := xi_ex X_CMP (XReg 8 false 1) (XImm 8 200) XNone in
  exists s g, x_ctx c_x xcfg_ex kc_ex i s g /\ cmp_pred 12 8 (rd_op (adv i g) (x_op0 i)) (rd_op (adv i g) (x_op1 i)) = Some false /\
    cmp_pred 2 8 (rd_op (adv i g) (x_op0 i)) (rd_op (adv i g) (x_op1 i)) = Some true.
Proof.
  intros i. exists (xst_of (xst_ex (fun n => 100) (all_set false) 0x1000)), (xst_ex (fun n => 100) (all_set false) 0x1000).
  split; [apply xctx_ex; reflexivity|]. split; reflexivity.
Qed.

(** ** C26: arithmetic and logic with flags *)
Definition alu_mns : list xmn := [X_ADD; X_SUB; X_CMP; X_INC; X_DEC; X_NEG; X_AND; X_OR; X_XOR; X_TEST; X_NOT].
Theorem x86_alu_correct : forall `{FpuOps} c cfg kc kcp kd i s g g', x_ctx c cfg kc i s g ->
  In (x_mn i) alu_mns -> (x_mn i = X_NEG -> x_lock i = false) -> xspec i g = Some g' ->
  x_lifts c cfg kc kcp kd i s g' (s_ret s).
Proof.
  intros F c cfg kc kcp kd i s g g' C MN NL E.
  assert (X : xsupp kcp kd i (adv i g) /\ xext cfg i = [] /\ xlost cfg i (adv i g) = [] /\ xrets cfg i (s_ret s) = s_ret s).
  { unfold xsupp, xext, xlost, xrets. unfold alu_mns in MN. mns MN; rewrite MN in *; auto. }
  destruct X as (X1 & X2 & X3 & X4). eapply whole_exact; eassumption.
Qed.
Print Assumptions x86_alu_correct.
(** LOCK NEG trips an assertion of the lifter (finding F13): no valid code exists. *)
Theorem x86_lock_neg_refuted : forall `{FpuOps} c cfg kc kcp kd i s, x_mn i = X_NEG -> x_lock i = true -> s_var s 999%nat = None ->
  exists l, lift_x86 c cfg kc kcp None kd i = (true, CPlain l) /\ run c s l = TyErr.
Proof.
  intros F c cfg kc kcp kd i s MN L V. unfold lift_x86, lift_gp. rewrite MN. unfold LiftNeg. rewrite L. eexists. split; [reflexivity|].
  unfold run, run1, eAssert, ev. cbn [bind eval leaf_val with_pc s_var]. rewrite V. reflexivity.
Qed.
Print Assumptions x86_lock_neg_refuted.
Example x86_alu_nv : let i := xi_ex X_SUB (XReg 8 true 4) (XReg 8 false 3) XNone in
  exists s g g', x_ctx c_x xcfg_ex kc_ex i s g /\ In (x_mn i) alu_mns /\ xspec i g = Some g' /\
    y_f g' fOF = Some true /\ y_f g' fCF = Some true /\ y_f g' fAF = Some true.
Proof.
  intros i. exists (xst_of (xst_ex (fun n => 0x7081) (all_set false) 0x1000)), (xst_ex (fun n => 0x7081) (all_set false) 0x1000). eexists.
  split; [apply xctx_ex; reflexivity|]. split; [cbn; auto|]. split; [reflexivity|]. repeat split.
Qed.

(** ** C27: ADC and SBB *)
(** Result, ZF, SF, PF always; CF, AF, OF unless the carry-in meets an operand
    with all ones, low nibble 15, or the largest signed value. *)
Theorem x86_adc_correct_partial : forall `{FpuOps} c cfg kc kcp kd i s g g' k, x_ctx c cfg kc i s g ->
  x_mn i = X_ADC \/ x_mn i = X_SBB -> y_f g fCF = Some k -> xspec i g = Some g' ->
  x_lifts c cfg kc kcp kd i s (forget (adc_lost (op_bits (x_op0 i)) (rd_op (adv i g) (x_op1 i)) k) g') (s_ret s).
Proof.
  intros F c cfg kc kcp kd i s g g' k C MN K E.
  assert (X : xsupp kcp kd i (adv i g) /\ xext cfg i = [] /\ xlost cfg i (adv i g) = adc_lost (op_bits (x_op0 i)) (rd_op (adv i g) (x_op1 i)) k /\ xrets cfg i (s_ret s) = s_ret s).
  { unfold xsupp, xext, xlost, xrets. assert (fl (adv i g) fCF = k) as -> by (unfold fl; cbn [adv set_ip y_f]; rewrite K; reflexivity). destruct MN as [MN|MN]; rewrite MN; auto. }
  destruct X as (X1 & X2 & X3 & X4). rewrite <- X3, <- X4. apply whole_step; assumption.
Qed.
Print Assumptions x86_adc_correct_partial.
(** The exact behaviour: that of ADD or SUB with (second operand + carry) mod 2^w. *)
Theorem x86_adc_exact : forall `{FpuOps} c cfg kc kcp kd i s g k (sub : bool), x_ctx c cfg kc i s g ->
  x_mn i = (if sub then X_SBB else X_ADC) -> y_f g fCF = Some k ->
  x_lifts c cfg kc kcp kd i s (adc_model i (adv i g) sub k) (s_ret s).
Proof.
  intros F c cfg kc kcp kd i s g k sub [HA GB R WF O0 O1 O2 KC IP] MN K.
  unfold xwf in WF. apply andb_prop in WF as [WF LKB]. apply andb_prop in WF as [WF SH]. apply andb_prop in WF as [WF W2]. apply andb_prop in WF as [W0 W1].
  assert (LK : x_lock i = true -> op_ismem (x_op0 i) = true) by (intros L; rewrite L in LKB; cbn in LKB; apply andb_prop in LKB; apply LKB).
  assert (LB : x_lock i = true -> lockable (x_mn i) = true) by (intros L; rewrite L in LKB; cbn in LKB; apply andb_prop in LKB; apply LKB).
  assert (IP' : y_ip (adv i g) = addr_pc_base c (x_end i)).
  { unfold adv, x_end. cbn [set_ip y_ip]. rewrite IP, addr_pc_base_trunc, addr_pc_base_add. reflexivity. }
  pose proof (L_ADCSBB c cfg HA GB kc i (adv i g) (s_ret s) IP' W0 W1 O0 O1 KC SH LK LB sub k (s_var s) MN K) as X.
  destruct (X (with_pc s (PcConst (x_end i)))) as (s1 & R1 & D1 & D2 & D3).
  { split; [|repeat split]. destruct R. split; assumption. }
  exists (SPcConst (x_end i) :: LiftArith c cfg kc i sub), s1. split; [unfold lift_x86, lift_gp; destruct sub; rewrite MN; reflexivity|].
  split; [exact R1|]. split; [exact D1|]. split; assumption.
Qed.
Print Assumptions x86_adc_exact.
(** Every flag in [adc_lost] is inverted (finding F14). *)
Theorem x86_adc_flags_refuted : forall `{FpuOps} c cfg kc kcp kd i s g g' f, x_ctx c cfg kc i s g ->
  x_mn i = X_ADC \/ x_mn i = X_SBB -> y_f g fCF = Some true -> xspec i g = Some g' ->
  In f (adc_lost (op_bits (x_op0 i)) (rd_op (adv i g) (x_op1 i)) true) ->
  exists l s' b, lift_x86 c cfg kc kcp None kd i = (true, CPlain l) /\ run c s l = Ok s' /\
    y_f g' f = Some b /\ flag_is s' f (negb b).
Proof.
  intros F c cfg kc kcp kd i s g g' f C MN K E IN.
  assert (MS : exists sub : bool, x_mn i = (if sub then X_SBB else X_ADC)) by (destruct MN as [M|M]; [exists false|exists true]; exact M).
  destruct MS as (sub & MS). destruct (x86_adc_exact c cfg kc kcp kd i s g true sub C MS K) as (l & s' & L & R & X & _ & _).
  pose proof (xc_wf _ _ _ _ _ _ C) as WF. unfold xwf in WF. apply andb_prop in WF as [WF LKB]. apply andb_prop in WF as [WF SH]. apply andb_prop in WF as [WF W2]. apply andb_prop in WF as [W0 W1].
  assert (S3 : op_rm (x_op0 i) = true /\ op_val (x_op1 i) = true /\ op_bits (x_op1 i) = op_bits (x_op0 i)).
  { unfold shape_ok in SH. destruct sub; rewrite MS in SH; repeat match goal with H : _ && _ = true |- _ => apply andb_prop in H; destruct H end; (split; [assumption|split; [assumption|lia]]). }
  destruct S3 as (R0 & V1 & BB). set (ga := adv i g) in *.
  pose proof (rdi ga _ W0 (op_rm_val _ R0)) as J0. pose proof (rdi ga _ W1 V1) as J1. rewrite BB in J1. pose proof (bitsok _ W0 (op_rm_val _ R0)) as BW.
  unfold xspec in E. fold (adv i g) in E. fold ga in E. destruct (adc_lost_or sub i ga g' MS E) as (k & K' & ->). cbn [ga adv set_ip y_f] in K'. rewrite K in K'. injection K' as <-.
  pose proof (xr_f _ _ X f) as XF. unfold adc_model in XF. cbv zeta in XF |- *.
  set (w := op_bits (x_op0 i)) in *. set (a := rd_op ga (x_op0 i)) in *. set (b := rd_op ga (x_op1 i)) in *.
  assert (PH : 2 ^ w = 2 * 2 ^ (w - 1)) by (rewrite <- Z.pow_succ_r by lia; f_equal; lia).
  assert (PP : 128 <= 2 ^ (w - 1)). { change 128 with (2 ^ 7). apply Z.pow_le_mono_r; lia. }
  assert (P16 : 2 ^ w mod 16 = 0). { replace w with (4 + (w - 4)) by lia. rewrite Z.pow_add_r by lia. change (2^4) with 16. rewrite Z.mul_comm. apply Z.mod_mul. lia. }
  unfold adc_lost in IN. apply in_app_or in IN. destruct IN as [IN|IN]; [|apply in_app_or in IN; destruct IN as [IN|IN]].
  - destruct (b =? 2 ^ w - 1) eqn:Q; [|contradiction]. destruct IN as [<-|[]]. apply Z.eqb_eq in Q.
    assert (B0 : U w (b + 1) = 0) by (rewrite Q; unfold U; replace (2 ^ w - 1 + 1) with (2 ^ w) by lia; apply Z.mod_same; lia).
    unfold inr in *. exists l, s', true. split; [exact L|]. split; [exact R|]. cbn [bz] in *. rewrite B0 in XF.
    destruct sub; cbn [sub_flags add_flags set_f y_f] in *; (split; [f_equal; lia|apply XF; f_equal; lia]).
  - destruct (b mod 16 =? 15) eqn:Q; [|contradiction]. destruct IN as [<-|[]]. apply Z.eqb_eq in Q. unfold inr in *. cbn [bz] in *.
    assert (B0 : U w (b + 1) mod 16 = 0).
    { unfold U. destruct (Z.eq_dec b (2 ^ w - 1)) as [->|NE]; [replace (2 ^ w - 1 + 1) with (2 ^ w) by lia; rewrite Z.mod_same by lia; reflexivity|]. rewrite (Z.mod_small (b + 1) (2 ^ w)) by lia. clear - Q. lia. }
    exists l, s', true. split; [exact L|]. split; [exact R|].
    destruct sub; cbn [sub_flags add_flags set_f y_f] in *; (split; [f_equal; clear - Q; lia|apply XF; rewrite B0; f_equal; clear; lia]).
  - destruct (b =? 2 ^ (w - 1) - 1) eqn:Q; [|contradiction]. destruct IN as [<-|[]]. apply Z.eqb_eq in Q. unfold inr in *. cbn [bz] in *.
    assert (B0 : U w (b + 1) = 2 ^ (w - 1)) by (rewrite Q; unfold U; rewrite Z.mod_small by lia; lia). rewrite B0 in XF.
    assert (SB : S_ w b = 2 ^ (w - 1) - 1). { unfold S_. rewrite Z.mod_small by lia. replace (b <? 2 ^ (w - 1)) with true by lia. exact Q. }
    assert (SB' : S_ w (2 ^ (w - 1)) = - 2 ^ (w - 1)). { unfold S_. rewrite Z.mod_small by lia. rewrite Z.ltb_irrefl. lia. }
    assert (SA : - 2 ^ (w - 1) <= S_ w a < 2 ^ (w - 1)). { unfold S_. rewrite Z.mod_small by lia. destruct (a <? 2 ^ (w - 1)) eqn:QA; lia. }
    exists l, s', (if sub then S_ w a <? 0 else 0 <=? S_ w a). split; [exact L|]. split; [exact R|].
    destruct sub; cbn [sub_flags add_flags set_f y_f] in *; rewrite SB; rewrite SB' in XF; unfold s_out in *; (split; [f_equal; lia|apply XF; f_equal; lia]).
Qed.
Print Assumptions x86_adc_flags_refuted.
Example x86_adc_nv : let i := xi_ex X_ADC (XReg 8 false 1) (XImm 8 255) XNone in
  exists s g g', x_ctx c_x xcfg_ex kc_ex i s g /\ y_f g fCF = Some true /\ xspec i g = Some g' /\
    adc_lost (op_bits (x_op0 i)) (rd_op (adv i g) (x_op1 i)) true = [fCF; fAF] /\ y_r g' 1 = y_r g 1.
Proof.
  intros i. exists (xst_of (xst_ex (fun n => 100) (all_set true) 0x1000)), (xst_ex (fun n => 100) (all_set true) 0x1000). eexists.
  split; [apply xctx_ex; reflexivity|]. repeat (split; [reflexivity|]). reflexivity.
Qed.
