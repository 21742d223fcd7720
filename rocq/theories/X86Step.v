(** One-instruction theorem for the x86-64 general-purpose lifter: assembles the
    per-mnemonic lemmas of X86Gp.v … X86Gp7.v. *)

From Coq Require Import ZArith Lia ZifyBool List Bool.
From Verif Require Import Bits IR Facet Dsl Rv64 Rv64Spec Rv64Sim Rv64Arith Rv64Int X86 X86Spec X86Arith X86Sim X86Ops
  X86Gp X86Gp2 X86Gp3 X86Gp4 X86Gp5 X86Gp6 X86Gp7.
Import ListNotations.
Open Scope Z_scope.
Ltac Zify.zify_post_hook ::= Z.div_mod_to_equations.

(** ** Deviations *)

(** Flags that ADC and SBB may get wrong: with a carry-in, adding it to the
    second operand first loses the carry (borrow) out of that addition. *)
Definition adc_lost (w b : Z) (k : bool) : list xflag :=
  if k then (if b =? 2^w - 1 then [fCF] else []) ++ (if b mod 16 =? 15 then [fAF] else []) ++
            (if b =? 2^(w-1) - 1 then [fOF] else [])
  else [].
(** Flags for which the lifted code makes no promise where the architecture does. *)
Definition xlost (cfg : xcfg) (i : xinst) (g : xst) : list xflag :=
  let w := op_bits (x_op0 i) in
  match x_mn i with
  | X_ADC | X_SBB => adc_lost w (rd_op g (x_op1 i)) (fl g fCF)
  | X_SHL | X_SHR | X_SAR => shift_lost (cmask w (rd_op g (x_op1 i)))
  | X_ROL | X_ROR => [fCF; fOF]
  | X_SHLD | X_SHRD => [fCF; fOF] ++ shift_lost (cmask w (rd_op g (x_op2 i)))
  | X_TZCNT => [fZF; fCF]
  | X_CALL | X_RET => clob cfg
  | _ => []
  end.
(** Instruction forms and states in which the remaining effects are right. *)
Definition xsupp (kcp : areg -> konst) (kd : kdivk) (i : xinst) (g : xst) : Prop :=
  let o0 := x_op0 i in let w := op_bits o0 in
  match x_mn i with
  | X_NEG => x_lock i = false
  | X_XADD => same_loc o0 (x_op1 i) = false
  | X_CMPXCHG =>
    (forall n, o0 <> XReg n false 0) /\ (w = 32 -> U 32 (y_r g 0) = rd_op g o0 -> y_r g 0 < 2^32) /\
    (x_lock i = true -> forall x, 0 <= y_m g x < 256)
  | X_LEA => forall n m, x_op1 i = XMem n m -> m_base m = BRip -> m_asz m = 8
  | X_XLATB => x_addrsz i = 8
  | X_SHLD | X_SHRD => cmask w (rd_op g (x_op2 i)) <> w
  | X_DIV | X_IDIV => kd_sound kd w g
  | X_TZCNT => rd_op g (x_op1 i) <> 0
  | X_LZCNT => False
  | X_JMP | X_CALL => forced_ds o0 = true
  | X_POP => w = 64 /\ xkc_sound kcp (wr_reg g 64 4 (y_r g 4 + 8))
  | X_POPF => x_opsz i = 8
  | X_LAHF => defined g all_flags = true
  | _ => True
  end.
(** Calls of user functions at the end of the lifted code. *)
Definition xext (cfg : xcfg) (i : xinst) : list stm :=
  match x_mn i with
  | X_CALL => match xl_call cfg with Some f => [SCall f; SPcCallret (x_end i)] | None => [] end
  | X_SYSCALL => match xl_syscall cfg with Some f => [SCall f] | None => [] end
  | _ => []
  end.
(** RET leaves the lifted function only if calls are lifted as calls. *)
Definition xrets (cfg : xcfg) (i : xinst) (rt : bool) : bool :=
  match x_mn i, xl_call cfg with X_RET, Some _ => true | _, _ => rt end.

Section Step.
Context `{FpuOps}.
Variable c : cenv.
Variable cfg : xcfg.
Hypothesis HA : c_arch c = X86_64.
Hypothesis GB : gbase_ok c.
Notation G := (G c).
Notation done := (done c).

Lemma pow_half : forall w, 0 < w -> 2 ^ w = 2 * 2 ^ (w - 1).
Proof. intros. rewrite <- Z.pow_succ_r by lia. f_equal. lia. Qed.
Lemma wr_op_gle_congr : forall g o v v', wf_op o = true -> op_rm o = true -> trunc (op_bits o) v = trunc (op_bits o) v' ->
  gle (wr_op g o v) (wr_op g o v').
Proof. intros. apply wr_op_congr; assumption. Qed.
Lemma cpop_congr : forall n x y, x mod 2 ^ Z.of_nat n = y mod 2 ^ Z.of_nat n -> cpop n x = cpop n y.
Proof.
  induction n; intros x y E; [reflexivity|]. cbn [cpop]. rewrite Nat2Z.inj_succ, Z.pow_succ_r in E by lia.
  assert (P : 0 < 2 ^ Z.of_nat n) by lia. rewrite !Z.rem_mul_r in E by lia.
  assert (x mod 2 = y mod 2 /\ (x / 2) mod 2 ^ Z.of_nat n = (y / 2) mod 2 ^ Z.of_nat n) as [E1 E2].
  { set (u := (x / 2) mod 2 ^ Z.of_nat n) in *. set (v := (y / 2) mod 2 ^ Z.of_nat n) in *. clearbody u v. lia. }
  rewrite E1. f_equal. apply IHn. exact E2.
Qed.
Lemma pf_congr : forall w x y, 8 <= w -> trunc w x = trunc w y -> pf_of x = pf_of y.
Proof.
  intros w x y W E. unfold pf_of. f_equal. apply cpop_congr. change (2 ^ Z.of_nat 8) with (2 ^ 8).
  change (trunc 8 x = trunc 8 y). rewrite <- (trunc_trunc_le 8 w x), <- (trunc_trunc_le 8 w y) by lia. rewrite E. reflexivity.
Qed.
Lemma adc_gle : forall (sub : bool) i g k, wf_op (x_op0 i) = true -> wf_op (x_op1 i) = true ->
  op_rm (x_op0 i) = true -> op_val (x_op1 i) = true -> op_bits (x_op1 i) = op_bits (x_op0 i) ->
  let w := op_bits (x_op0 i) in let a := rd_op g (x_op0 i) in let b := rd_op g (x_op1 i) in
  gle (adc_model i g sub k)
      (forget (adc_lost w b k)
        (if sub then sub_flags w a b (bz k) false (wr_op g (x_op0 i) (a - b - bz k))
         else add_flags w a b (bz k) false (wr_op g (x_op0 i) (a + b + bz k)))).
Proof.
  intros sub i g k W0 W1 R0 V1 BB w a b. pose proof (rdi g _ W0 (op_rm_val _ R0)) as J0. pose proof (rdi g _ W1 V1) as J1.
  rewrite BB in J1. pose proof (bitsok _ W0 (op_rm_val _ R0)) as BW. fold w in J0, J1, BW. fold a in J0. fold b in J1.
  unfold adc_model. fold w a b. set (b' := U w (b + bz k)).
  assert (TR : trunc w (if sub then a - b' else a + b') = trunc w (if sub then a - b - bz k else a + b + bz k)).
  { unfold b', U. fold (trunc w (b + bz k)). destruct sub; [rewrite trunc_sub_r by lia|rewrite trunc_add_r by lia]; f_equal; lia. }
  assert (GL : gle (wr_op g (x_op0 i) (if sub then a - b' else a + b')) (wr_op g (x_op0 i) (if sub then a - b - bz k else a + b + bz k))).
  { apply wr_op_gle_congr; assumption. }
  assert (CB : k = true -> b = 2^w - 1 -> b' = 0).
  { intros -> ->. unfold b', U. cbn [bz]. replace (2 ^ w - 1 + 1) with (2 ^ w) by lia. apply Z.mod_same. lia. }
  assert (CN : k = false \/ b <> 2^w - 1 -> b' = b + bz k).
  { intros Q. unfold b', U. apply Z.mod_small. unfold inr in *. destruct k; cbn [bz]; lia. }
  assert (P16 : 2 ^ w mod 16 = 0). { replace w with (4 + (w - 4)) by lia. rewrite Z.pow_add_r by lia. change (2^4) with 16. rewrite Z.mul_comm. apply Z.mod_mul. lia. }
  assert (PH : 2 ^ w = 2 * 2 ^ (w - 1)) by (apply pow_half; lia). assert (PP : 0 < 2 ^ (w - 1)) by lia.
  assert (SF_ : forall x y, trunc w x = trunc w y -> zf_of w x = zf_of w y /\ sf_of w x = sf_of w y).
  { intros x y E. unfold zf_of, sf_of, U. unfold trunc in E. rewrite E. split; reflexivity. }
  destruct (SF_ _ _ TR) as [EZ ES]. pose proof (pf_congr w _ _ ltac:(lia) TR) as EP.
  assert (AFE : (k = true -> b mod 16 <> 15) -> b' mod 16 = b mod 16 + bz k).
  { intros Q. destruct k; cbn [bz] in *.
    - specialize (Q eq_refl). assert (b <> 2 ^ w - 1) by (intros ->; apply Q; set (q := 2 ^ w) in *; clearbody q; lia). rewrite (CN (or_intror H0)). clear - Q. lia.
    - rewrite (CN (or_introl eq_refl)), !Z.add_0_r. reflexivity. }
  assert (CFE : (k = true -> b <> 2^w-1) -> b' = b + bz k).
  { intros Q. apply CN. destruct k; auto. }
  assert (SE : (k = true -> b <> 2^(w-1)-1) -> S_ w b' = S_ w b + bz k).
  { intros Q. destruct (Bool.bool_dec k true) as [K|K]; [|apply not_true_is_false in K; rewrite (CN (or_introl K)), K; cbn [bz]; rewrite !Z.add_0_r; reflexivity].
    specialize (Q K). destruct (Z.eq_dec b (2^w-1)) as [E|NE].
    - rewrite (CB K E), E, K. unfold S_. rewrite !Z.mod_small by lia. cbn [bz].
      destruct (0 <? 2 ^ (w - 1)) eqn:Q1; destruct (2 ^ w - 1 <? 2 ^ (w - 1)) eqn:Q2; lia.
    - rewrite (CN (or_intror NE)), K. unfold S_. cbn [bz]. unfold inr in J1. rewrite !Z.mod_small by lia.
      destruct (b + 1 <? 2 ^ (w - 1)) eqn:Q1; destruct (b <? 2 ^ (w - 1)) eqn:Q2; lia. }
  destruct GL as (L1 & L2 & L3 & L4 & L5).
  assert (FL : forall f x, y_f (forget (adc_lost w b k) (if sub then sub_flags w a b (bz k) false (wr_op g (x_op0 i) (a - b - bz k))
         else add_flags w a b (bz k) false (wr_op g (x_op0 i) (a + b + bz k)))) f = Some x ->
     y_f (if sub then sub_flags w a b' 0 false (wr_op g (x_op0 i) (a - b')) else add_flags w a b' 0 false (wr_op g (x_op0 i) (a + b'))) f = Some x).
  { intros f x E. unfold forget in E. cbn [set_f y_f] in E. destruct (existsb (xflag_eqb f) (adc_lost w b k)) eqn:NL; [discriminate|].
    unfold adc_lost in NL.
    assert (HC : f = fCF -> k = true -> b <> 2^w-1).
    { intros -> -> ->. rewrite Z.eqb_refl in NL. discriminate NL. }
    assert (HAF : f = fAF -> k = true -> b mod 16 <> 15).
    { intros -> -> Q. rewrite Q, Z.eqb_refl in NL. destruct (b =? 2^w-1); discriminate NL. }
    assert (HO : f = fOF -> k = true -> b <> 2^(w-1)-1).
    { intros -> -> Q. rewrite <- Q, Z.eqb_refl in NL. destruct (b =? 2^w-1), (b mod 16 =? 15); discriminate NL. }
    clear NL. destruct sub; destruct f; cbn [sub_flags add_flags set_f y_f] in *; rewrite ?Z.add_0_r, ?Z.sub_0_r.
    - rewrite CFE by auto. exact E.
    - rewrite EP. exact E.
    - rewrite AFE by auto. exact E.
    - rewrite EZ. exact E.
    - rewrite ES. exact E.
    - rewrite SE by auto. rewrite Z.sub_add_distr. exact E.
    - rewrite <- E. symmetry. destruct (x_op0 i) as [|? [|] ?| | |]; reflexivity.
    - rewrite CFE by auto. rewrite Z.add_assoc. exact E.
    - rewrite EP. exact E.
    - rewrite AFE by auto. rewrite Z.add_assoc. exact E.
    - rewrite EZ. exact E.
    - rewrite ES. exact E.
    - rewrite SE by auto. rewrite Z.add_assoc. exact E.
    - rewrite <- E. symmetry. destruct (x_op0 i) as [|? [|] ?| | |]; reflexivity. }
  destruct sub; (split; [exact L1|split; [exact FL|split; [exact L3|split; [exact L4|exact L5]]]]).
Qed.
Lemma adc_lost_or : forall (sub : bool) i g g', x_mn i = (if sub then X_SBB else X_ADC) -> isa i g = Some g' ->
  exists k, y_f g fCF = Some k /\ g' = (let w := op_bits (x_op0 i) in let a := rd_op g (x_op0 i) in let b := rd_op g (x_op1 i) in
     if sub then sub_flags w a b (bz k) false (wr_op g (x_op0 i) (a - b - bz k)) else add_flags w a b (bz k) false (wr_op g (x_op0 i) (a + b + bz k))).
Proof.
  intros sub i g g' MN E. unfold isa in E. destruct sub; rewrite MN in E; unfold obind in E; cbv zeta beta iota in E; destruct (y_f g fCF) as [k|]; try discriminate;
  exists k; (split; [reflexivity|injection E as <-; reflexivity]).
Qed.

Lemma done_forget_nil : forall g rt s, done g rt s -> done (forget [] g) rt s.
Proof. intros g rt s (R & P & T). split; [|split; assumption]. eapply xrel_gle; [exact R|]. repeat split; auto. Qed.
Lemma adc_case : forall (sub : bool) kc i g g' rt vs,
  y_ip g = addr_pc_base c (x_end i) -> wf_op (x_op0 i) = true -> wf_op (x_op1 i) = true ->
  good_op cfg (x_op0 i) = true -> good_op cfg (x_op1 i) = true -> xkc_sound kc g -> shape_ok i = true ->
  (x_lock i = true -> op_ismem (x_op0 i) = true) -> (x_lock i = true -> lockable (x_mn i) = true) ->
  x_mn i = (if sub then X_SBB else X_ADC) -> isa i g = Some g' ->
  exists pre, Some (LiftArith c cfg kc i sub) = Some (pre ++ []) /\
    G g (PcConst (x_end i)) vs rt pre (done (forget (adc_lost (op_bits (x_op0 i)) (rd_op g (x_op1 i)) (fl g fCF)) g') rt).
Proof.
  intros sub kc i g g' rt vs IP W0 W1 O0 O1 KC SH LK LB MN E. eexists; split; [rewrite app_nil_r; reflexivity|].
  destruct (adc_lost_or sub i g g' MN E) as (k & K & ->). unfold fl. rewrite K. cbv zeta.
  eapply G_post; [|eapply (L_ADCSBB c cfg HA GB kc i g rt) with (sub := sub) (k := k); eauto].
  assert (S : op_rm (x_op0 i) = true /\ op_val (x_op1 i) = true /\ op_bits (x_op1 i) = op_bits (x_op0 i)).
  { unfold shape_ok in SH. destruct sub; rewrite MN in SH; repeat match goal with H : _ && _ = true |- _ => apply andb_prop in H; destruct H end; (split; [assumption|split; [assumption|lia]]). }
  destruct S as (R0 & V1 & BB). intros s D. eapply done_gle; [| |exact D].
  - exact (adc_gle sub i g k W0 W1 R0 V1 BB).
  - unfold adc_model. destruct sub; cbn [forget set_f y_ip sub_flags add_flags]; rewrite !wr_op_ip; reflexivity.
Qed.

Ltac bylem L := eexists; split; [rewrite app_nil_r; reflexivity|];
  match goal with E : isa _ _ = Some _ |- _ => refine ((_ : ok _ _ _ _ _ _) _ _ E) end; eapply L; eauto.
(** The main case analysis. *)
Lemma gp_step : forall kc kcp kd i g g' rt vs,
  y_ip g = addr_pc_base c (x_end i) ->
  xwf i = true -> good_op cfg (x_op0 i) = true -> good_op cfg (x_op1 i) = true -> good_op cfg (x_op2 i) = true ->
  xkc_sound kc g -> xsupp kcp kd i g -> isa i g = Some g' ->
  exists pre, lift_gp c cfg kc kcp kd i = Some (pre ++ xext cfg i) /\
    G g (PcConst (x_end i)) vs rt pre (done (forget (xlost cfg i g) g') (xrets cfg i rt)).
Proof.
  intros kc kcp kd i g g' rt vs IP WF O0 O1 O2 KC SU E.
  unfold xwf in WF. apply andb_prop in WF as [WF LKB]. apply andb_prop in WF as [WF SH]. apply andb_prop in WF as [WF W2]. apply andb_prop in WF as [W0 W1].
  assert (LK : x_lock i = true -> op_ismem (x_op0 i) = true) by (intros L; rewrite L in LKB; cbn in LKB; apply andb_prop in LKB; apply LKB).
  assert (LB : x_lock i = true -> lockable (x_mn i) = true) by (intros L; rewrite L in LKB; cbn in LKB; apply andb_prop in LKB; apply LKB).
  unfold lift_gp, xext, xlost, xrets, xsupp in *.
  clear LKB. destruct (x_mn i) eqn:MN; rewrite <- MN in LB.
  - bylem L_NOP.
  - bylem L_PUSH.
  - bylem L_PUSHF.
  - bylem L_POPF.
  - destruct SU as (S1 & S2). bylem L_POP.
  - bylem L_LEAVE.
  - exists (call_pre c cfg kc i). split; [rewrite call_split; reflexivity|]. eapply L_CALL; eauto.
  - exists (LiftRet cfg i). split; [rewrite app_nil_r; reflexivity|]. eapply L_RET; eauto.
  - exists sys_pre. split; [reflexivity|]. eapply G_post; [apply done_forget_nil|]. eapply L_SYSCALL; eauto.
  - bylem L_LAHF.
  - bylem L_SAHF.
  - bylem L_MOV.
  - bylem L_MOVZX.
  - bylem L_MOV.
  - bylem L_MOVBE.
  - bylem L_ADD.
  - eapply (adc_case false); eauto.
  - bylem L_SUB.
  - eapply (adc_case true); eauto.
  - bylem L_CMP.
  - bylem L_XADD.
  - destruct SU as (S1 & S2 & S3). bylem L_CMPXCHG.
  - bylem L_XCHG.
  - bylem L_LEA.
  - bylem L_XLAT.
  - bylem L_NOT.
  - bylem L_NEG.
  - bylem L_INCDEC.
  - bylem L_INCDEC.
  - bylem L_AND.
  - bylem L_OR.
  - bylem L_XOR.
  - bylem L_TEST.
  - bylem L_IMUL.
  - bylem L_MUL.
  - bylem L_DIV.
  - bylem L_DIV.
  - eexists; split; [rewrite app_nil_r; reflexivity|]. pose proof (L_SHIFT c cfg HA GB kc i g rt IP W0 W1 O0 O1 KC SH LB) as L. rewrite MN in L. cbn [sh_op] in L. eapply L; auto.
  - eexists; split; [rewrite app_nil_r; reflexivity|]. pose proof (L_SHIFT c cfg HA GB kc i g rt IP W0 W1 O0 O1 KC SH LB) as L. rewrite MN in L. cbn [sh_op] in L. eapply L; auto.
  - eexists; split; [rewrite app_nil_r; reflexivity|]. pose proof (L_SHIFT c cfg HA GB kc i g rt IP W0 W1 O0 O1 KC SH LB) as L. rewrite MN in L. cbn [sh_op] in L. eapply L; auto.
  - bylem L_ROT.
  - bylem L_ROT.
  - bylem L_SHD.
  - bylem L_SHD.
  - bylem L_BSF.
  - bylem L_TZCNT.
  - bylem L_BSR.
  - contradiction.
  - bylem L_POPCNT.
  - eexists; split; [rewrite app_nil_r; reflexivity|]. refine ((_ : ok _ _ _ _ _ _) _ _ E). pose proof (L_BITTEST c cfg HA GB kc i g rt IP W0 W1 O0 O1 KC SH LK LB) as L. rewrite MN in L. apply L. reflexivity.
  - eexists; split; [rewrite app_nil_r; reflexivity|]. refine ((_ : ok _ _ _ _ _ _) _ _ E). pose proof (L_BITTEST c cfg HA GB kc i g rt IP W0 W1 O0 O1 KC SH LK LB) as L. rewrite MN in L. apply L. reflexivity.
  - eexists; split; [rewrite app_nil_r; reflexivity|]. refine ((_ : ok _ _ _ _ _ _) _ _ E). pose proof (L_BITTEST c cfg HA GB kc i g rt IP W0 W1 O0 O1 KC SH LK LB) as L. rewrite MN in L. apply L. reflexivity.
  - eexists; split; [rewrite app_nil_r; reflexivity|]. refine ((_ : ok _ _ _ _ _ _) _ _ E). pose proof (L_BITTEST c cfg HA GB kc i g rt IP W0 W1 O0 O1 KC SH LK LB) as L. rewrite MN in L. apply L. reflexivity.
  - bylem L_BSWAP.
  - bylem L_CEXT.
  - bylem L_CSEP.
  - bylem L_CLC.
  - bylem L_STC.
  - bylem L_CMC.
  - bylem L_CLD.
  - bylem L_STD.
  - unfold isa in E. rewrite MN in E. discriminate.
  - unfold isa in E. rewrite MN in E. discriminate.
  - unfold isa in E. rewrite MN in E. discriminate.
  - unfold isa in E. rewrite MN in E. discriminate.
  - unfold isa in E. rewrite MN in E. discriminate.
  - bylem L_CMOV.
  - bylem L_SET.
  - bylem L_JCC.
  - bylem L_JMP.
  - bylem L_JCXZ.
  - bylem L_LOOP.
  - bylem L_LOOP.
  - bylem L_LOOP.
  - unfold isa in E. rewrite MN in E. discriminate.
Qed.
End Step.

(** ** Whole instructions *)

(** Lifted code for instruction [i] is about to run in state [s], which holds the
    guest state [g] with the instruction pointer at [i]. *)
Record x_ctx (c : cenv) (cfg : xcfg) (kc : areg -> konst) (i : xinst) (s : st) (g : xst) : Prop := XCtx {
  xc_arch : c_arch c = X86_64;
  xc_gb : gbase_ok c;
  xc_rel : xrel s g;
  xc_wf : xwf i = true;
  xc_o0 : good_op cfg (x_op0 i) = true;
  xc_o1 : good_op cfg (x_op1 i) = true;
  xc_o2 : good_op cfg (x_op2 i) = true;
  xc_kc : xkc_sound kc g;
  xc_ip : y_ip g = addr_pc_base c (x_start i);
}.
(** The guest state in which operands are evaluated. *)
Definition adv (i : xinst) (g : xst) : xst := set_ip g (y_ip g + x_len i).
(** The instruction is lifted, its code runs without undefined behaviour and ends
    in a state holding [g'] with the PC at [y_ip g']. *)
Definition x_lifts `{FpuOps} (c : cenv) (cfg : xcfg) (kc kcp : areg -> konst) (kd : kdivk) (i : xinst) (s : st) (g' : xst) (rt : bool) : Prop :=
  exists l s', lift_x86 c cfg kc kcp None kd i = (true, CPlain l) /\ run c s l = Ok s' /\
    xrel s' g' /\ pc_value c (s_pc s') 0 = Ok (V (TInt 64) (y_ip g')) /\ s_ret s' = rt.

Section Whole.
Context `{FpuOps}.
Variables (c : cenv) (cfg : xcfg).

Lemma whole_pre : forall kc kcp kd i s g g', x_ctx c cfg kc i s g -> xsupp kcp kd i (adv i g) -> xspec i g = Some g' ->
  exists pre s1, lift_x86 c cfg kc kcp None kd i = (true, CPlain (pre ++ xext cfg i)) /\ run c s pre = Ok s1 /\
    done c (forget (xlost cfg i (adv i g)) g') (xrets cfg i (s_ret s)) s1.
Proof.
  intros kc kcp kd i s g g' [HA GB R WF O0 O1 O2 KC IP] SU E. unfold xspec in E. fold (adv i g) in E.
  assert (IP' : y_ip (adv i g) = addr_pc_base c (x_end i)).
  { unfold adv, x_end. cbn [set_ip y_ip]. rewrite IP, addr_pc_base_trunc, addr_pc_base_add. reflexivity. }
  destruct (gp_step c cfg HA GB kc kcp kd i (adv i g) g' (s_ret s) (s_var s) IP' WF O0 O1 O2 KC SU E) as (pre & L & S).
  exists (SPcConst (x_end i) :: pre).
  destruct (S (with_pc s (PcConst (x_end i)))) as (s1 & R1 & D).
  { split; [|repeat split]. destruct R. split; assumption. }
  exists s1. split; [|split; [|exact D]].
  - unfold lift_x86. rewrite L. reflexivity.
  - exact R1.
Qed.
Lemma whole_step : forall kc kcp kd i s g g', x_ctx c cfg kc i s g -> xsupp kcp kd i (adv i g) -> xspec i g = Some g' ->
  xext cfg i = [] ->
  x_lifts c cfg kc kcp kd i s (forget (xlost cfg i (adv i g)) g') (xrets cfg i (s_ret s)).
Proof.
  intros kc kcp kd i s g g' C SU E X. destruct (whole_pre kc kcp kd i s g g' C SU E) as (pre & s1 & L & R & D1 & D2 & D3).
  rewrite X, app_nil_r in L. exists pre, s1. repeat (split; [assumption|]). assumption.
Qed.
Lemma whole_exact : forall kc kcp kd i s g g', x_ctx c cfg kc i s g -> xsupp kcp kd i (adv i g) -> xspec i g = Some g' ->
  xext cfg i = [] -> xlost cfg i (adv i g) = [] -> xrets cfg i (s_ret s) = s_ret s ->
  x_lifts c cfg kc kcp kd i s g' (s_ret s).
Proof.
  intros kc kcp kd i s g g' C SU E X LO RT. destruct (whole_step kc kcp kd i s g g' C SU E X) as (l & s1 & L & R & D1 & D2 & D3).
  rewrite LO in *. rewrite RT in D3. exists l, s1. split; [assumption|]. split; [assumption|]. split; [|split; assumption].
  eapply xrel_gle; [exact D1|]. repeat split; auto.
Qed.
End Whole.
