(** One AArch64 instruction, and straight-line sequences of them; concrete states. *)

From Coq Require Import ZArith Lia ZifyBool List Bool.
From Verif Require Import Bits IR Facet Dsl Rv64Spec Rv64Sim Rv64Arith X86Spec X86Arith A64 A64Spec A64Arith A64Sim A64Dp A64Br A64Mem A64Sys A64SimdStep.
Import ListNotations.
Open Scope Z_scope.
Ltac Zify.zify_post_hook ::= Z.div_mod_to_equations.

(** The architectural step: one instruction takes [g] to the result. *)
Definition kstep `{FpuOps} (clob : bool) (i : ainst) (g : kst) : option kst :=
  match kdp i g with Some (r, fo) => Some (kput i g r fo) | None =>
  match kcmp i g with Some f => Some (wrpc (wrf g f) (k_pc g + 4)) | None =>
  match kbr i g with Some t => Some (wrpc g t) | None =>
  match kcall clob i g with Some g' => Some g' | None =>
  match kmem i g with Some g' => Some (wrpc g' (k_pc g + 4)) | None =>
  match ksys i g with Some g' => Some (wrpc g' (k_pc g + 4)) | None =>
  match ksimd i g with Some g' => Some (wrpc g' (k_pc g + 4)) | None => None end end end end end end end.

(** Encodings the decoder yields and that are not CONSTRAINED UNPREDICTABLE, without
    the corner cases of Prop_A64.v in which the lifted code is wrong. *)
Definition kwf (i : ainst) : bool :=
  match a_op i with
  | A_TST_IMM | A_CMN_IMM | A_CMP_IMM | A_TST_SHIFTED | A_CMN_SHIFTED | A_CMP_SHIFTED | A_CMN_EXT | A_CMP_EXT
  | A_CCMN_REG | A_CCMP_REG | A_CCMN_IMM | A_CCMP_IMM => wf_cmp i
  | A_B | A_BR | A_BCOND | A_CBZ | A_CBNZ | A_TBZ | A_TBNZ => wf_br i
  | A_BL | A_RET => okx (a_rn i)
  | A_BLR => okx (a_rn i) && negb (xr_eqb (a_rn i) (RX 30))
  | A_LDR | A_LDXR | A_LDP | A_LDXP | A_STR | A_STXR | A_STP | A_STXP | A_LDR_FP | A_LDP_FP | A_STR_FP | A_STP_FP => wf_mem i
  | A_HINT | A_DMB | A_MSR_REG | A_CFINV | A_SYS | A_MRS | A_FCSEL | A_FMOV_VEC2GPR | A_FMOV_GPR2VEC
  | A_FMOV_TOP2GPR | A_FMOV_GPR2TOP | A_FMOV_REG => wf_sys i
  | A_FCCMP | A_VEC _ => wf_simd i
  | _ => wf_dp i
  end.

(** Operands outside the corner cases of Prop_A64.v and Prop_A64Simd.v in which the lifted
    code is wrong; for floating point, the FPU obeys IEEE 754 ([fpu_ieee]). *)
Definition kdef `{FpuOps} (i : ainst) (g : kst) : Prop := adc_corner i g = false /\ simd_def i g.

(** Lifted code for [i] is about to run in state [s], which holds the guest state [g]
    with the PC at [i]; the flags [i] reads are specified. *)
Record k_ctx (c : cenv) (i : ainst) (s : st) (g : kst) : Prop := KCtx {
  kx_arch : c_arch c = AArch64;
  kx_rel : krel s g;
  kx_pc : k_pc g = addr_pc_base c (a_start i);
  kx_wf : kwf i = true;
  kx_fl : flags_known i g;
}.
(** The lifter accepts [i], and its code takes [s] to a state holding [g']. *)
Definition k_lifts `{FpuOps} (c : cenv) (cfg : acfg) (i : ainst) (s : st) (g' : kst) : Prop :=
  exists l s', lift_a64 cfg i = Some (true, l) /\ run c s l = Ok s' /\ krel s' g' /\
    pc_value c (s_pc s') 0 = Ok (V (TInt 64) (k_pc g')) /\ s_ret s' = s_ret s.

Lemma liftsp_ctx : forall `{FpuOps} c cfg i s g g' p, krel s g -> liftsp c cfg i g g' p -> k_lifts c cfg i s g'.
Proof.
  intros F c cfg i s g g' p R (l & L & T). destruct (T s R) as (s' & E & D1 & D2 & D3 & D4). exists l, s'. rewrite D2. auto.
Qed.
(** Same with the code in two parts, the second of which is not executed. *)
Definition k_prefix `{FpuOps} (c : cenv) (cfg : acfg) (i : ainst) (s : st) (g' : kst) (tl : list stm) : Prop :=
  exists l s', lift_a64 cfg i = Some (true, l ++ tl) /\ run c s l = Ok s' /\ krel s' g' /\
    pc_value c (s_pc s') 0 = Ok (V (TInt 64) (k_pc g')) /\ s_ret s' = s_ret s.

Ltac opd i := unfold kstep, kdp, kcmp, kbr, kcall, kmem, ksys, ksimd; cbv zeta; destruct (a_op i); try reflexivity.
Lemma step_prefix : forall `{FpuOps} c cfg i s g g', k_ctx c i s g -> kdef i g -> a_op i <> A_SVC ->
  kstep (al_clobber cfg) i g = Some g' -> k_prefix c cfg i s g' (ktail cfg i).
Proof.
  intros F c cfg i s g g' [HA R PC WF FK] [NC SD] NS S.
  assert (L : (exists p, liftsp c cfg i g g' p) /\ ktail cfg i = [] \/ (exists p, liftst c cfg i g g' p (ktail cfg i))).
  { unfold kstep in S. destruct (kdp i g) as [[r fo]|] eqn:E1.
    { left. split; [|unfold ktail; unfold kdp in E1; destruct (a_op i); (discriminate E1 || reflexivity)].
      apply (f_equal (fun o => match o with Some x => x | None => g' end)) in S. cbv beta iota in S. rewrite <- S. eexists.
      assert (WD : wf_dp i = true) by (unfold kwf in WF; unfold kdp in E1; destruct (a_op i); (discriminate E1 || exact WF)).
      assert (WR : wf_regs i = true) by (unfold wf_dp in WD; destruct (wf_regs i); [reflexivity|discriminate WD]).
      apply dp_step; assumption. }
    destruct (kcmp i g) as [f|] eqn:E2.
    { left. split; [|unfold ktail; unfold kcmp in E2; destruct (a_op i); (discriminate E2 || reflexivity)].
      apply (f_equal (fun o => match o with Some x => x | None => g' end)) in S. cbv beta iota in S. rewrite <- S. eexists. apply cmp_step; [assumption..| |assumption|assumption].
      unfold kwf in WF. unfold kcmp in E2. destruct (a_op i); (discriminate E2 || exact WF). }
    destruct (kbr i g) as [t|] eqn:E3.
    { left. split; [|unfold ktail; unfold kbr in E3; destruct (a_op i); (discriminate E3 || reflexivity)].
      apply (f_equal (fun o => match o with Some x => x | None => g' end)) in S. cbv beta iota in S. rewrite <- S. eexists. apply br_step; [assumption..| |assumption|assumption].
      unfold kwf in WF. unfold kbr in E3. destruct (a_op i); (discriminate E3 || exact WF). }
    destruct (kcall (al_clobber cfg) i g) as [g1|] eqn:E4.
    { right. apply (f_equal (fun o => match o with Some x => x | None => g' end)) in S. cbv beta iota in S. rewrite <- S. eexists.
      eapply call_step; [assumption..| | |exact E4].
      - unfold kwf in WF. unfold kcall in E4. destruct (a_op i); try discriminate E4; [exact WF| |exact WF]. apply andb_prop in WF. apply WF.
      - intro O. unfold kwf in WF. rewrite O in WF. apply andb_prop in WF. destruct WF as [_ W1]. intro Q. rewrite Q in W1. discriminate W1. }
    destruct (kmem i g) as [g1|] eqn:E5.
    { left. split; [|unfold ktail; unfold kmem in E5; destruct (a_op i); (discriminate E5 || reflexivity)].
      apply (f_equal (fun o => match o with Some x => x | None => g' end)) in S. cbv beta iota in S. rewrite <- S. eexists. eapply mem_step; [assumption..| |exact E5].
      unfold kwf in WF. unfold kmem in E5. destruct (a_op i); (discriminate E5 || exact WF). }
    destruct (ksys i g) as [g1|] eqn:E6.
    { left. split; [|unfold ktail; unfold ksys in E6; destruct (a_op i); (discriminate E6 || reflexivity)].
      apply (f_equal (fun o => match o with Some x => x | None => g' end)) in S. cbv beta iota in S. rewrite <- S. eexists. eapply sys_step; [assumption..| |assumption|exact E6].
      unfold kwf in WF. unfold ksys in E6. destruct (a_op i); (discriminate E6 || exact WF). }
    destruct (ksimd i g) as [g1|] eqn:E7; [|discriminate S].
    left. split; [|unfold ktail; unfold ksimd in E7; destruct (a_op i); (discriminate E7 || reflexivity)].
    apply (f_equal (fun o => match o with Some x => x | None => g' end)) in S. cbv beta iota in S. rewrite <- S. eexists. eapply simd_step; [assumption..| |assumption|exact SD|exact E7].
    unfold kwf in WF. unfold ksimd in E7. destruct (a_op i); (discriminate E7 || exact WF). }
  destruct L as [[[p L] T0]|[p L]].
  - destruct (liftsp_ctx c cfg i s g g' p R L) as (l & s' & L1 & L2). exists l, s'. rewrite T0, app_nil_r. auto.
  - destruct L as (l & L1 & T). destruct (T s R) as (s' & E & D1 & D2 & D3 & D4). exists l, s'. rewrite D2. auto.
Qed.
Lemma step_ok : forall `{FpuOps} c cfg i s g g', k_ctx c i s g -> kdef i g -> a_op i <> A_SVC ->
  kstep (al_clobber cfg) i g = Some g' -> ktail cfg i = [] -> k_lifts c cfg i s g'.
Proof.
  intros F c cfg i s g g' C NC NS S T. destruct (step_prefix c cfg i s g g' C NC NS S) as (l & s' & L). rewrite T, app_nil_r in L. exists l, s'. exact L.
Qed.

(** ** Straight-line code *)
(** [is] executes from [g] to [g'], each instruction at the PC reached so far. *)
Fixpoint kexec `{FpuOps} (c : cenv) (clob : bool) (is : list ainst) (g g' : kst) : Prop :=
  match is with
  | [] => g' = g
  | i :: is => exists g1, k_pc g = addr_pc_base c (a_start i) /\ kwf i = true /\ flags_known i g /\ kdef i g /\ a_op i <> A_SVC /\
      kstep clob i g = Some g1 /\ kexec c clob is g1 g'
  end.
(** The code the lifter emits for [is] within one block. *)
Fixpoint lift_all (cfg : acfg) (is : list ainst) : option (list stm) :=
  match is with
  | [] => Some []
  | i :: is => match lift_a64 cfg i, lift_all cfg is with Some (true, a), Some b => Some (a ++ b) | _, _ => None end
  end.
Lemma seq_ok : forall `{FpuOps} c cfg, c_arch c = AArch64 -> forall is s g g', is <> [] -> krel s g ->
  Forall (fun i => ktail cfg i = []) is -> kexec c (al_clobber cfg) is g g' ->
  exists l s', lift_all cfg is = Some l /\ run c s l = Ok s' /\ krel s' g' /\
    pc_value c (s_pc s') 0 = Ok (V (TInt 64) (k_pc g')) /\ s_ret s' = s_ret s.
Proof.
  intros F c cfg HA. induction is as [|i is IH]; intros s g g' NE R TL X; [contradiction|].
  inversion TL as [|? ? T1 T2]; subst. cbn [kexec] in X. destruct X as (g1 & PC & WF & FK & NC & NS & S & X).
  destruct (step_ok c cfg i s g g1 (KCtx c i s g HA R PC WF FK) NC NS S T1) as (l & s1 & L & RN & R1 & P1 & RT1).
  destruct is as [|i2 is].
  - cbn [kexec] in X. subst g'. exists l, s1. cbn [lift_all]. rewrite L, app_nil_r. auto.
  - destruct (IH s1 g1 g' ltac:(discriminate) R1 T2 X) as (l2 & s2 & L2 & RN2 & R2 & P2 & RT2).
    exists (l ++ l2), s2. cbn [lift_all] in L2 |- *. rewrite L, L2. split; [reflexivity|]. split; [rewrite run_app, RN; exact RN2|].
    split; [exact R2|]. split; [exact P2|congruence].
Qed.

(** ** Concrete states *)
Definition c_a : cenv := CEnv AArch64 None 0 None 0 (fun _ u => u).
Definition c_apic : cenv := CEnv AArch64 (Some 0x555000) 0x1000 None 0 (fun _ u => u).
Definition acfg0 : acfg := ACfg None None false false.
Definition kex (x : Z -> Z) (f : bool) (pc : Z) : kst :=
  Kst (fun n => U 64 (x n)) (U 64 (x 31)) (fun _ => Some f) (fun n => U 128 (x n * 0x100000001)) 0x7000 pc (fun a => a mod 256).
Definition kst_of (g : kst) : st :=
  St (fun r => match r with
               | GP n => if n =? 31 then Some (k_sp g) else if n =? 256 then Some (k_tp g) else Some (k_x g n)
               | VEC n => Some (k_q g n)
               | FLAG f => if f =? 0 then option_map b2z (k_f g fZ) else if f =? 1 then option_map b2z (k_f g fN)
                           else if f =? 3 then option_map b2z (k_f g fC) else if f =? 4 then option_map b2z (k_f g fV) else None
               end)
     (PcVal (Poison (TInt 64))) (k_m g) (fun _ => None) false.
Lemma krel_ex : forall x f pc, krel (kst_of (kex x f pc)) (kex x f pc).
Proof.
  intros x f pc. split; cbn [kst_of kex s_reg s_mem k_x k_sp k_f k_q k_tp k_m].
  - intros n N. destruct (n =? 31) eqn:A; [lia|]. destruct (n =? 256) eqn:B; [lia|reflexivity].
  - intros. apply trunc_range. lia.
  - reflexivity.
  - apply trunc_range. lia.
  - intros fg b E. destruct fg; injection E as <-; reflexivity.
  - reflexivity.
  - intros. apply trunc_range. lia.
  - reflexivity.
  - split; [lia|reflexivity].
  - reflexivity.
Qed.
Definition ai (op : aop) : ainst :=
  AInst op false true (RX 3) (RX 1) (RX 2) (RX 4) (RX 5) (RX 6) 16 0x40 SH_LSL 2 UXTW 3 8 8 1 5 6 AM_OFF_IMM UXTX FSZ_D 1 2 3 4 0x1000.
Definition ai32 (op : aop) : ainst :=
  AInst op true true (RX 3) (RX 1) (RX 2) (RX 4) (RX 5) (RX 6) 16 0x40 SH_LSL 2 UXTW 3 8 8 1 5 6 AM_OFF_IMM UXTW FSZ_S 1 2 3 4 0x1000.
Lemma kctx_ex : forall i x f, a_start i = 0x1000 -> kwf i = true -> k_ctx c_a i (kst_of (kex x f 0x1000)) (kex x f 0x1000).
Proof.
  intros i x f ST W. split; [reflexivity|apply krel_ex|rewrite ST; reflexivity|exact W|]. intros fg _. discriminate.
Qed.
