(** AArch64: C38, C39, C53, C54, C55, and the AArch64 part of C12 and C43. *)

From Coq Require Import ZArith Lia ZifyBool List Bool.
From Verif Require Import Bits IR Facet Dsl Rv64Spec Rv64Sim Rv64Arith X86Spec X86Arith Rv64Ex Prop_Config.
From Verif Require Import A64 A64Spec A64Arith A64Sim A64Dp A64Br A64Mem A64Sys A64SimdStep A64Step.
Import ListNotations.
Open Scope Z_scope.
Ltac Zify.zify_post_hook ::= Z.div_mod_to_equations.

(** ** C38: data processing *)
(** Partial: ADCS/SBCS/NGCS whose operand is all-ones or the largest signed value and
    whose carry adds to it are excluded ([adc_corner]), and so is a 32-bit
    extended-register operand with UXTX/SXTX ([kwf]); both are refuted below. *)
Theorem a64_dp_partial : forall `{FpuOps} c cfg i s g r fo, k_ctx c i s g -> adc_corner i g = false -> kdp i g = Some (r, fo) ->
  k_lifts c cfg i s (wrpc (let g1 := wrx g (a_rd i) (if a_w32 i then 32 else 64) r in match fo with Some f => wrf g1 f | None => g1 end) (k_pc g + 4)).
Proof.
  intros F c cfg i s g r fo C NC E. apply (step_ok c cfg i s g); [exact C|split; [exact NC|unfold kdp in E; unfold simd_def; destruct (a_op i); (discriminate E || exact I)]| | |].
  - unfold kdp in E. intro O. rewrite O in E. discriminate E.
  - unfold kstep. rewrite E. reflexivity.
  - unfold kdp in E. unfold ktail. destruct (a_op i); (discriminate E || reflexivity).
Qed.
Print Assumptions a64_dp_partial.
(** Compare, test and conditional compare. *)
Theorem a64_cmp_correct : forall `{FpuOps} c cfg i s g f, k_ctx c i s g -> kcmp i g = Some f ->
  k_lifts c cfg i s (wrpc (wrf g f) (k_pc g + 4)).
Proof.
  intros F c cfg i s g f C E. apply (step_ok c cfg i s g); [exact C| | | |].
  - unfold kcmp in E. unfold kdef, adc_corner, simd_def. cbv zeta. destruct (a_op i); (discriminate E || (split; [reflexivity|exact I])).
  - unfold kcmp in E. intro O. rewrite O in E. discriminate E.
  - unfold kstep. rewrite E. unfold kcmp in E. unfold kdp. cbv zeta. destruct (a_op i); (discriminate E || reflexivity).
  - unfold kcmp in E. unfold ktail. destruct (a_op i); (discriminate E || reflexivity).
Qed.
Print Assumptions a64_cmp_correct.
Example a64_dp_nv : let i := ai A_ADD_SHIFTED in let g := kex (fun n => 2^63 + n) true 0x1000 in
  k_ctx c_a i (kst_of g) g /\ adc_corner i g = false /\ (exists f, kdp i g = Some (2^63 + 9, Some f) /\ f fN = Some true /\ f fC = Some false).
Proof. split; [apply kctx_ex; reflexivity|]. split; [reflexivity|]. eexists. split; [reflexivity|]. split; reflexivity. Qed.
Example a64_adc_nv : let i := ai32 A_ADC in let g := kex (fun n => 0x80000000 + n) true 0x1000 in
  k_ctx c_a i (kst_of g) g /\ adc_corner i g = false /\ (exists f, kdp i g = Some (4, Some f) /\ f fC = Some true /\ f fV = Some true /\ f fN = Some false).
Proof. split; [apply kctx_ex; reflexivity|]. split; [reflexivity|]. eexists. split; [reflexivity|]. repeat split; reflexivity. Qed.
Example a64_cmp_nv : let i := ai A_CCMP_REG in let g := kex (fun n => 5 - n) false 0x1000 in
  k_ctx c_a i (kst_of g) g /\ (exists f, kcmp i g = Some f /\ f fC = Some true /\ f fZ = Some false).
Proof. split; [apply kctx_ex; reflexivity|]. eexists. split; [reflexivity|]. split; reflexivity. Qed.

(** F35: in every excluded ADCS/SBCS/NGCS case the lifted code computes the right
    result but leaves a wrong C or V flag. *)
Theorem a64_adcs_corner_refuted : forall `{FpuOps} c cfg i s g, k_ctx c i s g -> adc_corner i g = true ->
  exists l s' r fo f b, lift_a64 cfg i = Some (true, l) /\ run c s l = Ok s' /\ kdp i g = Some (r, Some fo) /\
    (forall n, 0 <= n < 31 -> s_reg s' (GP n) = Some (k_x (wrx g (a_rd i) (if a_w32 i then 32 else 64) r) n)) /\
    (f = fC \/ f = fV) /\ fo f = Some b /\ s_reg s' (kcell f) = Some (b2z (negb b)).
Proof.
  intros F c cfg i s g [HA R PC WF FK] AC. unfold adc_corner in AC. cbv zeta in AC.
  assert (O : exists add : bool, (if add then a_op i = A_ADC else a_op i = A_SBC \/ a_op i = A_NGC) /\ a_flags i = true /\
    (if add then fl g fC else negb (fl g fC)) = true).
  { destruct (a_op i); try discriminate AC; [exists true|exists false|exists false]; apply andb_prop in AC; destruct AC as [AC _]; apply andb_prop in AC; destruct AC; auto. }
  destruct O as (add & O & AF & Q).
  assert (WR : wf_regs i = true).
  { unfold kwf in WF. destruct add; [rewrite O in WF|destruct O as [O|O]; rewrite O in WF]; unfold wf_dp in WF; apply andb_prop in WF; apply WF. }
  assert (FC : k_f g fC <> None).
  { apply FK. unfold reads. destruct add; [rewrite O|destruct O as [O|O]; rewrite O]; left; reflexivity. }
  assert (EDG : (rdx g (a_rm i) (bits (a_w32 i)) =? 2 ^ bits (a_w32 i) - 1) || (rdx g (a_rm i) (bits (a_w32 i)) =? 2 ^ (bits (a_w32 i) - 1) - 1) = true).
  { fold (bits (a_w32 i)) in AC. destruct (a_op i); try discriminate AC; apply andb_prop in AC; apply AC. }
  pose proof (adc_go c cfg i g PC WR add O FC _ eq_refl) as L. rewrite AF, Q in L.
  set (w := bits (a_w32 i)) in *. set (m := rdx g (a_rm i) w) in *. set (n := rdx g (a_rn i) w) in *.
  set (rf := awc w n (if add then m else knot w m) (fl g fC)) in *.
  destruct L as (l & LL & T). destruct (T s R) as (s' & RN & D1 & _).
  assert (KD : kdp i g = Some (fst rf, Some (snd rf))).
  { unfold kdp. cbv zeta. fold (bits (a_w32 i)). fold w. fold m. fold n. subst rf. destruct add; [rewrite O, AF; reflexivity|].
    destruct O as [O|O]; rewrite O, AF; [reflexivity|]. unfold kwf, wf_dp in WF. rewrite O in WF. apply andb_prop in WF. destruct WF as [_ Z0].
    assert (N0 : n = 0) by (subst n; unfold rdx; destruct (a_rn i); try discriminate Z0; reflexivity). rewrite N0. reflexivity. }
  assert (CR : exists f b, (f = fC \/ f = fV) /\ snd rf f = Some b /\ adc_flags i g true (snd rf) f = Some (negb b)).
  { unfold adc_flags. fold w m. subst rf. unfold awc. cbv zeta. cbn [fst snd]. apply orb_prop in EDG. destruct EDG as [ED|ED].
    - exists fC. eexists. split; [auto|]. split; [reflexivity|]. unfold nzcv, getf. cbv beta iota. cbn [andb]. rewrite ED. rewrite xorb_true_r. reflexivity.
    - exists fV. eexists. split; [auto|]. split; [reflexivity|]. unfold nzcv, getf. cbv beta iota. cbn [andb]. rewrite ED. rewrite xorb_true_r. reflexivity. }
  destruct CR as (f & b & Ef & Sb & Ab).
  exists l, s', (fst rf), (snd rf), f, b. split; [exact LL|]. split; [exact RN|]. split; [exact KD|]. split; [|split; [exact Ef|split; [exact Sb|]]].
  - intros n0 N0. rewrite (kr_x _ _ D1 n0 N0). unfold kput. fold (bits (a_w32 i)). fold w. cbn [wrpc wrf k_x]. reflexivity.
  - apply (kr_f _ _ D1). exact Ab.
Qed.
Print Assumptions a64_adcs_corner_refuted.
Example a64_adcs_corner_nv : let i := ai A_ADC in let g := kex (fun n => if n =? 2 then 2^64 - 1 else 7) true 0x1000 in
  k_ctx c_a i (kst_of g) g /\ adc_corner i g = true.
Proof. split; [apply kctx_ex; reflexivity|reflexivity]. Qed.

(** F36: with a 32-bit operation and UXTX or SXTX the lifter truncates a 32-bit value
    to 64 bits, which is not valid IR. *)
Theorem a64_add_ext64_refuted : forall `{FpuOps} c cfg i s g, krel s g -> okx (a_rn i) = true -> okx (a_rm i) = true ->
  In (a_op i) [A_ADD_EXT; A_SUB_EXT; A_CMP_EXT; A_CMN_EXT] -> a_w32 i = true -> a_ext i = UXTX \/ a_ext i = SXTX -> 0 <= a_lsl i <= 4 ->
  exists l, lift_a64 cfg i = Some (true, l) /\ run c s l = TyErr.
Proof.
  intros F c cfg i s g R ON OM O W X SL.
  assert (SH : exists e, rhs_ext i = Some e /\ forall s0, krel s0 g -> ev c s0 e = TyErr).
  { unfold rhs_ext, Extend, Shift. rewrite W. destruct (a_lsl i <? bits true) eqn:E; [|unfold bits in E; lia]. cbn [negb].
    assert (V0 : forall s0, krel s0 g -> ev c s0 (if ext_signed (a_ext i) then eSExt (bits true) (eTrunc (ext_src (a_ext i)) (GetGp (a_rm i) true))
      else eZExt (bits true) (eTrunc (ext_src (a_ext i)) (GetGp (a_rm i) true))) = TyErr).
    { intros s0 R0. pose proof (val_rx c s0 g (a_rm i) true R0 OM) as VX. unfold val in VX. change (bits true) with 32 in *. unfold ev in *.
      destruct X as [X|X]; rewrite X; cbn [ext_signed ext_src]; unfold eZExt, eSExt, eTrunc; cbn [eval]; rewrite VX; reflexivity. }
    destruct (a_lsl i =? 0); eexists; (split; [reflexivity|]); [exact V0|]. intros s0 R0. specialize (V0 s0 R0). unfold ev, eShl, eBin, dexp in *. cbn [eval]. first [rewrite V0; reflexivity|refine (f_equal (fun q => bind q _) V0)]. }
  destruct SH as (e & RE & EV).
  set (op := match a_op i with A_ADD_EXT | A_CMN_EXT => Add | _ => Sub end).
  assert (LB : exists tl, lift_a64 cfg i = Some (true, SPcConst (a_start i) :: [SLet 0 (GetGp (a_rn i) true); SLet 1 e] ++ tl)).
  { unfold lift_a64, lift_op, LiftBinOp. cbn [In] in O. destruct O as [O|[O|[O|[O|[]]]]]; rewrite <- O; cbv beta iota zeta; rewrite RE, W; cbv beta iota zeta; destruct (a_flags i); cbn [go app]; rewrite <- ?app_assoc; cbn [app]; eexists; reflexivity. }
  destruct LB as (tl & LB). eexists. split; [exact LB|]. cbn [app].
  pose proof (val_rx c (with_pc s (PcConst (a_start i))) g (a_rn i) true) as VN.
  assert (R1 : krel (with_pc s (PcConst (a_start i))) g) by (destruct R; split; assumption).
  specialize (VN R1 ON). unfold val in VN. cbn [run run1 bind]. rewrite VN. cbn [run1 bind].
  rewrite EV; [reflexivity|]. destruct R; split; assumption.
Qed.
Print Assumptions a64_add_ext64_refuted.
(** F37: DMB with a reserved barrier domain makes the lifter abort, although it
    executes as a full barrier. *)
Theorem a64_dmb_reserved_refuted : forall cfg i, a_op i = A_DMB -> a_imm i mod 4 = 0 -> lift_a64 cfg i = None.
Proof. intros cfg i O M. unfold lift_a64, lift_op. rewrite O, M. reflexivity. Qed.
Print Assumptions a64_dmb_reserved_refuted.

(** ** C39: branches *)
Theorem a64_branch_correct : forall `{FpuOps} c cfg i s g t, k_ctx c i s g -> kbr i g = Some t -> k_lifts c cfg i s (wrpc g t).
Proof.
  intros F c cfg i s g t C E. apply (step_ok c cfg i s g); [exact C| | | |].
  - unfold kbr in E. unfold kdef, adc_corner, simd_def. cbv zeta. destruct (a_op i); (discriminate E || (split; [reflexivity|exact I])).
  - unfold kbr in E. intro O. rewrite O in E. discriminate E.
  - unfold kstep. rewrite E. unfold kbr in E. unfold kdp, kcmp. cbv zeta. destruct (a_op i); (discriminate E || reflexivity).
  - unfold kbr in E. unfold ktail. destruct (a_op i); (discriminate E || reflexivity).
Qed.
Print Assumptions a64_branch_correct.
Lemma kcall_corner : forall `{FpuOps} b i g g', kcall b i g = Some g' -> kdef i g /\ a_op i <> A_SVC /\ kstep b i g = Some g'.
Proof.
  intros F b i g g' E. split; [|split].
  - unfold kcall in E. unfold kdef, adc_corner, simd_def. cbv zeta. destruct (a_op i); (discriminate E || (split; [reflexivity|exact I])).
  - unfold kcall in E. intro O. rewrite O in E. discriminate E.
  - unfold kstep. rewrite E. unfold kcall in E. unfold kdp, kcmp, kbr. cbv zeta. destruct (a_op i); (discriminate E || reflexivity).
Qed.
(** BL, BLR (not through x30) and RET without a call function. *)
Theorem a64_call_jump_partial : forall `{FpuOps} c cfg i s g g', k_ctx c i s g -> al_call cfg = None -> kcall (al_clobber cfg) i g = Some g' -> k_lifts c cfg i s g'.
Proof.
  intros F c cfg i s g g' C NC E. destruct (kcall_corner _ _ _ _ E) as (A & B & D). apply (step_ok c cfg i s g); [exact C|exact A|exact B|exact D|].
  unfold kcall in E. unfold ktail. rewrite NC. destruct (a_op i); (discriminate E || reflexivity).
Qed.
Print Assumptions a64_call_jump_partial.
(** BL and BLR with a call function [f]: [f] sees the callee address as PC and the
    return address in x30; afterwards control continues behind the call exactly if [f]
    left that address as PC, else the function is left with it. *)
Theorem a64_call_function_partial : forall `{FpuOps} c cfg i s g g' f p, k_ctx c i s g -> al_call cfg = Some f -> a_op i = A_BL \/ a_op i = A_BLR ->
  kcall (al_clobber cfg) i g = Some g' -> a_end i <> 0 ->
  exists pre s1, lift_a64 cfg i = Some (true, pre ++ [SCall f; SPcCallret (a_end i)]) /\ run c s pre = Ok s1 /\ krel s1 g' /\
    pc_value c (s_pc s1) 0 = Ok (V (TInt 64) (k_pc g')) /\ s_ret s1 = s_ret s /\
    (u_pc (c_ext c f (to_cpu s1 (V (TInt 64) (k_pc g')))) = Some p -> inr 64 p ->
     exists s2 b, run c s (pre ++ [SCall f; SPcCallret (a_end i)]) = Ok s2 /\ pc_branch c (s_pc s2) = Ok (V (TInt 1) b, a_end i, 0) /\
       (b = 1 <-> p = runtime_addr c (a_end i)) /\ (b = 0 <-> p <> runtime_addr c (a_end i)) /\ pc_value c (s_pc s2) 0 = Ok (V (TInt 64) p)).
Proof.
  intros F c cfg i s g g' f p C NC O E NE. destruct (kcall_corner _ _ _ _ E) as (A & B & D).
  destruct (step_prefix c cfg i s g g' C A B D) as (pre & s1 & L & RN & R1 & P1 & RT).
  assert (T : ktail cfg i = [SCall f; SPcCallret (a_end i)]) by (unfold ktail; rewrite NC; destruct O as [O|O]; rewrite O; reflexivity).
  rewrite T in L. exists pre, s1. split; [exact L|]. split; [exact RN|]. split; [exact R1|]. split; [exact P1|]. split; [exact RT|].
  intros U P. rewrite run_app, RN. exact (call_return_check c s1 f (a_end i) _ p P1 U P NE).
Qed.
Print Assumptions a64_call_function_partial.
(** RET with a call function leaves the lifted function. *)
Theorem a64_ret_function : forall `{FpuOps} c cfg i s g g' f, k_ctx c i s g -> al_call cfg = Some f -> a_op i = A_RET ->
  kcall (al_clobber cfg) i g = Some g' ->
  exists l s', lift_a64 cfg i = Some (true, l) /\ run c s l = Ok s' /\ krel s' g' /\ pc_value c (s_pc s') 0 = Ok (V (TInt 64) (k_pc g')) /\ s_ret s' = true.
Proof.
  intros F c cfg i s g g' f C NC O E. destruct (kcall_corner _ _ _ _ E) as (A & B & D).
  destruct (step_prefix c cfg i s g g' C A B D) as (pre & s1 & L & RN & R1 & P1 & RT).
  unfold ktail in L. rewrite O, NC in L. exists (pre ++ [SRet]). eexists. split; [exact L|]. split; [rewrite run_app, RN; cbn [bind run run1]; reflexivity|].
  split; [|split; [exact P1|reflexivity]]. destruct R1; split; assumption.
Qed.
Print Assumptions a64_ret_function.
(** F34: BLR x30 reads x30 only after writing the return address to it: it always
    continues behind itself. *)
Theorem a64_blr_x30_refuted : forall `{FpuOps} c cfg i s g g', krel s g -> k_pc g = addr_pc_base c (a_start i) -> a_op i = A_BLR -> a_rn i = RX 30 ->
  kcall (al_clobber cfg) i g = Some g' -> al_call cfg = None ->
  exists l s', lift_a64 cfg i = Some (true, l) /\ run c s l = Ok s' /\ pc_value c (s_pc s') 0 = Ok (V (TInt 64) (U 64 (k_pc g + 4))) /\
    (U 64 (k_x g 30) <> U 64 (k_pc g + 4) -> pc_value c (s_pc s') 0 <> Ok (V (TInt 64) (k_pc g'))).
Proof.
  intros F c cfg i s g g' R PC O N E NC. destruct (blr_x30 c cfg i g PC O N) as (l & L & T). unfold ktail in L. rewrite O, NC, app_nil_r in L.
  destruct (T s R) as (s' & RN & D1 & D2 & D3 & D4). exists l, s'. split; [exact L|]. split; [exact RN|]. rewrite D2.
  split; [exact D3|]. intros NE Q. rewrite D3 in Q. unfold kcall in E. rewrite O, N in E.
  apply (f_equal (fun o => match o with Some x => k_pc x | None => 0 end)) in E. cbv beta iota in E. rewrite <- E in Q.
  apply NE. cbn [wrpc k_pc rdx] in Q. injection Q as Q. unfold rdx in Q. change U with trunc in *. rewrite (trunc_trunc 64 (k_x g 30)) in Q by lia. symmetry. exact Q.
Qed.
Print Assumptions a64_blr_x30_refuted.
Example a64_branch_nv : let i := ai32 A_TBNZ in let g := kex (fun n => 0x20 + n) true 0x1000 in
  k_ctx c_a i (kst_of g) g /\ kbr i g = Some 0x1040.
Proof. split; [apply kctx_ex; reflexivity|reflexivity]. Qed.
Example a64_call_nv : let i := ai A_BLR in let g := kex (fun n => 0x2000 + n) true 0x1000 in
  k_ctx c_a i (kst_of g) g /\ exists g', kcall true i g = Some g' /\ k_pc g' = 0x2001 /\ k_x g' 30 = 0x1004 /\ k_f g' fZ = None.
Proof. split; [apply kctx_ex; reflexivity|]. eexists. split; [reflexivity|]. repeat split; reflexivity. Qed.
Example a64_blr_x30_nv : let i := AInst A_BLR false false RZR (RX 30) RZR RZR RZR RZR 0 0 SH_LSL 0 UXTX 0 0 0 0 0 0 AM_SIMPLE UXTX FSZ_D 0 0 0 0 0x1000 in
  let g := kex (fun n => 0x2000 + n) true 0x1000 in
  krel (kst_of g) g /\ k_pc g = addr_pc_base c_a (a_start i) /\ (exists g', kcall false i g = Some g') /\ U 64 (k_x g 30) <> U 64 (k_pc g + 4).
Proof. split; [apply krel_ex|]. split; [reflexivity|]. split; [eexists; reflexivity|discriminate]. Qed.

(** ** C12: position-independent AArch64 code *)
(** SVC leaves the absolute address of the next instruction in the PC, which is the
    run-time one only without a PC base or at the lift-time base. *)
Theorem a64_svc_partial : forall `{FpuOps} c cfg i s g, krel s g -> a_op i = A_SVC ->
  exists pre s1, lift_a64 cfg i = Some (true, pre ++ match al_syscall cfg with Some f => [SCall f] | None => [] end) /\
    run c s pre = Ok s1 /\ krel s1 (wrpc g (a_end i)) /\ pc_value c (s_pc s1) 0 = Ok (V (TInt 64) (a_end i)) /\ s_ret s1 = s_ret s.
Proof.
  intros F c cfg i s g R O. destruct (svc_step c cfg i g O) as (l & L & T). unfold ktail in L. rewrite O in L.
  destruct (T s R) as (s' & RN & D1 & D2 & D3 & D4). exists l, s'. split; [exact L|]. split; [exact RN|]. split; [exact D1|]. rewrite D2. split; [|exact D4]. reflexivity.
Qed.
Print Assumptions a64_svc_partial.
(** Refuted in position-independent mode for SVC and for unsupported instructions. *)
Theorem a64_pic_svc_refuted : forall `{FpuOps} c cfg i s g b, krel s g -> a_op i = A_SVC -> inr 64 (a_end i) -> c_pcbase c = Some b ->
  b mod 2^64 <> c_pcbase_addr c mod 2^64 ->
  exists pre s1, lift_a64 cfg i = Some (true, pre ++ match al_syscall cfg with Some f => [SCall f] | None => [] end) /\
    run c s pre = Ok s1 /\ pc_value c (s_pc s1) 0 <> Ok (V (TInt 64) (runtime_addr c (a_end i))).
Proof.
  intros F c cfg i s g b R O SI B N. destruct (a64_svc_partial c cfg i s g R O) as (pre & s1 & L & RN & _ & P & _).
  exists pre, s1. split; [exact L|]. split; [exact RN|]. rewrite P. intro Q. injection Q as Q. apply N. unfold runtime_addr in Q. rewrite B in Q. unfold inr in SI. clear - SI Q. lia.
Qed.
Print Assumptions a64_pic_svc_refuted.
Theorem a64_pic_unsupported_refuted : forall `{FpuOps} c cfg i s b, a_op i = A_OTHER -> inr 64 (a_start i) -> c_pcbase c = Some b ->
  exists l s', lift_a64 cfg i = Some (false, l) /\ run c s l = Ok s' /\ pc_value c (s_pc s') 0 = Ok (V (TInt 64) (a_start i)) /\
    (b mod 2^64 <> c_pcbase_addr c mod 2^64 -> a_start i <> runtime_addr c (a_start i)).
Proof.
  intros F c cfg i s b O SI B. unfold lift_a64, lift_op. rewrite O. eexists _, _. split; [reflexivity|].
  split; [cbn; reflexivity|]. split; [cbn; rewrite trunc_small by assumption; reflexivity|]. intros N Q. apply N.
  unfold runtime_addr in Q. rewrite B in Q. unfold inr in SI. clear - SI Q. lia.
Qed.
Print Assumptions a64_pic_unsupported_refuted.
Example a64_pic_nv : krel (kst_of (kex (fun n => n) true 0x555000)) (kex (fun n => n) true 0x555000) /\ c_pcbase c_apic = Some 0x555000 /\
  0x555000 mod 2^64 <> c_pcbase_addr c_apic mod 2^64 /\
  k_ctx c_apic (ai A_ADRP) (kst_of (kex (fun n => n) true 0x555000)) (kex (fun n => n) true 0x555000).
Proof. split; [apply krel_ex|]. split; [reflexivity|]. split; [discriminate|]. split; [reflexivity|apply krel_ex|reflexivity|reflexivity|intros f _; discriminate]. Qed.

(** ** C53: loads, stores and addressing *)
Theorem a64_mem_correct : forall `{FpuOps} c cfg i s g g', k_ctx c i s g -> kmem i g = Some g' -> k_lifts c cfg i s (wrpc g' (k_pc g + 4)).
Proof.
  intros F c cfg i s g g' C E. apply (step_ok c cfg i s g); [exact C| | | |].
  - unfold kmem in E. unfold kdef, adc_corner, simd_def. cbv zeta. destruct (a_op i); (discriminate E || (split; [reflexivity|exact I])).
  - unfold kmem in E. intro O. rewrite O in E. discriminate E.
  - unfold kstep. rewrite E. unfold kmem in E. unfold kdp, kcmp, kbr, kcall. cbv zeta. destruct (a_op i); (discriminate E || reflexivity).
  - unfold kmem in E. unfold ktail. destruct (a_op i); (discriminate E || reflexivity).
Qed.
Print Assumptions a64_mem_correct.
(** Pre-indexed load with writeback of SP; register-offset load, signed byte. *)
Example a64_mem_nv : let i := AInst A_LDP false false (RX 3) RSP RZR RZR (RX 5) RZR (-16) 0 SH_LSL 0 UXTX 0 0 0 0 0 0 AM_PRE UXTX FSZ_D 0 0 0 0 0x1000 in
  let g := kex (fun n => 0x2000 + n) true 0x1000 in
  k_ctx c_a i (kst_of g) g /\ exists g', kmem i g = Some g' /\ k_sp g' = 0x200f /\ k_x g' 5 = 0x1e1d1c1b1a191817.
Proof. split; [apply kctx_ex; reflexivity|]. eexists. split; [reflexivity|]. split; reflexivity. Qed.
Example a64_mem_nv2 : let i := AInst A_LDR true false (RX 3) (RX 1) (RX 2) RZR RZR RZR 0 0 SH_LSL 0 SXTW 0 0 0 0 0 0 AM_OFF_EXT SXTB FSZ_D 0 0 0 0 0x1000 in
  let g := kex (fun n => if n =? 2 then 0xfffffff0 else 0x2090) true 0x1000 in
  k_ctx c_a i (kst_of g) g /\ exists g', kmem i g = Some g' /\ k_x g' 3 = 0xffffff80.
Proof. split; [apply kctx_ex; reflexivity|]. eexists. split; reflexivity. Qed.

(** ** C55: system registers, barriers, register moves *)
(** Partial: FMOV between a W register and a half-precision one (refuted below), and
    DMB with a reserved domain (F37). *)
Theorem a64_sys_partial : forall `{FpuOps} c cfg i s g g', k_ctx c i s g -> ksys i g = Some g' -> k_lifts c cfg i s (wrpc g' (k_pc g + 4)).
Proof.
  intros F c cfg i s g g' C E. apply (step_ok c cfg i s g); [exact C| | | |].
  - unfold ksys in E. unfold kdef, adc_corner, simd_def. cbv zeta. destruct (a_op i); (discriminate E || (split; [reflexivity|exact I])).
  - unfold ksys in E. intro O. rewrite O in E. discriminate E.
  - unfold kstep. rewrite E. unfold ksys in E. unfold kdp, kcmp, kbr, kcall, kmem. cbv zeta. destruct (a_op i); (discriminate E || reflexivity).
  - unfold ksys in E. unfold ktail. destruct (a_op i); (discriminate E || reflexivity).
Qed.
Print Assumptions a64_sys_partial.
Example a64_sys_nv : let i := AInst A_SYS false false (RX 3) RZR RZR RZR RZR RZR 0x1ba1 0 SH_LSL 0 UXTX 0 0 0 0 0 0 AM_SIMPLE UXTX FSZ_D 0 0 0 0 0x1000 in
  let g := kex (fun n => 0x2040 + n) true 0x1000 in
  k_ctx c_a i (kst_of g) g /\ exists g', ksys i g = Some g' /\ k_m g' 0x2041 = 0 /\ k_m g' 0x2080 = 0x80 /\ k_m g' 0x203f = 0x3f.
Proof. split; [apply kctx_ex; reflexivity|]. eexists. split; [reflexivity|]. repeat split; reflexivity. Qed.
(** F38: FMOV Hd, Wn (and Hd, Xn) writes the whole W (X) register, not its low 16 bits. *)
Theorem a64_fmov_half_refuted : forall `{FpuOps} c cfg i s g, c_arch c = AArch64 -> krel s g -> k_pc g = addr_pc_base c (a_start i) ->
  a_op i = A_FMOV_GPR2VEC -> okx (a_rd i) = true -> okx (a_rn i) = true -> okq (a_vd i) = true -> okq (a_vn i) = true -> okq (a_vm i) = true -> a_fsz i = FSZ_H ->
  exists l s' g', lift_a64 cfg i = Some (true, l) /\ run c s l = Ok s' /\ ksys i g = Some g' /\
    s_reg s' (VEC (a_vd i)) = Some (rdx g (a_rn i) (bits (a_w32 i))) /\ k_q g' (a_vd i) = rdx g (a_rn i) (bits (a_w32 i)) mod 2^16.
Proof.
  intros F c cfg i s g HA R PC O OD ON QD QN QM FS.
  set (i' := AInst A_FMOV_GPR2VEC (a_w32 i) (a_flags i) (a_rd i) (a_rn i) (a_rm i) (a_ra i) (a_rt2 i) (a_rs i) (a_imm i) (a_off i) (a_sh i) (a_amt i) (a_ext i) (a_lsl i) (a_lsb i)
    (a_width i) (a_cond i) (a_bit i) (a_nzcv i) (a_mode i) (a_mext i) (if a_w32 i then FSZ_S else FSZ_D) (a_vd i) (a_vn i) (a_vm i) (a_vt2 i) (a_start i)).
  assert (LE : lift_a64 cfg i = lift_a64 cfg i') by (unfold lift_a64, lift_op; rewrite O; reflexivity).
  assert (C : k_ctx c i' s g).
  { split; try assumption; [|intros f []]. unfold kwf, wf_sys. cbn [a_op i' a_rd a_rn a_vd a_vn a_vm a_fsz a_w32]. rewrite OD, ON, QD, QN, QM. destruct (a_w32 i); reflexivity. }
  destruct (a64_sys_partial c cfg i' s g _ C eq_refl) as (l & s' & L & RN & R1 & _).
  exists l, s'. eexists. split; [rewrite LE; exact L|]. split; [exact RN|]. split; [unfold ksys; rewrite O; reflexivity|].
  split.
  - rewrite (kr_q _ _ R1) by (unfold okq in QD; lia). cbn [wrpc wrq k_q i' a_vd a_fsz a_rn a_w32]. rewrite Z.eqb_refl. f_equal.
    fold (bits (a_w32 i)). change U with trunc. unfold bits. destruct (a_w32 i); apply trunc_small; apply rdx_inr; lia.
  - cbn [wrq k_q]. rewrite Z.eqb_refl, FS. reflexivity.
Qed.
Print Assumptions a64_fmov_half_refuted.
Example a64_fmov_half_nv : let g := kex (fun n => 0x12345 + n) true 0x1000 in
  krel (kst_of g) g /\ rdx g (RX 1) 32 <> rdx g (RX 1) 32 mod 2^16.
Proof. split; [apply krel_ex|discriminate]. Qed.

(** ** C54: every supported instruction, and straight-line code *)
Theorem a64_step_partial : forall `{FpuOps} c cfg i s g g', k_ctx c i s g -> kdef i g -> a_op i <> A_SVC ->
  kstep (al_clobber cfg) i g = Some g' -> (al_call cfg = None \/ ~ In (a_op i) [A_BL; A_BLR; A_RET]) -> k_lifts c cfg i s g'.
Proof.
  intros F c cfg i s g g' C NC NS S T. apply (step_ok c cfg i s g g' C NC NS S). unfold ktail. destruct T as [T|T].
  - rewrite T. destruct (a_op i); try reflexivity. contradiction.
  - destruct (a_op i); try reflexivity; try (exfalso; apply T; cbn [In]; tauto).
Qed.
Print Assumptions a64_step_partial.
Theorem a64_sequence_partial : forall `{FpuOps} c cfg is s g g', c_arch c = AArch64 -> is <> [] -> krel s g ->
  (forall i, In i is -> al_call cfg = None \/ ~ In (a_op i) [A_BL; A_BLR; A_RET]) -> kexec c (al_clobber cfg) is g g' ->
  exists l s', lift_all cfg is = Some l /\ run c s l = Ok s' /\ krel s' g' /\ pc_value c (s_pc s') 0 = Ok (V (TInt 64) (k_pc g')) /\ s_ret s' = s_ret s.
Proof.
  intros F c cfg is s g g' HA NE R T X. apply (seq_ok c cfg HA is s g g' NE R); [|exact X].
  clear NE R. revert g X. induction is as [|i is IH]; intros g X; constructor.
  - cbn [kexec] in X. destruct X as (g1 & _ & _ & _ & _ & NS & _). unfold ktail. destruct (T i (or_introl eq_refl)) as [Q|Q].
    + rewrite Q. destruct (a_op i); try reflexivity. contradiction.
    + destruct (a_op i); try reflexivity; try (exfalso; apply Q; cbn [In]; tauto).
  - cbn [kexec] in X. destruct X as (g1 & _ & _ & _ & _ & _ & _ & X). apply (IH (fun j J => T j (or_intror J)) g1 X).
Qed.
Print Assumptions a64_sequence_partial.
(** SUBS; B.NE with the flags of the SUBS: the loop is left when the registers are equal. *)
Example a64_sequence_nv : forall `{FpuOps},
  let i1 := AInst A_SUB_SHIFTED false true (RX 3) (RX 1) (RX 2) RZR RZR RZR 0 0 SH_LSL 0 UXTX 0 0 0 0 0 0 AM_SIMPLE UXTX FSZ_D 0 0 0 0 0x1000 in
  let i2 := AInst A_BCOND false false RZR RZR RZR RZR RZR RZR 0 (-4) SH_LSL 0 UXTX 0 0 0 1 0 0 AM_SIMPLE UXTX FSZ_D 0 0 0 0 0x1004 in
  let g := kex (fun n => 7) false 0x1000 in
  exists g', kexec c_a false [i1; i2] g g' /\ k_pc g' = 0x1008 /\ k_x g' 3 = 0.
Proof.
  intro F. eexists. split; [|split].
  - cbn [kexec]. eexists. do 3 (split; [try reflexivity; try discriminate; try (intros f []; discriminate)|]).
    split; [split; [reflexivity|exact I]|]. do 2 (split; [try reflexivity; try discriminate|]).
    + eexists. do 3 (split; [try reflexivity; try discriminate; try (intros f _; discriminate)|]).
      split; [split; [reflexivity|exact I]|]. do 2 (split; [try reflexivity; try discriminate|]). reflexivity.
  - reflexivity.
  - reflexivity.
Qed.
