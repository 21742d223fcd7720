(** Property C74: decoding and lifting mixed. *)

From Coq Require Import ZArith Lia ZifyBool List Bool Arith.
From Verif Require Import Prop_Cfg Bits IR IrMono Facet Dsl RegFile RegFileOk RegScript Layout Cfg CfgHeap CfgLog CfgBuild CfgSem Decode DecodeOk DecodeRv
  Rv64 Rv64Spec Rv64Sim Rv64Step LiftFn LiftSim LiftRv Rv64Ex Prop_Lift A64 A64Spec A64Sim LiftA64 Prop_LiftA64 Lower LowerOk LowerSem IrWf LowerEx IrExec Prop_Ir.
From Verif Require Import Prop_Cfg Bits IR IrMono Facet Dsl RegFile RegFileOk RegScript Layout Cfg CfgHeap CfgLog CfgBuild CfgSem Decode DecodeOk Rv64 Rv64Spec Rv64Sim LiftRv
  X86 X86Spec X86Sim X86Step X86StrSpec X86Run X86Sse X86SseSpec X86SseSim X86SseOps X86SseStep X86SseMain X86SseTop X86Ex LiftFn LiftSim LiftX86 Prop_Sse Prop_LiftX86 Lower LowerOk LowerSem IrWf LowerEx IrExec LowerX86 Prop_Ir.
From Verif Require Import Prop_IrX86 Relift.
Import ListNotations.
Open Scope Z_scope.

Lemma goto_same : forall {LA : lang} Ins s t bs a x, same Ins s t -> goto (LA := LA) Ins s bs a x = goto (LA := LA) Ins t bs a x.
Proof. intros LA Ins s t bs a x M. unfold goto. rewrite (resolve_same _ _ _ M). reflexivity. Qed.
Lemma lsteps_same : forall `{FpuOps} {LA : lang} Ins c s t bs, same Ins s t -> forall n x, lsteps (LA := LA) Ins c s bs n x = lsteps (LA := LA) Ins c t bs n x.
Proof.
  intros F LA Ins c s t bs M. induction n as [|n IH]; intro x; [reflexivity|]. cbn [lsteps].
  assert (E : lstep Ins c s bs x = lstep Ins c t bs x).
  { destruct x as [[|[[i d] code] l] [] y|y]; cbn [lstep]; try reflexivity. destruct (pc_branch c (s_pc y)) as [[[k a1] a2]| |]; cbn [bind]; try reflexivity.
    destruct (target k a1 a2); cbn [bind]; try reflexivity. apply goto_same, M. }
  rewrite E. destruct (lstep Ins c t bs x); cbn [bind]; [apply IH|reflexivity..].
Qed.

(** Any sequence of decode and lift calls on one function object leaves what the decode
    calls alone leave, but for the counts of predecessors, which never get lower: the
    code ranges, the instructions, the block starts. *)
Theorem lift_keeps_decoded : forall Ins ilen icls t, used Ins ilen icls t -> exists s, decoded Ins ilen icls s /\
  f_ins _ s = f_ins _ t /\ f_ranges _ s = f_ranges _ t /\ (forall a, resolve Ins s a = resolve Ins t a) /\ forall a, (e_preds (f_map _ s a) <= e_preds (f_map _ t a))%nat.
Proof.
  intros Ins ilen icls t U. destruct (used_same Ins ilen icls t U) as (s & D & M). exists s. split; [exact D|]. split; [apply M|]. split; [apply M|].
  split; [apply resolve_same, M|]. intro a. apply (sm_map _ _ _ M a).
Qed.
Print Assumptions lift_keeps_decoded.

(** The function that any of the lift calls emits simulates the guest (as C61, for
    a function object used in any way before). As in C61 the emitted function is
    assumed to exist ([lower], [finish]). *)
Theorem rv64_relift_partial : forall `{FpuOps} c cfg kc fetch ds a0 bs g0 cfold gcache M npc is_undef fuel ord L S0 p0 m0,
  c_arch c = RV64 -> gbase_ok c -> LiftRv.ext_ok c -> LowerSem.ext_ok c ->
  used rvinst r_len rv_cls ds ->
  (forall d, In d (f_ins _ ds) -> r_start (d_i _ d) = d_start _ d /\ fetch (addr_pc_base c (d_start _ d)) = Some (d_i _ d)) ->
  rlift c cfg kc true (f_ins _ ds) = LFn (a0, bs) ->
  lower c rvinst ds a0 cfold gcache bs = Some (M, npc) ->
  undef_sound RV64 is_undef -> all_blocks (m_f M) ord -> Cfg.finish RV64 is_undef fuel (m_f M) ord = Some L -> fold_ok c M npc L S0 p0 m0 ->
  rv_holds S0 m0 g0 -> rv_range g0 -> g_pc g0 = addr_pc_base c a0 ->
  (forall i s, visits rvinst c ds a0 bs (rv_st0 g0 m0) i s -> kc_sound (kc i) s) ->
  (forall k g i, gsteps (rv_step c cfg fetch) k g0 g -> fetch (g_pc g) = Some i -> rv_good c cfg i g) ->
  ~ ifail c M npc L S0 p0 m0 /\
  forall S p mem, ireturn c M npc L S0 p0 m0 S p mem ->
    exists k g, gsteps (rv_step c cfg fetch) k g0 g /\ rv_holds S mem g /\ p = V (TInt 64) (g_pc g).
Proof.
  intros F c cfg kc fetch ds a0 bs g0 cfold gcache M npc is_undef fuel ord L S0 p0 m0 HA GB EX EM D FE LI LO US AB FIN FO HO0 RG0 P0 KC GD.
  destruct (used_same rvinst r_len rv_cls ds D) as (s0 & D0 & M0). pose proof (sm_ins _ _ _ M0) as EI. rewrite <- EI in FE, LI.
  assert (KC0 : forall i s, visits rvinst c s0 a0 bs (rv_st0 g0 m0) i s -> kc_sound (kc i) s).
  { intros i s (n & x & d & code & sg & e & V1 & V2). apply KC. exists n, x, d, code, sg, e. unfold enter in *. rewrite <- (goto_same _ _ _ _ _ _ M0), <- (lsteps_same _ _ _ _ _ M0). auto. }
  destruct (rv64_setup c cfg kc fetch s0 a0 bs g0 S0 m0 HA GB EX D0 FE LI HO0 RG0 P0 KC0 GD) as (x0 & E0 & SI & RG).
  rewrite (goto_same _ _ _ _ _ _ M0) in E0.
  assert (SJ : forall n x, lsteps (LA := plain_lang) rvinst c s0 bs n x0 = Ok x -> lsteps (LA := plain_lang) rvinst c ds bs n x0 = Ok x) by (intros n x Q; rewrite <- Q; symmetry; apply lsteps_same, M0).
  assert (HO : forall n, exists x, lsteps (LA := plain_lang) rvinst c ds bs n x0 = Ok x) by (intro n; destruct (SI n) as (x & E & _); exists x; apply SJ, E).
  rewrite <- HA in US, FIN.
  destruct (emitted_code_refines_statements c rvinst ds a0 cfold gcache bs M npc is_undef fuel ord L S0 p0 m0 (rv_st0 g0 m0) x0 LO US AB FIN EM FO E0 HO eq_refl RG) as [NF RT].
  split; [exact NF|]. intros S p mem IR. destruct (RT S p mem IR) as (n & s & v & ST & SM & SR & PV & PL).
  destruct (SI n) as (x & E & X). apply SJ in E. rewrite E in ST. injection ST as ->. destruct X as (k & g & GS & [RX RXR RF RFR RM] & PC).
  exists k, g. split; [exact GS|]. rewrite HA in SR. destruct rv_mapped as [MG MV]. split; [split; [|split]|].
  - intros n' I0. apply (SR (GP n')); [left; apply MG; lia|]. apply RX. lia.
  - intros n' I0. apply (SR (VEC n')); [left; apply MV; lia|]. apply RF.
  - intro y. rewrite <- SM. apply RM.
  - unfold pc_at in PC. rewrite PC in PV. injection PV as <-. destruct PL as [<-|Q]; [reflexivity|discriminate].
Qed.
Print Assumptions rv64_relift_partial.
Theorem a64_relift_partial : forall `{FpuOps} c cfg unk fetch ds a0 bs g0 cfold gcache M npc is_undef fuel ord L S0 p0 m0,
  c_arch c = AArch64 -> kext_ok c -> LowerSem.ext_ok c ->
  used ainst a_len (a_cls unk) ds ->
  (forall d, In d (f_ins _ ds) -> a_start (d_i _ d) = d_start _ d /\ fetch (addr_pc_base c (d_start _ d)) = Some (d_i _ d)) ->
  alift cfg true (f_ins _ ds) = LFn (a0, bs) ->
  lower c ainst ds a0 cfold gcache bs = Some (M, npc) ->
  undef_sound AArch64 is_undef -> all_blocks (m_f M) ord -> Cfg.finish AArch64 is_undef fuel (m_f M) ord = Some L -> fold_ok c M npc L S0 p0 m0 ->
  a64_holds S0 m0 g0 -> a64_range g0 -> k_pc g0 = addr_pc_base c a0 ->
  (forall k g i, gsteps (a64_step c cfg fetch) k g0 g -> fetch (k_pc g) = Some i -> a64_good c cfg i g) ->
  ~ ifail c M npc L S0 p0 m0 /\
  forall S p mem, ireturn c M npc L S0 p0 m0 S p mem ->
    exists k g, gsteps (a64_step c cfg fetch) k g0 g /\ a64_holds S mem g /\ p = V (TInt 64) (k_pc g).
Proof.
  intros F c cfg unk fetch ds a0 bs g0 cfold gcache M npc is_undef fuel ord L S0 p0 m0 HA EX EM D FE LI LO US AB FIN FO HO0 RG0 P0 GD.
  destruct (used_same ainst a_len (a_cls unk) ds D) as (s0 & D0 & M0). pose proof (sm_ins _ _ _ M0) as EI. rewrite <- EI in FE, LI.
  destruct (a64_setup c cfg unk fetch s0 a0 bs g0 S0 m0 HA EX D0 FE LI HO0 RG0 P0 GD) as (x0 & E0 & SI & RG).
  rewrite (goto_same _ _ _ _ _ _ M0) in E0.
  assert (SJ : forall n x, lsteps (LA := plain_lang) ainst c s0 bs n x0 = Ok x -> lsteps (LA := plain_lang) ainst c ds bs n x0 = Ok x) by (intros n x Q; rewrite <- Q; symmetry; apply lsteps_same, M0).
  assert (HO : forall n, exists x, lsteps (LA := plain_lang) ainst c ds bs n x0 = Ok x) by (intro n; destruct (SI n) as (x & E & _); exists x; apply SJ, E).
  rewrite <- HA in US, FIN.
  destruct (emitted_code_refines_statements c ainst ds a0 cfold gcache bs M npc is_undef fuel ord L S0 p0 m0 (a64_st0 g0 m0) x0 LO US AB FIN EM FO E0 HO eq_refl RG) as [NF RT].
  split; [exact NF|]. intros S p mem IR. destruct (RT S p mem IR) as (n & s & v & ST & SM & SR & PV & PL).
  destruct (SI n) as (x & E & X). apply SJ in E. rewrite E in ST. injection ST as ->. destruct X as (k & g & GS & [RX RXR RSP RSPR RF RQ RQR RTP RTPR RM] & PC).
  exists k, g. split; [exact GS|]. rewrite HA in SR. destruct a64_mapped as (MG & MV & MF). split; [split; [|split; [|split; [|split; [|split]]]]|].
  - intros n' I0. apply (SR (GP n')); [left; apply MG; lia|]. apply RX. lia.
  - apply (SR (GP 31)); [left; apply MG; lia|]. exact RSP.
  - intros f b Q. apply (SR (kcell f)); [left; apply MF|]. apply RF. exact Q.
  - intros n' I0. apply (SR (VEC n')); [left; apply MV; lia|]. apply RQ. exact I0.
  - intro y. rewrite <- SM. apply RM.
  - apply (SR TPIDR); [right; reflexivity|]. exact RTP.
  - unfold kpc_at in PC. rewrite PC in PV. injection PV as <-. destruct PL as [<-|Q]; [reflexivity|discriminate].
Qed.
Print Assumptions a64_relift_partial.
Theorem x86_relift_partial : forall `{FpuOps} c cfg rel kc kcp kd unk fetch ds a0 bs bs' g0 cfold gcache M npc is_undef fuel ord L S0 p0 m0,
  c_arch c = X86_64 -> gbase_ok c -> zext_ok c -> LowerSem.ext_ok c -> fpu_std rel ->
  used zinst z_len (x_cls unk) ds ->
  (forall d, In d (f_ins _ ds) -> z_start (d_i _ d) = d_start _ d /\ fetch (addr_pc_base c (d_start _ d)) = Some (d_i _ d)) ->
  lift zinst (x_lf c cfg kc kcp kd) true (f_ins _ ds) = LFn (a0, bs) ->
  xplain_blks zinst bs = Some bs' ->
  lower c zinst ds a0 cfold gcache bs' = Some (M, npc) ->
  undef_sound X86_64 is_undef -> all_blocks (m_f M) ord -> Cfg.finish X86_64 is_undef fuel (m_f M) ord = Some L -> fold_ok c M npc L S0 p0 m0 ->
  x86_holds S0 m0 g0 -> x86_range g0 -> y_ip (z_x g0) = addr_pc_base c a0 ->
  (forall k g n d, gsteps (zstep c cfg rel fetch) k g0 g -> nth_error (f_ins _ ds) n = Some d -> y_ip (z_x g) = addr_pc_base c (d_start _ d) ->
     z_good c cfg rel (kc n) (kcp n) (kd n) (d_i _ d) g) ->
  ~ ifail c M npc L S0 p0 m0 /\
  forall S p mem, ireturn c M npc L S0 p0 m0 S p mem ->
    exists k g, gsteps (zstep c cfg rel fetch) k g0 g /\ x86_holds S mem g /\ p = V (TInt 64) (y_ip (z_x g)).
Proof.
  intros F c cfg rel kc kcp kd unk fetch ds a0 bs bs' g0 cfold gcache M npc is_undef fuel ord L S0 p0 m0 HA GB EX EM FS D FE LI PL0 LO US AB FIN FO HO0 RG0 P0 GD.
  destruct x86_mapped as (MG & MV & MF).
  destruct (used_same zinst z_len (x_cls unk) ds D) as (s0 & D0 & M0). pose proof (sm_ins _ _ _ M0) as EI. rewrite <- EI in FE, LI, GD.
  destruct (x86_setup c cfg rel kc kcp kd unk fetch s0 a0 bs bs' g0 S0 m0 HA GB EX FS D0 FE LI PL0 HO0 RG0 P0 GD) as (x0 & E0 & SI & RG).
  rewrite (goto_same _ _ _ _ _ _ M0) in E0.
  assert (SJ : forall n x, lsteps (LA := plain_lang) zinst c s0 bs' n x0 = Ok x -> lsteps (LA := plain_lang) zinst c ds bs' n x0 = Ok x) by (intros n x Q; rewrite <- Q; symmetry; apply lsteps_same, M0).
  assert (HO : forall n, exists x, lsteps (LA := plain_lang) zinst c ds bs' n x0 = Ok x) by (intro n; destruct (SI n) as (x & E & _); exists x; apply SJ, E).
  rewrite <- HA in US, FIN.
  destruct (emitted_code_refines_statements c zinst ds a0 cfold gcache bs' M npc is_undef fuel ord L S0 p0 m0 (x86_st0 S0 g0 m0) x0 LO US AB FIN EM FO E0 HO eq_refl RG) as [NF RT].
  split; [exact NF|]. intros S p mem IR. destruct (RT S p mem IR) as (n & s & v & ST & SM & SR & PV & PL).
  destruct (SI n) as (x & E & X). apply SJ in E. rewrite E in ST. injection ST as ->. destruct X as (k & g & GS & [[RX _ RFS _ RGS _ RF RM] RQ] & PC). subst mem.
  exists k, g. split; [exact GS|]. rewrite HA in SR. split; [split; [|split; [|split; [|split; [|split]]]]|].
  - intros n' I0. apply (SR (GP n')); [left; apply MG; lia|]. apply RX. exact I0.
  - intros f b Q. specialize (RF f b Q). destruct f; cbn [flag_is] in RF; try (apply (SR (cell _) (or_introl (MF _))); exact RF).
    destruct RF as (z & Z1 & Z2 & Z3). exists z. split; [apply (SR (cell fPF) (or_introl (MF fPF))); exact Z1|]. split; assumption.
  - intros n' I0. apply (SR (VEC n')); [left; apply MV; lia|]. apply RQ. exact I0.
  - intro y. apply RM.
  - apply (SR FSBASE); [right; reflexivity|]. exact RFS.
  - apply (SR GSBASE); [right; reflexivity|]. exact RGS.
  - unfold zpc_at in PC. rewrite PC in PV. injection PV as <-. destruct PL as [<-|Q]; [reflexivity|discriminate].
Qed.
Print Assumptions x86_relift_partial.

(** Hypotheses met: the loop of Prop_Ir.v, lifted for the third time. *)
Lemma decoded_used : forall Ins ilen icls s, decoded Ins ilen icls s -> used Ins ilen icls s.
Proof. intros Ins ilen icls s D. induction D; [constructor|eapply used_dec; eassumption]. Qed.
Definition ds_again : dst rvinst := lift_eff rvinst (lift_eff rvinst ds_loop).
Definition low_again := lower c_ret rvinst ds_again 0x1000 (fun _ _ => None) (fun _ => true) bs_loop.
Definition em_again : em := match low_again with Some (m, _) => m | None => em0 end.
Definition npc_again : nat := match low_again with Some (_, n) => n | None => O end.
Definition ord_again : list nat := seq 0 (f_nb (m_f em_again)).
Definition fin_again := Cfg.finish RV64 (fun _ => false) 40 (m_f em_again) ord_again.
Definition L_again : lifted := match fin_again with Some l => l | None => Lifted fn0 [] [] [] end.
Example ex_again_shape : e_preds (f_map _ ds_loop 0x1000) = 1%nat /\ e_preds (f_map _ ds_again 0x1000) = 3%nat /\ f_nb (m_f em_again) = 5%nat /\ m_fold em_again = [].
Proof. vm_compute. repeat split; reflexivity. Qed.
Lemma low_again_eq : lower c_ret rvinst ds_again 0x1000 (fun _ _ => None) (fun _ => true) bs_loop = Some (em_again, npc_again).
Proof.
  assert (X : match low_again with Some _ => true | None => false end = true) by (vm_compute; reflexivity).
  unfold em_again, npc_again, low_again in *. destruct (lower _ _ _ _ _ _ _) as [[m n]|]; [reflexivity|discriminate].
Qed.
Lemma fin_again_eq : Cfg.finish RV64 (fun _ => false) 40 (m_f em_again) ord_again = Some L_again.
Proof.
  assert (X : match fin_again with Some _ => true | None => false end = true) by (vm_compute; reflexivity).
  unfold L_again, fin_again in *. destruct (Cfg.finish _ _ _ _ _); [reflexivity|discriminate].
Qed.
Example relift_returns_nv : exists S p mem, @ireturn fpu0 c_ret em_again npc_again L_again S_loop p_start (fun _ => 0) S p mem /\
  S (GP 5) = V (TInt 64) 0 /\ S (GP 1) = V (TInt 64) 0x1008 /\ p = V (TInt 64) 0x1008.
Proof.
  assert (X : match @calli fpu0 c_ret em_again npc_again L_again 40 S_loop p_start (fun _ => 0) with
              | Some (SS, p, _) => SS (GP 5) = V (TInt 64) 0 /\ SS (GP 1) = V (TInt 64) 0x1008 /\ p = V (TInt 64) 0x1008 | None => False end)
    by (vm_compute; repeat split; reflexivity).
  destruct (@calli fpu0 c_ret em_again npc_again L_again 40 S_loop p_start (fun _ => 0)) as [[[SS p] mem]|] eqn:E; [|contradiction].
  exists SS, p, mem. split; [|exact X]. apply (@calli_ok fpu0 c_ret em_again npc_again L_again S_loop p_start (fun _ => 0) 40 SS p mem S_loop_ok E).
Qed.
Example relift_nv :
  ~ @ifail fpu0 c_ret em_again npc_again L_again S_loop p_start (fun _ => 0) /\
  forall S p mem, @ireturn fpu0 c_ret em_again npc_again L_again S_loop p_start (fun _ => 0) S p mem ->
    exists k g, gsteps (@rv_step fpu0 c_ret cfg_call (prog p_loop)) k g_start g /\ rv_holds S mem g /\ p = V (TInt 64) (g_pc g).
Proof.
  apply (@rv64_relift_partial fpu0 c_ret cfg_call (fun _ => kc_ex) (prog p_loop) ds_again 0x1000 bs_loop g_start (fun _ _ => None) (fun _ => true)
           em_again npc_again (fun _ => false) 40 ord_again L_again S_loop p_start (fun _ => 0)).
  - reflexivity.
  - exact I.
  - exact (ext_ret).
  - exact ext_ret_mono.
  - do 2 apply used_lift. apply decoded_used. exact (decoded_cf_decoded _ _ _ _ _ (decoded_all_cf _ _ _ _ _ ds_loop_decoded)).
  - intros d I0. vm_compute in I0. repeat (destruct I0 as [<-|I0]; [split; reflexivity|]). destruct I0.
  - reflexivity.
  - exact low_again_eq.
  - intros v Q. discriminate.
  - intro b. unfold ord_again. rewrite in_seq. lia.
  - exact fin_again_eq.
  - intros k e S p mem mem' x z _ _ I0. destruct ex_again_shape as (_ & _ & _ & E). rewrite E in I0. destruct I0.
  - split; [|split]; intros; reflexivity.
  - split; intros; cbn [g_start g_x g_f]; [destruct (n =? 5)|]; split; vm_compute; congruence.
  - reflexivity.
  - intros i s _ r z Q. discriminate.
  - apply (@p_loop_good fpu0). reflexivity.
Qed.
