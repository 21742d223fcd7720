(** Property C61: functions that read TPIDR_EL0 (AArch64) or the base of FS (x86-64)
    from the CPU struct; instances of the theorems of Prop_Ir.v and Prop_IrX86.v. *)

From Coq Require Import ZArith Lia ZifyBool List Bool Arith Cantor.
From Verif Require Import Prop_Cfg Bits IR IrMono Facet Dsl RegFile RegFileOk RegScript Layout Cfg CfgHeap CfgLog CfgBuild CfgSem Decode DecodeOk Rv64 Rv64Spec Rv64Sim Rv64Ex LiftRv Prop_Lift
  A64 A64Spec A64Sim LiftA64 Prop_LiftA64
  X86 X86Spec X86Sim X86Step X86StrSpec X86Run X86Sse X86SseSpec X86SseSim X86SseOps X86SseStep X86SseMain X86SseTop X86Ex LiftFn LiftSim LiftX86 Prop_Sse Prop_LiftX86 Lower LowerOk LowerSem IrWf LowerEx IrExec LowerX86 Prop_Ir Prop_IrX86.
Import ListNotations.
Open Scope Z_scope.

(** 1000 mrs x3,tpidr_el0; 1004 ret x30 *)
Definition ap_tp : list ainst := [amk A_MRS (RX 3) (RX 0) 0xde82 0 0x1000; amk A_RET (RX 0) (RX 30) 0 0 0x1004].
Definition ads_tp : dst ainst :=
  match decode ainst a_len (a_cls aunk) (aprog ap_tp) MAll true 20 (dst0 _) 0x1000 with Some (Some s) => s | _ => dst0 _ end.
Definition abs_tp : list (lblock (LA := plain_lang) ainst) := match alift acfg_call true (f_ins _ ads_tp) with LFn (_, bs) => bs | _ => [] end.
Definition low_tp := lower ac_ret ainst ads_tp 0x1000 (fun _ _ => None) (fun _ => true) abs_tp.
Definition em_tp : em := match low_tp with Some (m, _) => m | None => em0 end.
Definition npc_tp : nat := match low_tp with Some (_, n) => n | None => O end.
Definition ord_tp : list nat := seq 0 (f_nb (m_f em_tp)).
Definition fin_tp := Cfg.finish AArch64 (fun _ => false) 40 (m_f em_tp) ord_tp.
Definition L_tp : lifted := match fin_tp with Some l => l | None => Lifted fn0 [] [] [] end.
(** TPIDR_EL0 is 7777. *)
Definition S_tp : slots := fun r => match r with GP n => V (nty AArch64 r) (if n =? 256 then 0x7777 else 0x9000) | VEC _ => V (nty AArch64 r) 0 | FLAG _ => Poison (nty AArch64 r) end.
Definition g_tp : kst := Kst (fun n => 0x9000) 0x9000 (fun _ => None) (fun _ => 0) 0x7777 0x1000 (fun _ => 0).
Lemma low_tp_eq : lower ac_ret ainst ads_tp 0x1000 (fun _ _ => None) (fun _ => true) abs_tp = Some (em_tp, npc_tp).
Proof.
  assert (X : match low_tp with Some _ => true | None => false end = true) by (vm_compute; reflexivity).
  unfold em_tp, npc_tp, low_tp in *. destruct (lower _ _ _ _ _ _ _) as [[m n]|]; [reflexivity|discriminate].
Qed.
Lemma fin_tp_eq : Cfg.finish AArch64 (fun _ => false) 40 (m_f em_tp) ord_tp = Some L_tp.
Proof.
  assert (X : match fin_tp with Some _ => true | None => false end = true) by (vm_compute; reflexivity).
  unfold L_tp, fin_tp in *. destruct (Cfg.finish _ _ _ _ _); [reflexivity|discriminate].
Qed.
Lemma S_tp_ok : slots_ok AArch64 S_tp.
Proof.
  intros []; split; try reflexivity; cbn [S_tp wf_rv]; try exact I; unfold inr.
  - destruct (i =? 256); vm_compute; split; congruence.
  - vm_compute; split; congruence.
Qed.
Example ex_tp_returns : exists S p mem, @ireturn fpu0 ac_ret em_tp npc_tp L_tp S_tp p_start (fun _ => 0) S p mem /\
  S (GP 3) = V (TInt 64) 0x7777 /\ S TPIDR = V (TInt 64) 0x7777 /\ p = V (TInt 64) 0x9000.
Proof.
  assert (X : match @calli fpu0 ac_ret em_tp npc_tp L_tp 40 S_tp p_start (fun _ => 0) with
              | Some (SS, p, _) => SS (GP 3) = V (TInt 64) 0x7777 /\ SS TPIDR = V (TInt 64) 0x7777 /\ p = V (TInt 64) 0x9000 | None => False end)
    by (vm_compute; repeat split; reflexivity).
  destruct (@calli fpu0 ac_ret em_tp npc_tp L_tp 40 S_tp p_start (fun _ => 0)) as [[[SS p] mem]|] eqn:E; [|contradiction].
  exists SS, p, mem. split; [|exact X]. apply (@calli_ok fpu0 ac_ret em_tp npc_tp L_tp S_tp p_start (fun _ => 0) 40 SS p mem S_tp_ok E).
Qed.
Example ex_tp_simulates :
  ~ @ifail fpu0 ac_ret em_tp npc_tp L_tp S_tp p_start (fun _ => 0) /\
  forall S p mem, @ireturn fpu0 ac_ret em_tp npc_tp L_tp S_tp p_start (fun _ => 0) S p mem ->
    exists k g, gsteps (@a64_step fpu0 ac_ret acfg_call (aprog ap_tp)) k g_tp g /\ a64_holds S mem g /\ p = V (TInt 64) (k_pc g).
Proof.
  apply (@a64_emitted_code_simulates fpu0 ac_ret acfg_call aunk (aprog ap_tp) ads_tp 0x1000 abs_tp g_tp (fun _ _ => None) (fun _ => true)
           em_tp npc_tp (fun _ => false) 40%nat ord_tp L_tp S_tp p_start (fun _ => 0)).
  - reflexivity.
  - exact kext_ret.
  - intros f u u' (A1 & A2 & A3). split; [|split]; cbn; [apply A2; left; apply a64_mapped; lia|exact A2|exact A3].
  - apply decoded_cf_decoded with (a_has_call acfg_call). apply decoded_all_cf.
    eapply (decoded_all1 _ _ _ _ _ (aprog ap_tp) 20 0x1000); [apply decoded_all0|]. vm_compute. reflexivity.
  - intros d I0. vm_compute in I0. repeat (destruct I0 as [<-|I0]; [split; reflexivity|]). destruct I0.
  - reflexivity.
  - exact low_tp_eq.
  - intros v Q. discriminate.
  - intro b. unfold ord_tp. rewrite in_seq. lia.
  - exact fin_tp_eq.
  - intros k e S p mem mem' x z _ _ I0. vm_compute in I0. destruct I0.
  - split; [|split; [|split; [|split; [|split]]]]; try reflexivity.
    + intros n N. cbn [S_tp nty rbits]. replace (n =? 256) with false by lia. reflexivity.
    + intros f b Q. discriminate.
  - split; [|split; [|split]]; cbn [g_tp k_x k_sp k_q k_tp]; try (intros n N); split; vm_compute; congruence.
  - reflexivity.
  - intros k g i _ FI. assert (IN : In i ap_tp).
    { unfold ap_tp, aprog in FI. cbn [amk a_start] in FI.
      repeat match type of FI with (if ?b then _ else _) = _ => destruct b eqn:? end; try discriminate FI; injection FI as <-; cbn; auto. }
    repeat (destruct IN as [<-|IN]; [unfold a64_good; cbn [a_unsup a_op amk]; split; [discriminate|]; split; [reflexivity|]; split; [|split; [reflexivity|exact I]]; intros fg Q; destruct Q|]). destruct IN.
Qed.

(** 1000 mov rax,fs:[8]; 1009 ret *)
Definition m_fs : xmem := XMemOp BNone None 0 8 4 8.
Definition xp_fs : list zinst := [ZG (XInst X_MOV (XReg 64 false 0) (XMem 64 m_fs) XNone 8 8 false false false 0x1000 9); xmk X_RET XNone 0x1009 1].
Definition xds_fs : dst zinst := xds xp_fs true 0x1000.
Definition xbs_fs : list (lblock (LA := xlang) zinst) :=
  match lift zinst (x_lf xc_call xcfg_call kz kz (fun _ => DNone)) true (f_ins _ xds_fs) with LFn (_, bs) => bs | _ => [] end.
Definition xbs_fsl : list (lblock (LA := plain_lang) zinst) := match xplain_blks zinst xbs_fs with Some l => l | None => [] end.
Definition low_fs := lower xc_call zinst xds_fs 0x1000 (fun _ _ => None) (fun _ => true) xbs_fsl.
Definition em_fs : em := match low_fs with Some (m, _) => m | None => em0 end.
Definition npc_fs : nat := match low_fs with Some (_, n) => n | None => O end.
Definition ord_fs : list nat := seq 0 (f_nb (m_f em_fs)).
Definition fin_fs := Cfg.finish X86_64 (fun _ => false) 80 (m_f em_fs) ord_fs.
Definition L_fs : lifted := match fin_fs with Some l => l | None => Lifted fn0 [] [] [] end.
(** The base of FS is 9000, that of GS is a000; 9008 holds 2a. *)
Definition S_fs : slots := fun r => match r with GP n => V (nty X86_64 r) (if n =? 257 then 0x9000 else 0xa000) | VEC n => V (nty X86_64 r) 0 | FLAG _ => V (nty X86_64 r) 0 end.
Definition mem_fs : bytes := fun a => if a =? 0x9008 then 0x2a else 0.
Definition g_fs : zst := Zst (Xst (fun n => 0xa000) (fun f => match f with fPF => Some true | _ => Some false end) 0x9000 0xa000 0x1000 mem_fs) (fun n => 0).
Lemma xbs_fs_eq : xplain_blks zinst xbs_fs = Some xbs_fsl.
Proof.
  assert (X : match xplain_blks zinst xbs_fs with Some _ => true | None => false end = true) by (vm_compute; reflexivity).
  unfold xbs_fsl. destruct (xplain_blks zinst xbs_fs); [reflexivity|discriminate].
Qed.
Lemma low_fs_eq : lower xc_call zinst xds_fs 0x1000 (fun _ _ => None) (fun _ => true) xbs_fsl = Some (em_fs, npc_fs).
Proof.
  assert (X : match low_fs with Some _ => true | None => false end = true) by (vm_compute; reflexivity).
  unfold em_fs, npc_fs, low_fs in *. destruct (lower _ _ _ _ _ _ _) as [[m n]|]; [reflexivity|discriminate].
Qed.
Lemma fin_fs_eq : Cfg.finish X86_64 (fun _ => false) 80 (m_f em_fs) ord_fs = Some L_fs.
Proof.
  assert (X : match fin_fs with Some _ => true | None => false end = true) by (vm_compute; reflexivity).
  unfold L_fs, fin_fs in *. destruct (Cfg.finish _ _ _ _ _); [reflexivity|discriminate].
Qed.
Lemma S_fs_ok : slots_ok X86_64 S_fs.
Proof.
  intros [i|i|i]; split; cbn [S_fs]; try reflexivity.
  - destruct (i =? 257); vm_compute; split; congruence.
  - assert (0 < tsize (nty X86_64 (FLAG i))) by (unfold nty, native_facet; destruct (i =? 2); reflexivity). cbn [wf_rv]. unfold inr. split; [lia|]. apply Z.pow_pos_nonneg; lia.
  - vm_compute; split; congruence.
Qed.
Example ex_fs_returns : exists S p mem, @ireturn fpu_ex xc_call em_fs npc_fs L_fs S_fs p_start mem_fs S p mem /\
  S (GP 0) = V (TInt 64) 0x2a /\ S FSBASE = V (TInt 64) 0x9000 /\ S GSBASE = V (TInt 64) 0xa000 /\ rbits (S (GP 4)) = Some 0xa008.
Proof.
  assert (X : match @calli fpu_ex xc_call em_fs npc_fs L_fs 40 S_fs p_start mem_fs with
              | Some (SS, p, _) => SS (GP 0) = V (TInt 64) 0x2a /\ SS FSBASE = V (TInt 64) 0x9000 /\ SS GSBASE = V (TInt 64) 0xa000 /\ rbits (SS (GP 4)) = Some 0xa008 | None => False end)
    by (vm_compute; repeat split; reflexivity).
  destruct (@calli fpu_ex xc_call em_fs npc_fs L_fs 40 S_fs p_start mem_fs) as [[[SS p] mem]|] eqn:E; [|contradiction].
  exists SS, p, mem. split; [|exact X]. apply (@calli_ok fpu_ex xc_call em_fs npc_fs L_fs S_fs p_start mem_fs 40 SS p mem S_fs_ok E).
Qed.
Example ex_fs_simulates :
  ~ @ifail fpu_ex xc_call em_fs npc_fs L_fs S_fs p_start mem_fs /\
  forall S p mem, @ireturn fpu_ex xc_call em_fs npc_fs L_fs S_fs p_start mem_fs S p mem ->
    exists k g, gsteps (@zstep fpu_ex xc_call xcfg_call rel_ex (xprog xp_fs)) k g_fs g /\ x86_holds S mem g /\ p = V (TInt 64) (y_ip (z_x g)).
Proof.
  apply (@x86_emitted_code_simulates fpu_ex xc_call xcfg_call rel_ex kz kz (fun _ => DNone) xunk (xprog xp_fs) xds_fs 0x1000 xbs_fs xbs_fsl g_fs (fun _ _ => None) (fun _ => true)
           em_fs npc_fs (fun _ => false) 80%nat ord_fs L_fs S_fs p_start mem_fs).
  - reflexivity.
  - exact I.
  - exact zext_call.
  - exact ext_call_mono.
  - exact fpu_ex_std.
  - apply decoded_cf_decoded with true. apply decoded_all_cf.
    eapply (decoded_all1 _ _ _ _ _ (xprog xp_fs) 20 0x1000); [apply decoded_all0|]. vm_compute. reflexivity.
  - intros d I0. vm_compute in I0. repeat (destruct I0 as [<-|I0]; [split; reflexivity|]). destruct I0.
  - reflexivity.
  - exact xbs_fs_eq.
  - exact low_fs_eq.
  - intros v Q. discriminate.
  - intro b. unfold ord_fs. rewrite in_seq. lia.
  - exact fin_fs_eq.
  - intros k e S p mem mem' x z _ _ I0. vm_compute in I0. destruct I0.
  - split; [|split; [|split]].
    + intros n N. cbn [S_fs nty rbits g_fs z_x y_r]. replace (n =? 257) with false by lia. reflexivity.
    + intros f b Q. destruct f; injection Q as <-; try reflexivity. exists 0. split; [reflexivity|]. split; [split; vm_compute; congruence|reflexivity].
    + intros n N. reflexivity.
    + split; [reflexivity|split; reflexivity].
  - split; [|split; [|split]]; [intros n N|intros n N| |]; cbn [g_fs z_x z_q y_r y_fs y_gs]; split; vm_compute; congruence.
  - reflexivity.
  - intros k g n d _ N _. apply nth_error_In in N.
    assert (IN : In (d_i _ d) xp_fs) by (vm_compute in N; repeat (destruct N as [<-|N]; [cbn; tauto|]); destruct N).
    assert (KS : forall x, xkc_sound (kz n) x) by (intros x r z _ Q; discriminate Q).
    repeat (destruct IN as [<-|IN]; [cbn [z_good xmk x_mn]; repeat (split; [reflexivity || apply KS || discriminate || exact I || idtac|]); try discriminate|]).
    destruct IN.
Qed.
