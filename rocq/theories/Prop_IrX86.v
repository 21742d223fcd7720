(** The emitted function, x86-64; compare Prop_Ir.v. *)

From Coq Require Import ZArith Lia ZifyBool List Bool Arith Cantor.
From Verif Require Import Prop_Cfg Bits IR IrMono Facet Dsl RegFile RegFileOk RegScript Layout Cfg CfgHeap CfgLog CfgBuild CfgSem Decode DecodeOk Rv64 Rv64Spec Rv64Sim LiftRv
  X86 X86Spec X86Sim X86Step X86StrSpec X86Run X86Sse X86SseSpec X86SseSim X86SseOps X86SseStep X86SseMain X86SseTop X86Ex LiftFn LiftSim LiftX86 Prop_Sse Prop_LiftX86 Lower LowerOk LowerSem IrWf LowerEx IrExec LowerX86 Prop_Ir.
Import ListNotations.
Open Scope Z_scope.

(** ** C61 *)
(** The CPU struct and the memory hold a guest state. *)
Definition x86_holds (S : slots) (mem : bytes) (g : zst) : Prop :=
  (forall n, 0 <= n < 16 -> rbits (S (GP n)) = Some (y_r (z_x g) n)) /\
  (forall f b, y_f (z_x g) f = Some b -> match f with
     | fPF => exists z, rbits (S PF) = Some z /\ inr 8 z /\ pf_of z = b
     | _ => rbits (S (cell f)) = Some (b2z b) end) /\
  (forall n, 0 <= n < 16 -> rbits (S (VEC n)) = Some (z_q g n)) /\ (forall x, mem x = y_m (z_x g) x) /\
  rbits (S FSBASE) = Some (y_fs (z_x g)) /\ rbits (S GSBASE) = Some (y_gs (z_x g)).
Definition x86_range (g : zst) : Prop :=
  (forall n, 0 <= n < 16 -> inr 64 (y_r (z_x g) n)) /\ (forall n, 0 <= n < 16 -> inr 128 (z_q g n)) /\ inr 64 (y_fs (z_x g)) /\ inr 64 (y_gs (z_x g)).
(** The registers before the first statement. *)
Definition x86_st0 (S : slots) (g : zst) (mem : bytes) : st :=
  St (fun r => if areg_eqb r FSBASE then Some (y_fs (z_x g)) else if areg_eqb r GSBASE then Some (y_gs (z_x g)) else rbits (S r))
     (PcVal (Poison (TInt 64))) mem (fun _ => None) false.
Lemma x86_mapped : (forall n, 0 <= n < 16 -> mapped X86_64 (GP n)) /\ (forall n, 0 <= n < 16 -> mapped X86_64 (VEC n)) /\ (forall f, mapped X86_64 (cell f)).
Proof.
  assert (X : forall P : Z -> Prop, (forall k, (k < 16)%nat -> P (Z.of_nat k)) -> forall n, 0 <= n < 16 -> P n).
  { intros P Q n I0. replace n with (Z.of_nat (Z.to_nat n)) by lia. apply Q. lia. }
  split; [|split]; [apply X; intros k LT; do 16 (destruct k as [|k]; [vm_compute; tauto|]); lia ..|].
  intros []; vm_compute; tauto.
Qed.

Lemma x86_rel0 : forall S0 g0 m0, x86_holds S0 m0 g0 -> x86_range g0 -> zrel (x86_st0 S0 g0 m0) g0.
Proof.
  intros S0 g0 m0 (H1 & H2 & H3 & H4 & H5 & H6) (R1 & R2 & R3 & R4).
  split; [split|]; cbn [x86_st0 s_reg s_mem]; try assumption; try reflexivity.
  - intros n N. unfold FSBASE, GSBASE. cbn [areg_eqb]. destruct (Z.eqb_spec n 257); [lia|]. destruct (Z.eqb_spec n 256); [lia|]. apply H1, N.
  - intros f b E. specialize (H2 f b E). destruct f; cbn [flag_is cell x86_st0 s_reg] in *; exact H2.
  - intros n N. cbn [areg_eqb FSBASE GSBASE]. split; [apply H3, N|apply R2, N].
Qed.
Lemma x86_setup : forall `{FpuOps} c cfg rel kc kcp kd unk fetch ds a0 bs bs' g0 S0 m0,
  c_arch c = X86_64 -> gbase_ok c -> zext_ok c -> fpu_std rel ->
  decoded zinst z_len (x_cls unk) ds ->
  (forall d, In d (f_ins _ ds) -> z_start (d_i _ d) = d_start _ d /\ fetch (addr_pc_base c (d_start _ d)) = Some (d_i _ d)) ->
  lift zinst (x_lf c cfg kc kcp kd) true (f_ins _ ds) = LFn (a0, bs) ->
  xplain_blks zinst bs = Some bs' ->
  x86_holds S0 m0 g0 -> x86_range g0 -> y_ip (z_x g0) = addr_pc_base c a0 ->
  (forall k g n d, gsteps (zstep c cfg rel fetch) k g0 g -> nth_error (f_ins _ ds) n = Some d -> y_ip (z_x g) = addr_pc_base c (d_start _ d) ->
     z_good c cfg rel (kc n) (kcp n) (kd n) (d_i _ d) g) ->
  exists x0', goto (LA := plain_lang) zinst ds bs' a0 (x86_st0 S0 g0 m0) = Ok x0' /\
    (forall n, exists x, lsteps (LA := plain_lang) zinst c ds bs' n x0' = Ok x /\
      match x with
      | COut _ s => exists k g, gsteps (zstep c cfg rel fetch) k g0 g /\ zrel s g /\ zpc_at c s g
      | CRun _ _ _ s => exists k g, gsteps (zstep c cfg rel fetch) k g0 g /\ (n <= 2 * k + 1)%nat
      end) /\
    (forall r, held (c_arch c) r -> ole (s_reg (x86_st0 S0 g0 m0) r) (rbits (S0 r))).
Proof.
  intros F c cfg rel kc kcp kd unk fetch ds a0 bs bs' g0 S0 m0 HA GB EX FS D FE LI PL0 (H1 & H2 & H3 & H4 & H5 & H6) (R1 & R2 & R3 & R4) P0 GD.
  pose proof (x86_rel0 S0 g0 m0 (conj H1 (conj H2 (conj H3 (conj H4 (conj H5 H6))))) (conj R1 (conj R2 (conj R3 R4)))) as R0.
  destruct (x86_function_simulates c cfg rel kc kcp kd unk fetch ds a0 bs (x86_st0 S0 g0 m0) g0 HA GB EX FS D FE LI R0 P0 GD) as (x0 & E0 & SI).
  unfold enter in E0. destruct (plain_goto zinst ds bs bs' PL0 a0 _ x0 E0) as (x0' & E0' & C0).
  exists x0'. split; [exact E0'|]. split.
  - intro n. destruct (SI n) as (x & E & X). destruct (plain_steps zinst c ds bs bs' PL0 n x0 x0' x C0 E) as (x' & E' & CR). exists x'. split; [exact E'|].
    inversion CR; subst; [|exact X]. destruct X as (k & g & X1 & _ & X2). eauto.
  - rewrite HA. intros r MR z Q. cbn [x86_st0 s_reg] in Q.
    destruct (areg_eqb r FSBASE) eqn:EF; [apply areg_eqb_eq in EF; subst r; rewrite H5; exact Q|].
    destruct (areg_eqb r GSBASE) eqn:EG; [apply areg_eqb_eq in EG; subst r; rewrite H6; exact Q|]. exact Q.
Qed.
Theorem x86_emitted_code_simulates : forall `{FpuOps} c cfg rel kc kcp kd unk fetch ds a0 bs bs' g0 cfold gcache M npc is_undef fuel ord L S0 p0 m0,
  c_arch c = X86_64 -> gbase_ok c -> zext_ok c -> LowerSem.ext_ok c -> fpu_std rel ->
  decoded zinst z_len (x_cls unk) ds ->
  (forall d, In d (f_ins _ ds) -> z_start (d_i _ d) = d_start _ d /\ fetch (addr_pc_base c (d_start _ d)) = Some (d_i _ d)) ->
  lift zinst (x_lf c cfg kc kcp kd) true (f_ins _ ds) = LFn (a0, bs) ->
  xplain_blks zinst bs = Some bs' ->
  lower c zinst ds a0 cfold gcache bs' = Some (M, npc) ->
  undef_sound X86_64 is_undef -> all_blocks (m_f M) ord -> Cfg.finish X86_64 is_undef fuel (m_f M) ord = Some L -> fold_ok c M npc L S0 p0 m0 ->
  x86_holds S0 m0 g0 -> x86_range g0 -> y_ip (z_x g0) = addr_pc_base c a0 ->
  (forall k g n d, gsteps (zstep c cfg rel fetch) k g0 g -> nth_error (f_ins _ ds) n = Some d -> y_ip (z_x g) = addr_pc_base c (d_start _ d) ->
     z_good c cfg rel (kc n) (kcp n) (kd n) (d_i _ d) g) ->
  ~ ifail c M npc L S0 p0 m0 /\
  forall S p mem, ireturn c M npc L S0 p0 m0 S p mem ->
    exists k g, gsteps (zstep c cfg rel fetch) k g0 g /\ x86_holds S mem g /\ p = V (TInt 64) (y_ip (z_x g)).
Proof.
  intros F c cfg rel kc kcp kd unk fetch ds a0 bs bs' g0 cfold gcache M npc is_undef fuel ord L S0 p0 m0 HA GB EX EM FS D FE LI PL0 LO US AB FIN FO HO0 RG0 P0 GD.
  destruct x86_mapped as (MG & MV & MF).
  destruct (x86_setup c cfg rel kc kcp kd unk fetch ds a0 bs bs' g0 S0 m0 HA GB EX FS D FE LI PL0 HO0 RG0 P0 GD) as (x0 & E0 & SI & RG).
  assert (HO : forall n, exists x, lsteps (LA := plain_lang) zinst c ds bs' n x0 = Ok x) by (intro n; destruct (SI n) as (x & E & _); eauto).
  rewrite <- HA in US, FIN.
  destruct (emitted_code_refines_statements c zinst ds a0 cfold gcache bs' M npc is_undef fuel ord L S0 p0 m0 (x86_st0 S0 g0 m0) x0 LO US AB FIN EM FO E0 HO eq_refl RG) as [NF RT].
  split; [exact NF|]. intros S p mem IR. destruct (RT S p mem IR) as (n & s & v & ST & SM & SR & PV & PL).
  destruct (SI n) as (x & E & X). rewrite E in ST. injection ST as ->. destruct X as (k & g & GS & [[RX _ RFS _ RGS _ RF RM] RQ] & PC). subst mem.
  exists k, g. split; [exact GS|]. rewrite HA in SR. split; [split; [|split; [|split; [|split; [|split]]]]|].
  - intros n' I0. apply (SR (GP n')); [left; apply MG; lia|]. apply RX. exact I0.
  - intros f b Q. specialize (RF f b Q). destruct f; cbn [flag_is] in RF; try (apply (SR (cell _) (or_introl (MF _))); exact RF).
    destruct RF as (z & Z1 & Z2 & Z3). exists z. split; [apply (SR (cell fPF) (or_introl (MF fPF))); exact Z1|]. split; assumption.
  - intros n' I0. apply (SR (VEC n')); [left; apply MV; lia|]. apply RQ. exact I0.
  - intro y. apply RM.
  - apply (SR FSBASE); [right; reflexivity|]. exact RFS.
  - apply (SR GSBASE); [right; reflexivity|]. exact RGS.
  - unfold zpc_at in PC. rewrite PC in PV. injection PV as <-. destruct PL as [<-|Q]; [reflexivity|discriminate].
Qed.
Print Assumptions x86_emitted_code_simulates.
Theorem x86_emitted_code_returns : forall `{FpuOps} c cfg rel kc kcp kd unk fetch ds a0 bs bs' g0 cfold gcache M npc is_undef fuel ord L S0 p0 m0 K,
  c_arch c = X86_64 -> gbase_ok c -> zext_ok c -> LowerSem.ext_ok c -> fpu_std rel ->
  decoded zinst z_len (x_cls unk) ds ->
  (forall d, In d (f_ins _ ds) -> z_start (d_i _ d) = d_start _ d /\ fetch (addr_pc_base c (d_start _ d)) = Some (d_i _ d)) ->
  lift zinst (x_lf c cfg kc kcp kd) true (f_ins _ ds) = LFn (a0, bs) ->
  xplain_blks zinst bs = Some bs' ->
  lower c zinst ds a0 cfold gcache bs' = Some (M, npc) ->
  undef_sound X86_64 is_undef -> all_blocks (m_f M) ord -> Cfg.finish X86_64 is_undef fuel (m_f M) ord = Some L -> fold_ok c M npc L S0 p0 m0 ->
  x86_holds S0 m0 g0 -> x86_range g0 -> y_ip (z_x g0) = addr_pc_base c a0 ->
  (forall k g n d, gsteps (zstep c cfg rel fetch) k g0 g -> nth_error (f_ins _ ds) n = Some d -> y_ip (z_x g) = addr_pc_base c (d_start _ d) ->
     z_good c cfg rel (kc n) (kcp n) (kd n) (d_i _ d) g) ->
  ext_rng c -> slots_ok X86_64 S0 -> tw p0 (TInt 64) ->
  (exists S p mem k g, ireturn c M npc L S0 p0 m0 S p mem /\ gsteps (zstep c cfg rel fetch) k g0 g /\ x86_holds S mem g /\ p = V (TInt 64) (y_ip (z_x g))) \/
  (exists k g, gsteps (zstep c cfg rel fetch) k g0 g /\ (K < k)%nat).
Proof.
  intros F c cfg rel kc kcp kd unk fetch ds a0 bs bs' g0 cfold gcache M npc is_undef fuel ord L S0 p0 m0 K HA GB EX EM FS D FE LI PL0 LO US AB FIN FO HO0 RG0 P0 GD ER SO PO.
  destruct (x86_setup c cfg rel kc kcp kd unk fetch ds a0 bs bs' g0 S0 m0 HA GB EX FS D FE LI PL0 HO0 RG0 P0 GD) as (x0 & E0 & SI & RG).
  assert (HO : forall n, exists x, lsteps (LA := plain_lang) zinst c ds bs' n x0 = Ok x) by (intro n; destruct (SI n) as (x & E & _); eauto).
  destruct (SI (2 * K + 2)%nat) as (x & E & X). destruct x as [segs en s|s]; [destruct X as (k & g & GS & LE); right; exists k, g; split; [exact GS|lia]|left].
  destruct (x86_emitted_code_simulates c cfg rel kc kcp kd unk fetch ds a0 bs bs' g0 cfold gcache M npc is_undef fuel ord L S0 p0 m0 HA GB EX EM FS D FE LI PL0 LO US AB FIN FO HO0 RG0 P0 GD) as [_ RT].
  rewrite <- HA in US, FIN, SO.
  destruct (emitted_code_returns c zinst ds a0 cfold gcache bs' M npc is_undef fuel ord L S0 p0 m0 (x86_st0 S0 g0 m0) x0 _ s LO US AB FIN EM FO E0 HO eq_refl RG ER SO PO E) as (S & p & mem & IR).
  destruct (RT S p mem IR) as (k & g & Y). exists S, p, mem, k, g. auto.
Qed.
Print Assumptions x86_emitted_code_returns.

(** ** Non-vacuity *)
(** The loop of Prop_LiftX86.v, with PADDQ and a call in each iteration, as emitted:
    five blocks, four PHI nodes, 17 stores to the CPU struct. *)
Definition xbs_low : list (lblock (LA := plain_lang) zinst) := match xplain_blks zinst xbs_loop with Some l => l | None => [] end.
Definition low_x := lower xc_call zinst xds_loop 0x1000 (fun _ _ => None) (fun _ => true) xbs_low.
Definition em_x : em := match low_x with Some (m, _) => m | None => em0 end.
Definition npc_x : nat := match low_x with Some (_, n) => n | None => O end.
Definition ord_x : list nat := seq 0 (f_nb (m_f em_x)).
Definition fin_x := Cfg.finish X86_64 (fun _ => false) 80 (m_f em_x) ord_x.
Definition L_x : lifted := match fin_x with Some l => l | None => Lifted fn0 [] [] [] end.
Definition S_x : slots := fun r => match r with GP n => V (nty X86_64 r) (if n =? 1 then 3 else 0x9000) | VEC n => if (0 <=? n) && (n <? 16) then V (nty X86_64 r) (n + 5) else V (nty X86_64 r) 0 | FLAG _ => V (nty X86_64 r) 0 end.
Definition g_x86 : zst := Zst (Xst (fun n => if n =? 1 then 3 else 0x9000) (fun f => match f with fPF => Some true | _ => Some false end) 0x9000 0x9000 0x1000 (fun _ => 0)) (fun n => n + 5).
Example ex_x_shape : f_nb (m_f em_x) = 5%nat /\ length (l_phis L_x) = 4%nat /\ length (l_stores L_x) = 17%nat /\ m_fold em_x = [].
Proof. vm_compute. repeat split; reflexivity. Qed.
Lemma xbs_low_eq : xplain_blks zinst xbs_loop = Some xbs_low.
Proof.
  assert (X : match xplain_blks zinst xbs_loop with Some _ => true | None => false end = true) by (vm_compute; reflexivity).
  unfold xbs_low. destruct (xplain_blks zinst xbs_loop); [reflexivity|discriminate].
Qed.
Lemma low_x_eq : lower xc_call zinst xds_loop 0x1000 (fun _ _ => None) (fun _ => true) xbs_low = Some (em_x, npc_x).
Proof.
  assert (X : match low_x with Some _ => true | None => false end = true) by (vm_compute; reflexivity).
  unfold em_x, npc_x, low_x in *. destruct (lower _ _ _ _ _ _ _) as [[m n]|]; [reflexivity|discriminate].
Qed.
Lemma fin_x_eq : Cfg.finish X86_64 (fun _ => false) 80 (m_f em_x) ord_x = Some L_x.
Proof.
  assert (X : match fin_x with Some _ => true | None => false end = true) by (vm_compute; reflexivity).
  unfold L_x, fin_x in *. destruct (Cfg.finish _ _ _ _ _); [reflexivity|discriminate].
Qed.
Lemma S_x_ok : slots_ok X86_64 S_x.
Proof.
  intros [i|i|i]; split; cbn [S_x]; try reflexivity.
  - destruct (i =? 1); vm_compute; split; congruence.
  - assert (0 < tsize (nty X86_64 (FLAG i))) by (unfold nty, native_facet; destruct (i =? 2); reflexivity). cbn [wf_rv]. unfold inr. split; [lia|]. apply Z.pow_pos_nonneg; lia.
  - destruct ((0 <=? i) && (i <? 16)); reflexivity.
  - destruct ((0 <=? i) && (i <? 16)) eqn:Q; cbn [wf_rv]; unfold inr; change (tsize (nty X86_64 (VEC i))) with 128; assert (2 ^ 128 > 1000) by (vm_compute; reflexivity); lia.
Qed.
Lemma ext_call_mono : LowerSem.ext_ok xc_call.
Proof.
  intros f u u' (A1 & A2 & A3). split; [|split]; cbn [xc_call c_ext c_arch u_pc u_reg u_mem] in *; [intros z Q; exact Q| |exact A3].
  intros r MR. destruct (areg_eqb r (GP 4)); [|apply A2, MR]. intros z Q. specialize (A2 r MR).
  destruct (u_reg u r) as [v|]; [|discriminate]. rewrite (A2 v eq_refl). exact Q.
Qed.
(** It has an execution that returns, after three iterations with RCX = 0, three
    times the addend in XMM0, and the stack pointer behind the return address. *)
Example ex_x86_emitted_returns : exists S p mem, @ireturn fpu_ex xc_call em_x npc_x L_x S_x p_start (fun _ => 0) S p mem /\
  S (GP 1) = V (TInt 64) 0 /\ rbits (S (VEC 0)) = Some (5 + 3 * 6) /\ rbits (S (GP 4)) = Some 0x9008 /\ p = V (TInt 64) 0.
Proof.
  assert (X : match @calli fpu_ex xc_call em_x npc_x L_x 60 S_x p_start (fun _ => 0) with
              | Some (SS, p, _) => SS (GP 1) = V (TInt 64) 0 /\ rbits (SS (VEC 0)) = Some (5 + 3 * 6) /\ rbits (SS (GP 4)) = Some 0x9008 /\ p = V (TInt 64) 0 | None => False end)
    by (vm_compute; repeat split; reflexivity).
  destruct (@calli fpu_ex xc_call em_x npc_x L_x 60 S_x p_start (fun _ => 0)) as [[[SS p] mem]|] eqn:E; [|contradiction].
  exists SS, p, mem. split; [|exact X]. apply (@calli_ok fpu_ex xc_call em_x npc_x L_x S_x p_start (fun _ => 0) 60 SS p mem S_x_ok E).
Qed.
Lemma ext_call_rng : ext_rng xc_call.
Proof.
  intros g u RU r z MR Q. cbn [xc_call c_ext c_arch u_reg] in Q. destruct (areg_eqb r (GP 4)) eqn:E; [|apply RU; assumption].
  apply areg_eqb_eq in E. subst r. destruct (u_reg u (GP 4)) as [v|]; [|discriminate]. injection Q as <-. change (native_size (c_arch xc_call) (GP 4)) with 64. apply trunc_range. lia.
Qed.
(** All hypotheses of [x86_emitted_code_simulates] hold of it. *)
Example ex_x86_emitted_simulates :
  ~ @ifail fpu_ex xc_call em_x npc_x L_x S_x p_start (fun _ => 0) /\
  forall S p mem, @ireturn fpu_ex xc_call em_x npc_x L_x S_x p_start (fun _ => 0) S p mem ->
    exists k g, gsteps (@zstep fpu_ex xc_call xcfg_call rel_ex (xprog xp_loop)) k g_x86 g /\ x86_holds S mem g /\ p = V (TInt 64) (y_ip (z_x g)).
Proof.
  apply (@x86_emitted_code_simulates fpu_ex xc_call xcfg_call rel_ex kz kz (fun _ => DNone) xunk (xprog xp_loop) xds_loop 0x1000 xbs_loop xbs_low g_x86 (fun _ _ => None) (fun _ => true)
           em_x npc_x (fun _ => false) 80%nat ord_x L_x S_x p_start (fun _ => 0)).
  - reflexivity.
  - exact I.
  - exact zext_call.
  - exact ext_call_mono.
  - exact fpu_ex_std.
  - exact (decoded_cf_decoded _ _ _ _ _ (decoded_all_cf _ _ _ _ _ xds_loop_decoded)).
  - intros d I0. vm_compute in I0. repeat (destruct I0 as [<-|I0]; [split; reflexivity|]). destruct I0.
  - reflexivity.
  - exact xbs_low_eq.
  - exact low_x_eq.
  - intros v Q. discriminate.
  - intro b. unfold ord_x. rewrite in_seq. lia.
  - exact fin_x_eq.
  - intros k e S p mem mem' x z _ _ I0. destruct ex_x_shape as (_ & _ & _ & E). rewrite E in I0. destruct I0.
  - split; [|split; [|split]].
    + intros; reflexivity.
    + intros f b Q. destruct f; injection Q as <-; try reflexivity. exists 0. split; [reflexivity|]. split; [split; vm_compute; congruence|reflexivity].
    + intros n N. cbn [S_x]. replace ((0 <=? n) && (n <? 16)) with true by lia. reflexivity.
    + split; [reflexivity|split; reflexivity].
  - split; [|split; [|split]]; [intros n N|intros n N| |]; cbn [g_x86 z_x z_q y_r y_fs y_gs].
    + destruct (n =? 1); split; vm_compute; congruence.
    + split; [lia|]. assert (2 ^ 128 > 1000) by (vm_compute; reflexivity). lia.
    + split; vm_compute; congruence.
    + split; vm_compute; congruence.
  - reflexivity.
  - intros k g n d _ N _. apply nth_error_In in N.
    assert (IN : In (d_i _ d) xp_loop) by (vm_compute in N; repeat (destruct N as [<-|N]; [cbn; tauto|]); destruct N).
    assert (KS : forall x, xkc_sound (kz n) x) by (intros x r z _ Q; discriminate Q).
    destruct IN as [<-|IN].
    { cbn [z_good]. repeat (split; [reflexivity || apply KS || discriminate || idtac|]); try exact I; try discriminate. }
    repeat (destruct IN as [<-|IN]; [cbn [z_good xmk x_mn]; repeat (split; [reflexivity || apply KS || discriminate || exact I || idtac|]); try discriminate|]).
    destruct IN.
Qed.
