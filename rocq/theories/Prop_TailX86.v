(** Property C67: the tail function, x86-64; compare Prop_Tail.v. *)

From Coq Require Import ZArith Lia ZifyBool List Bool Arith Cantor.
From Verif Require Import Prop_Cfg Bits IR IrMono Facet Dsl RegFile RegFileOk RegScript Layout Cfg CfgHeap CfgLog CfgBuild CfgSem Decode DecodeOk Rv64 Rv64Spec Rv64Sim LiftRv
  X86 X86Spec X86Sim X86Step X86StrSpec X86Run X86Sse X86SseSpec X86SseSim X86SseOps X86SseStep X86SseMain X86SseTop X86Ex LiftFn LiftSim LiftX86 Prop_Sse Prop_LiftX86 Lower LowerOk LowerSem IrWf LowerEx IrExec LowerX86 Prop_Ir LiftEdge LiftExit Prop_Tail Prop_IrX86 Prop_ExitX86.
Import ListNotations.
Open Scope Z_scope.

(** ** Specification *)
Definition x86_struct (u : cpu) (g : zst) : Prop :=
  u_pc u = Some (y_ip (z_x g)) /\ (forall n, 0 <= n < 16 -> u_reg u (GP n) = Some (y_r (z_x g) n)) /\
  (forall f b, y_f (z_x g) f = Some b -> match f with
     | fPF => exists z, u_reg u PF = Some z /\ inr 8 z /\ pf_of z = b
     | _ => u_reg u (cell f) = Some (b2z b) end) /\
  (forall n, 0 <= n < 16 -> u_reg u (VEC n) = Some (z_q g n)) /\ (forall x, u_mem u x = y_m (z_x g) x) /\
  u_reg u FSBASE = Some (y_fs (z_x g)) /\ u_reg u GSBASE = Some (y_gs (z_x g)).

(** ** C67 *)
Theorem x86_tail_function_partial : forall `{FpuOps} c cfg rel kc kcp kd unk fetch dec E ds a0 bs bs' g0 cfold gcache M npc is_undef fuel ord L S0 p0 m0 tail u,
  c_arch c = X86_64 -> gbase_ok c -> zext_ok c -> LowerSem.ext_ok c -> fpu_std rel ->
  calls zinst z_len (x_cls unk) dec (x_has_call cfg) E ds ->
  (forall a i, dec a = Some i -> z_start i = a /\ fetch (addr_pc_base c a) = Some i) ->
  (forall a j, dec a = Some (ZG j) -> x_mn j = X_SYSCALL -> xl_syscall cfg <> None) ->
  lift zinst (x_lf c cfg kc kcp kd) true (f_ins _ ds) = LFn (a0, bs) ->
  xplain_blks zinst bs = Some bs' ->
  lower c zinst ds a0 cfold gcache bs' = Some (M, npc) ->
  undef_sound X86_64 is_undef -> all_blocks (m_f M) ord -> Cfg.finish X86_64 is_undef fuel (m_f M) ord = Some L -> fold_ok c M npc L S0 p0 m0 ->
  x86_holds S0 m0 g0 -> x86_range g0 -> y_ip (z_x g0) = addr_pc_base c a0 ->
  (forall k g n d, gsteps (zstep c cfg rel fetch) k g0 g -> nth_error (f_ins _ ds) n = Some d -> y_ip (z_x g) = addr_pc_base c (d_start _ d) ->
     z_good c cfg rel (kc n) (kcp n) (kd n) (d_i _ d) g) ->
  treturn c M npc L tail S0 p0 m0 u ->
  exists k g v, gsteps (zstep c cfg rel fetch) k g0 g /\ x86_struct v g /\
  ((exists i, fetch (y_ip (z_x g)) = Some i /\ x_unsup i = true /\ tail_result c tail False v u) \/
   (exists k' g' i, gsteps (zstep c cfg rel fetch) k' g0 g' /\ fetch (y_ip (z_x g')) = Some i /\ zstep c cfg rel fetch g' g /\
      x_leaves cfg (addr_pc_base c) dec g i /\ tail_result c tail (x_returns cfg i) v u)).
Proof.
  intros F c cfg rel kc kcp kd unk fetch dec E ds a0 bs bs' g0 cfold gcache M npc is_undef fuel ord L S0 p0 m0 tail u HA GB EX EM FS DC DE SY LI PL0 LO US AB FIN FO HO0 RG0 P0 GD TR.
  assert (DA : decoded_all zinst z_len (x_cls unk) (x_has_call cfg) ds).
  { clear - DC. induction DC as [|E0 s0 n0 a s' D IH X]; [constructor|]. econstructor; eassumption. }
  pose proof (decoded_cf_decoded _ _ _ _ _ (decoded_all_cf _ _ _ _ _ DA)) as D.
  assert (FE : forall d, In d (f_ins _ ds) -> z_start (d_i _ d) = d_start _ d /\ fetch (addr_pc_base c (d_start _ d)) = Some (d_i _ d)).
  { intros d I0. destruct (calls_cinv _ _ _ _ _ _ _ DC) as [C _]. apply In_nth_error in I0. destruct I0 as [j N].
    exact (DE _ _ (proj2 (c_ins _ _ _ _ _ _ _ C j d N))). }
  destruct (x86_setup c cfg rel kc kcp kd unk fetch ds a0 bs bs' g0 S0 m0 HA GB EX FS D FE LI PL0 HO0 RG0 P0 GD) as (x1 & E1 & SI & RG).
  pose proof (x86_rel0 S0 g0 m0 HO0 RG0) as R0.
  destruct (x86_function_simulates c cfg rel kc kcp kd unk fetch ds a0 bs (x86_st0 S0 g0 m0) g0 HA GB EX FS D FE LI R0 P0 GD) as (x0 & E0 & SX).
  destruct (enter_ok (LA := xlang) zinst z_len (x_cls unk) (x_lf c cfg kc kcp kd) ds a0 bs (decoded_inv _ _ _ _ D) LI (x86_st0 S0 g0 m0)) as (b & i0 & d0 & EB & _).
  assert (XB : x0 = CRun (LA := xlang) zinst (lb_code zinst b) (lb_end zinst b) (x86_st0 S0 g0 m0)) by (rewrite E0 in EB; injection EB as EB; exact EB).
  assert (C0 : crel zinst x0 x1).
  { unfold enter in E0. destruct (plain_goto zinst ds bs bs' PL0 a0 _ x0 E0) as (x' & E' & C'). rewrite E1 in E'. injection E' as <-. exact C'. }
  assert (HO : forall n, exists x, lsteps (LA := plain_lang) zinst c ds bs' n x1 = Ok x) by (intro n; destruct (SI n) as (x & EQ & _); eauto).
  assert (NX : forall s, x1 <> COut (LA := plain_lang) zinst s) by (intros s Q; rewrite Q, XB in C0; inversion C0).
  rewrite <- HA in US, FIN.
  destruct (treturn_cases _ _ _ _ _ _ _ _ _ TR) as (k & S & p & mem & IR & UU).
  destruct (emitted_code_ends c zinst ds a0 cfold gcache bs' M npc is_undef fuel ord L S0 p0 m0 (x86_st0 S0 g0 m0) x1 LO US AB FIN EM FO E1 HO eq_refl RG NX k S p mem IR)
    as (n & e & s & v & ST & LS & SM & SR & PV & PL & KX).
  assert (XS : lsteps (LA := xlang) zinst c ds bs n x0 = Ok (CRun (LA := xlang) zinst [] e s) /\ lstep (LA := xlang) zinst c ds bs (CRun (LA := xlang) zinst [] e s) = Ok (COut (LA := xlang) zinst s)).
  { destruct (SX n) as (x & EX1 & _). destruct (plain_steps zinst c ds bs bs' PL0 n x0 x1 x C0 EX1) as (x' & EX2 & CR). rewrite ST in EX2. injection EX2 as <-.
    assert (XE : x = CRun (LA := xlang) zinst [] e s).
    { inversion CR as [l l' e' s' Q|]; subst. destruct l as [|[[i1 d1] c1] l]; [reflexivity|]. exfalso. clear - Q. cbn [xplain_segs] in Q.
      destruct (xplain c1); [|discriminate Q]. destruct (xplain_segs zinst l); discriminate Q. }
    subst x. split; [exact EX1|]. destruct (SX (Datatypes.S n)) as (y & EY & _).
    destruct (plain_steps zinst c ds bs bs' PL0 (Datatypes.S n) x0 x1 y C0 EY) as (y' & EY2 & CY).
    rewrite lsteps_snoc, ST in EY2. cbn [bind] in EY2. rewrite LS in EY2. injection EY2 as <-.
    rewrite lsteps_snoc, EX1 in EY. cbn [bind] in EY. rewrite EY. inversion CY. reflexivity. }
  destruct XS as [XS1 XS2].
  destruct (x86_left_how c cfg rel kc kcp kd unk fetch dec E ds a0 bs (x86_st0 S0 g0 m0) g0 HA GB EX FS DC DE SY LI R0 P0 GD x0 n e s E0 XS1 XS2)
    as (k1 & g & GS & [[RX _ RFS _ RGS _ RF RM] RQ] & PC & WH).
  exists k1, g, (cpu_of S p mem). split; [exact GS|]. rewrite HA in SR. destruct x86_mapped as (MG & MV & MF). split.
  { unfold zpc_at in PC. rewrite PC in PV. injection PV as <-. subst mem. split; [|split; [|split; [|split; [|split; [|split]]]]]; cbn [cpu_of u_pc u_reg u_mem].
    - destruct PL as [<-|Q]; [reflexivity|discriminate].
    - intros n' I0. apply (SR (GP n')); [left; apply MG; lia|]. apply RX. exact I0.
    - intros f b1 Q. specialize (RF f b1 Q). destruct f; cbn [flag_is] in RF; try (apply (SR (cell _) (or_introl (MF _))); exact RF).
      destruct RF as (z & Z1 & Z2 & Z3). exists z. split; [apply (SR (cell fPF) (or_introl (MF fPF))); exact Z1|]. split; assumption.
    - intros n' I0. apply (SR (VEC n')); [left; apply MV; lia|]. apply RQ. exact I0.
    - intro y. apply RM.
    - apply (SR FSBASE); [right; reflexivity|exact RFS].
    - apply (SR GSBASE); [right; reflexivity|exact RGS]. }
  destruct WH as [[NR (i & FI & UI)]|(k' & g' & i & X1 & X2 & X3 & X4 & X5)].
  - left. exists i. split; [exact FI|]. split; [exact UI|]. unfold tail_result. destruct UU as [[_ ->]|[NK _]]; [|destruct NK; apply KX; exact NR].
    destruct tail; [right; tauto|reflexivity].
  - right. exists k', g', i. repeat (split; [assumption|]). unfold tail_result. destruct UU as [[K ->]|[NK ->]]; (destruct tail; [|reflexivity]).
    + right. split; [|reflexivity]. intro Q. apply KX in K. apply K, X5, Q.
    + left. split; [|reflexivity]. apply X5. destruct e; try reflexivity; destruct NK; apply KX; discriminate.
Qed.
Print Assumptions x86_tail_function_partial.

(** ** Examples *)
(** The loop of Prop_LiftX86.v is left by RET: the tail function is not called. *)
Example ex_x86_tail_function : forall u, @treturn fpu_ex xc_call em_x npc_x L_x (Some 9) S_x p_start (fun _ => 0) u ->
  exists k g v, gsteps (@zstep fpu_ex xc_call xcfg_call rel_ex (xprog xp_loop)) k g_x86 g /\ x86_struct v g /\
  ((exists i, xprog xp_loop (y_ip (z_x g)) = Some i /\ x_unsup i = true /\ tail_result xc_call (Some 9) False v u) \/
   (exists k' g' i, gsteps (@zstep fpu_ex xc_call xcfg_call rel_ex (xprog xp_loop)) k' g_x86 g' /\ xprog xp_loop (y_ip (z_x g')) = Some i /\ @zstep fpu_ex xc_call xcfg_call rel_ex (xprog xp_loop) g' g /\
      x_leaves xcfg_call (addr_pc_base xc_call) (xprog xp_loop) g i /\ tail_result xc_call (Some 9) (x_returns xcfg_call i) v u)).
Proof.
  intro u. apply (@x86_tail_function_partial fpu_ex xc_call xcfg_call rel_ex kz kz (fun _ => DNone) xunk (xprog xp_loop) (xprog xp_loop) [0x1000] xds_loop 0x1000 xbs_loop xbs_low g_x86 (fun _ _ => None) (fun _ => true)
           em_x npc_x (fun _ => false) 80%nat ord_x L_x S_x p_start (fun _ => 0)).
  - reflexivity.
  - exact I.
  - exact zext_call.
  - exact ext_call_mono.
  - exact fpu_ex_std.
  - exact xds_loop_calls.
  - intros a i Q. pose proof (xp_loop_in a i Q) as IN.
    cbn [In] in IN. destruct IN as [<-|[<-|[<-|[<-|[]]]]]; vm_compute in Q; injection Q as <-; split; reflexivity.
  - intros a j Q MN. discriminate.
  - reflexivity.
  - exact xbs_low_eq.
  - exact low_x_eq.
  - intros v Q. discriminate.
  - intro b. unfold ord_x. rewrite in_seq. lia.
  - exact fin_x_eq.
  - intros k e S p mem mem' x z _ _ I0. destruct ex_x_shape as (_ & _ & _ & E). rewrite E in I0. destruct I0.
  - split; [|split; [|split; [|split; [|split]]]].
    + intros; reflexivity.
    + intros f b Q. destruct f; injection Q as <-; try reflexivity. exists 0. split; [reflexivity|]. split; [split; vm_compute; congruence|reflexivity].
    + intros n N. cbn [S_x]. replace ((0 <=? n) && (n <? 16)) with true by lia. reflexivity.
    + reflexivity.
    + reflexivity.
    + reflexivity.
  - split; [|split; [|split]]; [intros n N|intros n N| |]; cbn [g_x86 z_x z_q y_r y_fs y_gs].
    + destruct (n =? 1); split; vm_compute; congruence.
    + split; [lia|]. assert (2 ^ 128 > 1000) by (vm_compute; reflexivity). lia.
    + split; vm_compute; congruence.
    + split; vm_compute; congruence.
  - reflexivity.
  - intros k g n d _ N _. apply nth_error_In in N.
    assert (IN : In (d_i _ d) xp_loop) by (vm_compute in N; repeat (destruct N as [<-|N]; [cbn; tauto|]); destruct N).
    assert (KS : forall x, xkc_sound (kz n) x) by (intros x r z _ Q; discriminate Q).
    destruct IN as [<-|IN].
    { cbn [z_good]. repeat (split; [reflexivity || apply KS || discriminate || idtac|]); try exact I; try discriminate. }
    repeat (destruct IN as [<-|IN]; [cbn [z_good xmk x_mn]; repeat (split; [reflexivity || apply KS || discriminate || exact I || idtac|]); try discriminate|]).
    destruct IN.
Qed.
Example ex_x86_tail_not_called : exists k S p mem, @ireturn_at fpu_ex xc_call em_x npc_x L_x S_x p_start (fun _ => 0) k S p mem /\
  f_first (l_fn L_x) exitb <> Some k /\ @treturn fpu_ex xc_call em_x npc_x L_x (Some 9) S_x p_start (fun _ => 0) (cpu_of S p mem).
Proof.
  assert (X : match @calli_at fpu_ex xc_call em_x npc_x L_x 60 S_x p_start (fun _ => 0), f_first (l_fn L_x) exitb with
              | Some (k, _), Some k' => Nat.eqb k k' = false | _, _ => False end) by (vm_compute; reflexivity).
  destruct (@calli_at fpu_ex xc_call em_x npc_x L_x 60 S_x p_start (fun _ => 0)) as [[k [[SS p] mem]]|] eqn:E; [|contradiction].
  pose proof (@calli_at_ok fpu_ex xc_call em_x npc_x L_x S_x p_start (fun _ => 0) 60 k SS p mem S_x_ok E) as IR.
  destruct (f_first (l_fn L_x) exitb) as [k'|] eqn:Q; [|contradiction].
  exists k, SS, p, mem. split; [exact IR|]. split; [clear - X; intro Q'; apply (f_equal (fun o => match o with Some n => n | None => k' end)) in Q'; cbn in Q'; rewrite Q', Nat.eqb_refl in X; discriminate X|].
  exists k, SS, p, mem. split; [exact IR|]. rewrite Q, X. reflexivity.
Qed.
