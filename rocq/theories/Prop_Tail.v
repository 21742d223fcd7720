(** Property C67: the tail function, RV64 and AArch64. *)

From Coq Require Import ZArith Lia ZifyBool List Bool Arith Cantor.
From Verif Require Import Rv64Mem Prop_Cfg Bits IR IrMono Facet Dsl RegFile RegFileOk RegScript Layout Cfg CfgHeap CfgLog CfgBuild CfgSem Decode DecodeOk DecodeRv
  Rv64 Rv64Spec Rv64Sim Rv64Step LiftFn LiftSim LiftEdge LiftRv LiftExit Rv64Ex Prop_Lift A64 A64Spec A64Sim LiftA64 Prop_LiftA64 Lower LowerOk LowerSem IrWf LowerEx IrExec Prop_Ir Prop_Exit Prop_ExitA64.
Import ListNotations.
Open Scope Z_scope.

(** ** Where the emitted function returns *)
(** The emitted function returns from the exit block if and only if the statements do
    not end with a return. *)
Lemma emitted_code_ends : forall `{FpuOps} c Ins (ds : dst Ins) a0 cfold gcache bs M npc is_undef fuel ord L S0 p0 m0 s0 x0,
  lower c Ins ds a0 cfold gcache bs = Some (M, npc) ->
  undef_sound (c_arch c) is_undef -> all_blocks (m_f M) ord -> Cfg.finish (c_arch c) is_undef fuel (m_f M) ord = Some L ->
  LowerSem.ext_ok c -> fold_ok c M npc L S0 p0 m0 ->
  goto (LA := plain_lang) Ins ds bs a0 s0 = Ok x0 -> (forall n, exists x, lsteps (LA := plain_lang) Ins c ds bs n x0 = Ok x) ->
  s_mem s0 = m0 -> (forall r, held (c_arch c) r -> ole (s_reg s0 r) (rbits (S0 r))) ->
  (forall s, x0 <> COut (LA := plain_lang) Ins s) ->
  forall k S p mem, ireturn_at c M npc L S0 p0 m0 k S p mem ->
    exists n e s v, lsteps (LA := plain_lang) Ins c ds bs n x0 = Ok (CRun (LA := plain_lang) Ins [] e s) /\
      lstep (LA := plain_lang) Ins c ds bs (CRun (LA := plain_lang) Ins [] e s) = Ok (COut (LA := plain_lang) Ins s) /\ s_mem s = mem /\
      (forall r, held (c_arch c) r -> ole (s_reg s r) (rbits (S r))) /\ pc_value c (s_pc s) 0 = Ok v /\ (v = p \/ v = Poison (ty_of p)) /\
      (f_first (l_fn L) exitb = Some k <-> e <> BRet).
Proof.
  intros F c Ins ds a0 cfold gcache bs M npc is_undef fuel ord L S0 p0 m0 s0 x0 LO US AB FIN EM FO E0 HO SM RG NX k S p mem IR.
  assert (ONE : forall e s s', lstep (LA := plain_lang) Ins c ds bs (CRun (LA := plain_lang) Ins [] e s) = Ok (COut (LA := plain_lang) Ins s') -> s' = s).
  { intros e s s' E. destruct e; cbn [lstep] in E; try (injection E as <-; reflexivity).
    destruct (pc_branch c (s_pc s)) as [[[kk a1] a2]| |]; cbn [bind] in E; try discriminate E. destruct (target kk a1 a2); cbn [bind] in E; try discriminate E.
    unfold goto in E. destruct (resolve Ins ds a); [destruct (block_at (LA := plain_lang) Ins bs a); discriminate E|]. injection E as <-. reflexivity. }
  destruct (lowered_sim_at c Ins ds a0 cfold gcache bs M npc L is_undef fuel ord LO US AB FIN EM S0 p0 m0 FO s0 x0 E0 HO SM RG) as [_ RT].
  destruct (RT k S p mem IR) as (n & s & v & ST & SM' & SR & PV & PL & WH).
  assert (FF : f_first (l_fn L) = f_first (m_f M)) by (apply (shapes c Ins ds a0 cfold gcache bs M npc L is_undef fuel ord LO US AB FIN)). rewrite FF.
  destruct WH as [[KX VX]|(KX & n' & -> & s' & PS)].
  - destruct n as [|n]; [cbn [lsteps] in ST; injection ST as ST; destruct (NX s ST)|]. destruct VX as (e & s' & NR & PS).
    rewrite lsteps_snoc, PS in ST. cbn [bind] in ST. pose proof (ONE _ _ _ ST) as ->.
    exists n, e, s', v. repeat (split; [assumption|]). split; intros _; assumption.
  - rewrite lsteps_snoc, PS in ST. cbn [bind] in ST. pose proof (ONE _ _ _ ST) as ->.
    exists n', BRet, s', v. repeat (split; [assumption|]). split; [intro Q; contradiction|intro Q; destruct (Q eq_refl)].
Qed.
(** What the caller gets: [b] tells whether the exit block has been left. *)
Lemma treturn_cases : forall `{FpuOps} c M npc L tail S0 p0 m0 u, treturn c M npc L tail S0 p0 m0 u ->
  exists k S p mem, ireturn_at c M npc L S0 p0 m0 k S p mem /\
    ((f_first (l_fn L) exitb = Some k /\ u = match tail with Some T => c_ext c T (cpu_of S p mem) | None => cpu_of S p mem end) \/
     (f_first (l_fn L) exitb <> Some k /\ u = cpu_of S p mem)).
Proof.
  intros F c M npc L tail S0 p0 m0 u (k & S & p & mem & IR & ->). exists k, S, p, mem. split; [exact IR|].
  destruct (f_first (l_fn L) exitb) as [k'|]; [|right; split; [discriminate|destruct tail; reflexivity]].
  destruct (Nat.eqb_spec k k') as [->|N]; [left; split; [reflexivity|destruct tail; reflexivity]|right; split; [congruence|destruct tail; reflexivity]].
Qed.

(** ** Specification *)
(** The CPU struct and the memory, as another function sees them, hold a guest state. *)
Definition rv_struct (u : cpu) (g : gst) : Prop :=
  u_pc u = Some (g_pc g) /\ (forall n, 0 < n < 32 -> u_reg u (GP n) = Some (g_x g n)) /\ (forall n, 0 <= n < 32 -> u_reg u (VEC n) = Some (g_f g n)) /\
  (forall x, u_mem u x = g_mem g x).
Definition a64_struct (u : cpu) (g : kst) : Prop :=
  u_pc u = Some (k_pc g) /\ (forall n, 0 <= n < 31 -> u_reg u (GP n) = Some (k_x g n)) /\ u_reg u (GP 31) = Some (k_sp g) /\
  (forall f b, k_f g f = Some b -> u_reg u (kcell f) = Some (b2z b)) /\ (forall n, 0 <= n < 32 -> u_reg u (VEC n) = Some (k_q g n)) /\
  u_reg u TPIDR = Some (k_tp g) /\ (forall x, u_mem u x = k_m g x).
(** What a function with the tail function [tail] (ll_config_set_tail_func) leaves for
    its caller, when the guest stopped with the CPU struct [v]. [ret]: by a return
    instruction. *)
Definition tail_result (c : cenv) (tail : option Z) (ret : Prop) (v u : cpu) : Prop :=
  match tail with None => u = v | Some T => (ret /\ u = v) \/ (~ ret /\ u = c_ext c T v) end.

(** ** C67 *)
(** RV64. A call of the emitted function that returns leaves, if the guest has executed
    a return instruction, the guest's state; otherwise what the tail function makes of
    the guest's state. In the latter case the guest has executed an instruction after
    which control leaves the function, or is about to execute one that is not
    supported. Missing: see [rv64_function_left_partial]. *)
Theorem rv64_tail_function_partial : forall `{FpuOps} c cfg kc fetch dec E ds a0 bs g0 cfold gcache M npc is_undef fuel ord L S0 p0 m0 tail u,
  c_arch c = RV64 -> gbase_ok c -> LiftRv.ext_ok c -> LowerSem.ext_ok c ->
  rcalls dec (has_call cfg) E ds ->
  (forall a i, dec a = Some i -> r_start i = a /\ rv_dec i /\ fetch (addr_pc_base c a) = Some i) ->
  rlift c cfg kc true (f_ins _ ds) = LFn (a0, bs) ->
  lower c rvinst ds a0 cfold gcache bs = Some (M, npc) ->
  undef_sound RV64 is_undef -> all_blocks (m_f M) ord -> Cfg.finish RV64 is_undef fuel (m_f M) ord = Some L -> fold_ok c M npc L S0 p0 m0 ->
  rv_holds S0 m0 g0 -> rv_range g0 -> g_pc g0 = addr_pc_base c a0 ->
  (forall i s, visits rvinst c ds a0 bs (rv_st0 g0 m0) i s -> kc_sound (kc i) s) ->
  (forall k g i, gsteps (rv_step c cfg fetch) k g0 g -> fetch (g_pc g) = Some i -> rv_good c cfg i g) ->
  treturn c M npc L tail S0 p0 m0 u ->
  exists k g v, gsteps (rv_step c cfg fetch) k g0 g /\ rv_struct v g /\
  ((exists i, fetch (g_pc g) = Some i /\ rv_unsupported i /\ tail_result c tail False v u) \/
   (exists k' g' i, gsteps (rv_step c cfg fetch) k' g0 g' /\ fetch (g_pc g') = Some i /\ rv_step c cfg fetch g' g /\
      rv_leaves cfg (addr_pc_base c) dec i g /\ tail_result c tail (rv_returns cfg i) v u)).
Proof.
  intros F c cfg kc fetch dec E ds a0 bs g0 cfold gcache M npc is_undef fuel ord L S0 p0 m0 tail u HA GB EX EM DC DE LI LO US AB FIN FO HO0 RG0 P0 KC GD TR.
  assert (DA : decoded_all rvinst r_len rv_cls (has_call cfg) ds).
  { clear - DC. induction DC as [|E0 s0 n0 a s' D IH X]; [constructor|]. econstructor; eassumption. }
  pose proof (decoded_cf_decoded _ _ _ _ _ (decoded_all_cf _ _ _ _ _ DA)) as D.
  assert (FE : forall d, In d (f_ins _ ds) -> r_start (d_i _ d) = d_start _ d /\ fetch (addr_pc_base c (d_start _ d)) = Some (d_i _ d)).
  { intros d I0. destruct (calls_cinv _ _ _ _ _ _ _ DC) as [C _]. apply In_nth_error in I0. destruct I0 as [j N].
    destruct (DE _ _ (proj2 (c_ins _ _ _ _ _ _ _ C j d N))) as (X1 & _ & X2). split; assumption. }
  destruct (rv64_setup c cfg kc fetch ds a0 bs g0 S0 m0 HA GB EX D FE LI HO0 RG0 P0 KC GD) as (x0 & E0 & SI & RG).
  assert (HO : forall n, exists x, lsteps (LA := plain_lang) rvinst c ds bs n x0 = Ok x) by (intro n; destruct (SI n) as (x & EQ & _); eauto).
  assert (NX : forall s, x0 <> COut (LA := plain_lang) rvinst s).
  { destruct (enter_ok rvinst r_len rv_cls (rv_lf c cfg kc) ds a0 bs (decoded_inv _ _ _ _ D) LI (rv_st0 g0 m0)) as (b & i & d & EB & _).
    unfold enter in EB. rewrite E0 in EB. injection EB as ->. discriminate. }
  rewrite <- HA in US, FIN.
  destruct (treturn_cases _ _ _ _ _ _ _ _ _ TR) as (k & S & p & mem & IR & UU).
  destruct (emitted_code_ends c rvinst ds a0 cfold gcache bs M npc is_undef fuel ord L S0 p0 m0 (rv_st0 g0 m0) x0 LO US AB FIN EM FO E0 HO eq_refl RG NX k S p mem IR)
    as (n & e & s & v & ST & LS & SM & SR & PV & PL & KX).
  destruct (rv64_left_how c cfg kc fetch dec E ds a0 bs (rv_st0 g0 m0) g0 HA GB EX DC DE LI (rv_rel0 S0 g0 m0 HO0 RG0) P0 KC GD x0 n e s E0 ST LS)
    as (k1 & g & GS & [RX RXR RF RFR RM] & PC & WH).
  exists k1, g, (cpu_of S p mem). split; [exact GS|]. rewrite HA in SR. destruct rv_mapped as [MG MV]. split.
  { unfold pc_at in PC. rewrite PC in PV. injection PV as <-. split; [|split; [|split]]; cbn [cpu_of u_pc u_reg u_mem].
    - destruct PL as [<-|Q]; [reflexivity|discriminate].
    - intros n' I0. apply (SR (GP n')); [left; apply MG; lia|]. apply RX. lia.
    - intros n' I0. apply (SR (VEC n')); [left; apply MV; lia|]. apply RF.
    - intro y. rewrite <- SM. apply RM. }
  destruct WH as [[NR (i & FI & UI)]|(k' & g' & i & X1 & X2 & X3 & X4 & X5)].
  - left. exists i. split; [exact FI|]. split; [exact UI|]. unfold tail_result. destruct UU as [[_ ->]|[NK _]]; [|destruct NK; apply KX; exact NR].
    destruct tail; [right; tauto|reflexivity].
  - right. exists k', g', i. repeat (split; [assumption|]). unfold tail_result. destruct UU as [[K ->]|[NK ->]]; (destruct tail; [|reflexivity]).
    + right. split; [|reflexivity]. intro Q. apply KX in K. apply K, X5, Q.
    + left. split; [|reflexivity]. apply X5. destruct e; try reflexivity; destruct NK; apply KX; discriminate.
Qed.
Print Assumptions rv64_tail_function_partial.

(** AArch64. *)
Theorem a64_tail_function : forall `{FpuOps} c cfg unk fetch dec E ds a0 bs g0 cfold gcache M npc is_undef fuel ord L S0 p0 m0 tail u,
  c_arch c = AArch64 -> kext_ok c -> LowerSem.ext_ok c ->
  calls ainst a_len (a_cls unk) dec (a_has_call cfg) E ds ->
  (forall a i, dec a = Some i -> a_start i = a /\ fetch (addr_pc_base c a) = Some i) ->
  alift cfg true (f_ins _ ds) = LFn (a0, bs) ->
  lower c ainst ds a0 cfold gcache bs = Some (M, npc) ->
  undef_sound AArch64 is_undef -> all_blocks (m_f M) ord -> Cfg.finish AArch64 is_undef fuel (m_f M) ord = Some L -> fold_ok c M npc L S0 p0 m0 ->
  a64_holds S0 m0 g0 -> a64_range g0 -> k_pc g0 = addr_pc_base c a0 ->
  (forall k g i, gsteps (a64_step c cfg fetch) k g0 g -> fetch (k_pc g) = Some i -> a64_good c cfg i g) ->
  treturn c M npc L tail S0 p0 m0 u ->
  exists k g v, gsteps (a64_step c cfg fetch) k g0 g /\ a64_struct v g /\
  ((exists i, fetch (k_pc g) = Some i /\ a_unsup i = true /\ tail_result c tail False v u) \/
   (exists k' g' i, gsteps (a64_step c cfg fetch) k' g0 g' /\ fetch (k_pc g') = Some i /\ a64_step c cfg fetch g' g /\
      a_leaves cfg (addr_pc_base c) dec i g /\ tail_result c tail (a_returns cfg i) v u)).
Proof.
  intros F c cfg unk fetch dec E ds a0 bs g0 cfold gcache M npc is_undef fuel ord L S0 p0 m0 tail u HA EX EM DC DE LI LO US AB FIN FO HO0 RG0 P0 GD TR.
  assert (DA : decoded_all ainst a_len (a_cls unk) (a_has_call cfg) ds).
  { clear - DC. induction DC as [|E0 s0 n0 a s' D IH X]; [constructor|]. econstructor; eassumption. }
  pose proof (decoded_cf_decoded _ _ _ _ _ (decoded_all_cf _ _ _ _ _ DA)) as D.
  assert (FE : forall d, In d (f_ins _ ds) -> a_start (d_i _ d) = d_start _ d /\ fetch (addr_pc_base c (d_start _ d)) = Some (d_i _ d)).
  { intros d I0. destruct (calls_cinv _ _ _ _ _ _ _ DC) as [C _]. apply In_nth_error in I0. destruct I0 as [j N].
    exact (DE _ _ (proj2 (c_ins _ _ _ _ _ _ _ C j d N))). }
  destruct (a64_setup c cfg unk fetch ds a0 bs g0 S0 m0 HA EX D FE LI HO0 RG0 P0 GD) as (x0 & E0 & SI & RG).
  assert (HO : forall n, exists x, lsteps (LA := plain_lang) ainst c ds bs n x0 = Ok x) by (intro n; destruct (SI n) as (x & EQ & _); eauto).
  assert (NX : forall s, x0 <> COut (LA := plain_lang) ainst s).
  { destruct (enter_ok ainst a_len (a_cls unk) (a_lf cfg) ds a0 bs (decoded_inv _ _ _ _ D) LI (a64_st0 g0 m0)) as (b & i & d & EB & _).
    unfold enter in EB. rewrite E0 in EB. injection EB as ->. discriminate. }
  rewrite <- HA in US, FIN.
  destruct (treturn_cases _ _ _ _ _ _ _ _ _ TR) as (k & S & p & mem & IR & UU).
  destruct (emitted_code_ends c ainst ds a0 cfold gcache bs M npc is_undef fuel ord L S0 p0 m0 (a64_st0 g0 m0) x0 LO US AB FIN EM FO E0 HO eq_refl RG NX k S p mem IR)
    as (n & e & s & v & ST & LS & SM & SR & PV & PL & KX).
  destruct (a64_left_how c cfg unk fetch dec E ds a0 bs (a64_st0 g0 m0) g0 HA EX DC DE LI (a64_rel0 S0 g0 m0 HO0 RG0) P0 GD x0 n e s E0 ST LS)
    as (k1 & g & GS & KR & PC & WH).
  exists k1, g, (cpu_of S p mem). split; [exact GS|]. rewrite HA in SR. destruct a64_mapped as (MG & MV & MF). split.
  { unfold kpc_at in PC. rewrite PC in PV. injection PV as <-. subst mem. destruct KR. split; [|split; [|split; [|split; [|split; [|split]]]]]; cbn [cpu_of u_pc u_reg u_mem].
    - destruct PL as [<-|Q]; [reflexivity|discriminate].
    - intros n' I0. apply (SR (GP n')); [left; apply MG; lia|auto].
    - apply (SR (GP 31)); [left; apply MG; lia|auto].
    - intros f b Q. apply (SR (kcell f) (or_introl (MF f))). auto.
    - intros n' I0. apply (SR (VEC n')); [left; apply MV; lia|auto].
    - apply (SR TPIDR); [right; reflexivity|auto].
    - auto. }
  destruct WH as [[NR (i & FI & UI)]|(k' & g' & i & X1 & X2 & X3 & X4 & X5)].
  - left. exists i. split; [exact FI|]. split; [exact UI|]. unfold tail_result. destruct UU as [[_ ->]|[NK _]]; [|destruct NK; apply KX; exact NR].
    destruct tail; [right; tauto|reflexivity].
  - right. exists k', g', i. repeat (split; [assumption|]). unfold tail_result. destruct UU as [[K ->]|[NK ->]]; (destruct tail; [|reflexivity]).
    + right. split; [|reflexivity]. intro Q. apply KX in K. apply K, X5, Q.
    + left. split; [|reflexivity]. apply X5. destruct e; try reflexivity; destruct NK; apply KX; discriminate.
Qed.
Print Assumptions a64_tail_function.

(** ** Examples *)
(** The loop of Prop_Lift.v, with the tail function 9: left by its return instruction,
    so that the tail function is not called. *)
Lemma p_loop_dec : forall a i, prog p_loop a = Some i -> r_start i = a /\ rv_dec i /\ prog p_loop (addr_pc_base c_ret a) = Some i.
Proof.
  intros a i Q.
  assert (IN : In a [0x1000; 0x1004; 0x1008; 0x100c]).
  { unfold p_loop in Q. cbn [prog r_start insn] in Q. cbn [In].
    repeat match type of Q with (if ?x =? ?y then _ else _) = _ => destruct (Z.eqb_spec x y); [tauto|] end. discriminate Q. }
  cbn [In] in IN. destruct IN as [<-|[<-|[<-|[<-|[]]]]]; vm_compute in Q; injection Q as <-; (split; [reflexivity|]); (split; [|reflexivity]);
    unfold rv_dec, jal_dec, FRV_REG_INV; cbn; intros [Q|Q]; try discriminate Q; [left|right]; split; (reflexivity || discriminate).
Qed.
Example ex_tail_return : forall u, @treturn fpu0 c_ret em_loop npc_loop L_loop (Some 9) S_loop p_start (fun _ => 0) u ->
  exists k g v, gsteps (@rv_step fpu0 c_ret cfg_call (prog p_loop)) k g_start g /\ rv_struct v g /\
  ((exists i, prog p_loop (g_pc g) = Some i /\ rv_unsupported i /\ tail_result c_ret (Some 9) False v u) \/
   (exists k' g' i, gsteps (@rv_step fpu0 c_ret cfg_call (prog p_loop)) k' g_start g' /\ prog p_loop (g_pc g') = Some i /\ @rv_step fpu0 c_ret cfg_call (prog p_loop) g' g /\
      rv_leaves cfg_call (addr_pc_base c_ret) (prog p_loop) i g /\ tail_result c_ret (Some 9) (rv_returns cfg_call i) v u)).
Proof.
  intro u. apply (@rv64_tail_function_partial fpu0 c_ret cfg_call (fun _ => kc_ex) (prog p_loop) (prog p_loop) [0x1000] ds_loop 0x1000 bs_loop g_start (fun _ _ => None) (fun _ => true)
           em_loop npc_loop (fun _ => false) 40%nat ord_loop L_loop S_loop p_start (fun _ => 0)).
  - reflexivity.
  - exact I.
  - exact ext_ret.
  - exact ext_ret_mono.
  - exact ds_loop_calls.
  - exact p_loop_dec.
  - reflexivity.
  - exact low_loop_eq.
  - intros v Q. discriminate.
  - intro b. unfold ord_loop. rewrite in_seq. lia.
  - exact fin_loop_eq.
  - intros k e S p mem mem' x z _ _ I0. destruct ex_loop_shape as (_ & _ & _ & E). rewrite E in I0. destruct I0.
  - split; [|split]; intros; reflexivity.
  - split; intros; cbn [g_start g_x g_f]; [destruct (n =? 5)|]; split; vm_compute; congruence.
  - reflexivity.
  - intros i s _ r z Q. discriminate.
  - apply (@p_loop_good fpu0). reflexivity.
Qed.
Example ex_tail_not_called : exists k S p mem, @ireturn_at fpu0 c_ret em_loop npc_loop L_loop S_loop p_start (fun _ => 0) k S p mem /\
  f_first (l_fn L_loop) exitb <> Some k /\ @treturn fpu0 c_ret em_loop npc_loop L_loop (Some 9) S_loop p_start (fun _ => 0) (cpu_of S p mem).
Proof.
  assert (X : match @calli_at fpu0 c_ret em_loop npc_loop L_loop 40 S_loop p_start (fun _ => 0), f_first (l_fn L_loop) exitb with
              | Some (k, _), Some k' => Nat.eqb k k' = false | _, _ => False end) by (vm_compute; reflexivity).
  destruct (@calli_at fpu0 c_ret em_loop npc_loop L_loop 40 S_loop p_start (fun _ => 0)) as [[k [[SS p] mem]]|] eqn:E; [|contradiction].
  pose proof (@calli_at_ok fpu0 c_ret em_loop npc_loop L_loop S_loop p_start (fun _ => 0) 40 k SS p mem S_loop_ok E) as IR.
  destruct (f_first (l_fn L_loop) exitb) as [k'|] eqn:Q; [|contradiction].
  exists k, SS, p, mem. split; [exact IR|]. split; [clear - X; intro Q'; apply (f_equal (fun o => match o with Some n => n | None => k' end)) in Q'; cbn in Q'; rewrite Q', Nat.eqb_refl in X; discriminate X|].
  exists k, SS, p, mem. split; [exact IR|]. rewrite Q, X. reflexivity.
Qed.
(** Without a call function, the same code is left by its JAL: the tail function
    continues at the callee, with the return address in x1. *)
Definition p_tail : list rvinst := [insn R_ADDI 5 5 128 (-1) 0x1000; insn R_JAL 1 128 128 0x100 0x1004].
Definition ds_tail : dst rvinst := match rdecode (prog p_tail) MAll false 20 (dst0 _) 0x1000 with Some (Some s) => s | _ => dst0 _ end.
Definition bs_tail : list (lblock rvinst) := match rlift c_ret cfg_ex (fun _ => kc_ex) true (f_ins _ ds_tail) with LFn (_, bs) => bs | _ => [] end.
Definition low_tail := lower c_ret rvinst ds_tail 0x1000 (fun _ _ => None) (fun _ => true) bs_tail.
Definition em_tail : em := match low_tail with Some (m, _) => m | None => em0 end.
Definition npc_tail : nat := match low_tail with Some (_, n) => n | None => O end.
Definition ord_tail : list nat := seq 0 (f_nb (m_f em_tail)).
Definition fin_tail := Cfg.finish RV64 (fun _ => false) 40 (m_f em_tail) ord_tail.
Definition L_tail : lifted := match fin_tail with Some l => l | None => Lifted fn0 [] [] [] end.
Lemma low_tail_eq : lower c_ret rvinst ds_tail 0x1000 (fun _ _ => None) (fun _ => true) bs_tail = Some (em_tail, npc_tail).
Proof.
  assert (X : match low_tail with Some _ => true | None => false end = true) by (vm_compute; reflexivity).
  unfold em_tail, npc_tail, low_tail in *. destruct (lower _ _ _ _ _ _ _) as [[m n]|]; [reflexivity|discriminate].
Qed.
Lemma fin_tail_eq : Cfg.finish RV64 (fun _ => false) 40 (m_f em_tail) ord_tail = Some L_tail.
Proof.
  assert (X : match fin_tail with Some _ => true | None => false end = true) by (vm_compute; reflexivity).
  unfold L_tail, fin_tail in *. destruct (Cfg.finish _ _ _ _ _); [reflexivity|discriminate].
Qed.
Example ex_tail_called : exists u S p mem, @treturn fpu0 c_ret em_tail npc_tail L_tail (Some 9) S_loop p_start (fun _ => 0) u /\
  u = c_ext c_ret 9 (cpu_of S p mem) /\ rbits (S (GP 5)) = Some 2 /\ rbits (S (GP 1)) = Some 0x1008 /\ p = V (TInt 64) 0x1104 /\ u_pc u = Some 0x1008.
Proof.
  assert (X : match @calli_at fpu0 c_ret em_tail npc_tail L_tail 40 S_loop p_start (fun _ => 0), f_first (l_fn L_tail) exitb with
              | Some (k, (SS, p, _)), Some k' => Nat.eqb k k' = true /\ rbits (SS (GP 5)) = Some 2 /\ rbits (SS (GP 1)) = Some 0x1008 /\ p = V (TInt 64) 0x1104
              | _, _ => False end) by (vm_compute; repeat split; reflexivity).
  destruct (@calli_at fpu0 c_ret em_tail npc_tail L_tail 40 S_loop p_start (fun _ => 0)) as [[k [[SS p] mem]]|] eqn:E; [|contradiction].
  pose proof (@calli_at_ok fpu0 c_ret em_tail npc_tail L_tail S_loop p_start (fun _ => 0) 40 k SS p mem S_loop_ok E) as IR.
  destruct (f_first (l_fn L_tail) exitb) as [k'|] eqn:Q; [|contradiction]. destruct X as (X1 & X2 & X3 & X4).
  exists (c_ext c_ret 9 (cpu_of SS p mem)), SS, p, mem. repeat (split; [first [reflexivity | assumption | idtac]|]); [|exact X3].
  exists k, SS, p, mem. split; [exact IR|]. rewrite Q, X1. reflexivity.
Qed.
Lemma p_tail_in : forall a i, prog p_tail a = Some i -> In a [0x1000; 0x1004].
Proof.
  intros a i Q. unfold p_tail in Q. cbn [prog r_start insn] in Q. cbn [In].
  repeat match type of Q with (if ?x =? ?y then _ else _) = _ => destruct (Z.eqb_spec x y); [tauto|] end. discriminate Q.
Qed.
Example ex_tail_function : forall u, @treturn fpu0 c_ret em_tail npc_tail L_tail (Some 9) S_loop p_start (fun _ => 0) u ->
  exists k g v, gsteps (@rv_step fpu0 c_ret cfg_ex (prog p_tail)) k g_start g /\ rv_struct v g /\
  ((exists i, prog p_tail (g_pc g) = Some i /\ rv_unsupported i /\ tail_result c_ret (Some 9) False v u) \/
   (exists k' g' i, gsteps (@rv_step fpu0 c_ret cfg_ex (prog p_tail)) k' g_start g' /\ prog p_tail (g_pc g') = Some i /\ @rv_step fpu0 c_ret cfg_ex (prog p_tail) g' g /\
      rv_leaves cfg_ex (addr_pc_base c_ret) (prog p_tail) i g /\ tail_result c_ret (Some 9) (rv_returns cfg_ex i) v u)).
Proof.
  intro u. apply (@rv64_tail_function_partial fpu0 c_ret cfg_ex (fun _ => kc_ex) (prog p_tail) (prog p_tail) [0x1000] ds_tail 0x1000 bs_tail g_start (fun _ _ => None) (fun _ => true)
           em_tail npc_tail (fun _ => false) 40%nat ord_tail L_tail S_loop p_start (fun _ => 0)).
  - reflexivity.
  - exact I.
  - exact ext_ret.
  - exact ext_ret_mono.
  - eapply (calls1 _ _ _ _ _ [] (dst0 _) 20%nat 0x1000); [apply calls0|]. vm_compute. reflexivity.
  - intros a i Q. pose proof (p_tail_in a i Q) as IN.
    cbn [In] in IN. destruct IN as [<-|[<-|[]]]; vm_compute in Q; injection Q as <-; (split; [reflexivity|]); (split; [|reflexivity]);
      unfold rv_dec, jal_dec, FRV_REG_INV; cbn; intros [Q|Q]; try discriminate Q; left; split; reflexivity.
  - reflexivity.
  - exact low_tail_eq.
  - intros v Q. discriminate.
  - intro b. unfold ord_tail. rewrite in_seq. lia.
  - exact fin_tail_eq.
  - intros k e S p mem mem' x z _ _ I0. vm_compute in I0. destruct I0.
  - split; [|split]; intros; reflexivity.
  - split; intros; cbn [g_start g_x g_f]; [destruct (n =? 5)|]; split; vm_compute; congruence.
  - reflexivity.
  - intros i s _ r z Q. discriminate.
  - intros k g i _ Q. pose proof (p_tail_in _ i Q) as IN. cbn [In] in IN. destruct IN as [P|[P|[]]]; rewrite <- P in Q; vm_compute in Q; injection Q as <-; cbn.
    + split; [discriminate|exact I].
    + split; [left; split; reflexivity|discriminate].
Qed.
(** AArch64: the loop of Prop_LiftA64.v. *)
Example ex_a64_tail_function : forall u, @treturn fpu0 ac_ret em_a npc_a L_a (Some 9) S_a p_start (fun _ => 0) u ->
  exists k g v, gsteps (@a64_step fpu0 ac_ret acfg_call (aprog ap_loop)) k g_a g /\ a64_struct v g /\
  ((exists i, aprog ap_loop (k_pc g) = Some i /\ a_unsup i = true /\ tail_result ac_ret (Some 9) False v u) \/
   (exists k' g' i, gsteps (@a64_step fpu0 ac_ret acfg_call (aprog ap_loop)) k' g_a g' /\ aprog ap_loop (k_pc g') = Some i /\ @a64_step fpu0 ac_ret acfg_call (aprog ap_loop) g' g /\
      a_leaves acfg_call (addr_pc_base ac_ret) (aprog ap_loop) i g /\ tail_result ac_ret (Some 9) (a_returns acfg_call i) v u)).
Proof.
  intro u. apply (@a64_tail_function fpu0 ac_ret acfg_call aunk (aprog ap_loop) (aprog ap_loop) [0x1000] ads_loop 0x1000 abs_loop g_a (fun _ _ => None) (fun _ => true)
           em_a npc_a (fun _ => false) 40%nat ord_a L_a S_a p_start (fun _ => 0)).
  - reflexivity.
  - exact kext_ret.
  - intros f u1 u' (A1 & A2 & A3). split; [|split]; cbn; [apply A2; left; apply a64_mapped; lia|exact A2|exact A3].
  - exact ads_loop_calls.
  - intros a i Q.
    assert (IN : In a [0x1000; 0x1004; 0x1008; 0x100c]).
    { unfold ap_loop in Q. cbn [aprog a_start amk] in Q. cbn [In].
      repeat match type of Q with (if ?x =? ?y then _ else _) = _ => destruct (Z.eqb_spec x y); [tauto|] end. discriminate Q. }
    cbn [In] in IN. destruct IN as [<-|[<-|[<-|[<-|[]]]]]; vm_compute in Q; injection Q as <-; split; reflexivity.
  - reflexivity.
  - exact low_a_eq.
  - intros v Q. discriminate.
  - intro b. unfold ord_a. rewrite in_seq. lia.
  - exact fin_a_eq.
  - intros k e S p mem mem' x z _ _ I0. destruct ex_a64_shape as (_ & _ & E). rewrite E in I0. destruct I0.
  - split; [|split; [|split; [|split; [|split]]]]; try (intros; reflexivity). intros f b Q. discriminate.
  - split; [|split; [|split]]; cbn [g_a k_x k_sp k_q k_tp]; try (intros n N); try (destruct (n =? 3)); split; vm_compute; congruence.
  - reflexivity.
  - exact ap_loop_good.
Qed.
Example ex_a64_tail_returns : exists u, @treturn fpu0 ac_ret em_a npc_a L_a (Some 9) S_a p_start (fun _ => 0) u.
Proof. destruct ex_a64_emitted_returns as (S & p & mem & (k & IR) & _). eexists. exists k, S, p, mem. split; [exact IR|reflexivity]. Qed.
