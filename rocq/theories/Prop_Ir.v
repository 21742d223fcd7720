(** The emitted function: its executions are executions of the guest program. *)

From Coq Require Import ZArith Lia ZifyBool List Bool Arith Cantor.
From Verif Require Import Prop_Cfg Bits IR IrMono Facet Dsl RegFile RegFileOk RegScript Layout Cfg CfgHeap CfgLog CfgBuild CfgSem Decode DecodeOk DecodeRv
  Rv64 Rv64Spec Rv64Sim Rv64Step LiftFn LiftSim LiftRv Rv64Ex Prop_Lift A64 A64Spec A64Sim LiftA64 Prop_LiftA64 Lower LowerOk LowerSem IrWf LowerEx IrExec.
Import ListNotations.
Open Scope Z_scope.

(** ** C61 *)
(** The function emitted for the statements of any list of blocks, after PHI nodes,
    loads and stores of the CPU struct have been added: if running the statements
    ([lsteps]) has no undefined behaviour, then no execution of the emitted function
    has, and a return leaves memory, the CPU struct and the PC with what the
    statements compute. *)
Theorem emitted_code_refines_statements : forall `{FpuOps} c Ins (ds : dst Ins) a0 cfold gcache bs M npc is_undef fuel ord L S0 p0 m0 s0 x0,
  lower c Ins ds a0 cfold gcache bs = Some (M, npc) ->
  undef_sound (c_arch c) is_undef -> all_blocks (m_f M) ord -> Cfg.finish (c_arch c) is_undef fuel (m_f M) ord = Some L ->
  LowerSem.ext_ok c -> fold_ok c M npc L S0 p0 m0 ->
  goto (LA := plain_lang) Ins ds bs a0 s0 = Ok x0 -> (forall n, exists x, lsteps (LA := plain_lang) Ins c ds bs n x0 = Ok x) ->
  s_mem s0 = m0 -> (forall r, held (c_arch c) r -> ole (s_reg s0 r) (rbits (S0 r))) ->
  ~ ifail c M npc L S0 p0 m0 /\
  forall S p mem, ireturn c M npc L S0 p0 m0 S p mem ->
    exists n s v, lsteps (LA := plain_lang) Ins c ds bs n x0 = Ok (COut (LA := plain_lang) Ins s) /\ s_mem s = mem /\
      (forall r, held (c_arch c) r -> ole (s_reg s r) (rbits (S r))) /\ pc_value c (s_pc s) 0 = Ok v /\ (v = p \/ v = Poison (ty_of p)).
Proof. intros. eapply lowered_sim; eassumption. Qed.
Print Assumptions emitted_code_refines_statements.

(** If running the statements ends, the emitted function can be executed up to a
    return. The CPU struct, the PC and the registers that external functions leave
    hold values that fit them. *)
Theorem emitted_code_returns : forall `{FpuOps} c Ins (ds : dst Ins) a0 cfold gcache bs M npc is_undef fuel ord L S0 p0 m0 s0 x0 n s,
  lower c Ins ds a0 cfold gcache bs = Some (M, npc) ->
  undef_sound (c_arch c) is_undef -> all_blocks (m_f M) ord -> Cfg.finish (c_arch c) is_undef fuel (m_f M) ord = Some L ->
  LowerSem.ext_ok c -> fold_ok c M npc L S0 p0 m0 ->
  goto (LA := plain_lang) Ins ds bs a0 s0 = Ok x0 -> (forall n, exists x, lsteps (LA := plain_lang) Ins c ds bs n x0 = Ok x) ->
  s_mem s0 = m0 -> (forall r, held (c_arch c) r -> ole (s_reg s0 r) (rbits (S0 r))) ->
  ext_rng c -> slots_ok (c_arch c) S0 -> tw p0 (TInt 64) ->
  lsteps (LA := plain_lang) Ins c ds bs n x0 = Ok (COut (LA := plain_lang) Ins s) ->
  exists S p mem, ireturn c M npc L S0 p0 m0 S p mem.
Proof. intros. eapply lowered_returns; eassumption. Qed.
Print Assumptions emitted_code_returns.

(** *** RV64 *)
(** The CPU struct and the memory hold a guest state. *)
Definition rv_holds (S : slots) (mem : bytes) (g : gst) : Prop :=
  (forall n, 0 < n < 32 -> rbits (S (GP n)) = Some (g_x g n)) /\ (forall n, 0 <= n < 32 -> rbits (S (VEC n)) = Some (g_f g n)) /\ (forall x, mem x = g_mem g x).
Definition rv_range (g : gst) : Prop := (forall n, n <> 0 -> inr 64 (g_x g n)) /\ (forall n, inr 64 (g_f g n)).
(** The registers before the first statement. *)
Definition rv_st0 (g : gst) (mem : bytes) : st :=
  St (fun r => match r with GP n => if n =? 0 then None else Some (g_x g n) | VEC n => Some (g_f g n) | FLAG _ => None end)
     (PcVal (Poison (TInt 64))) mem (fun _ => None) false.
Lemma rv_mapped : (forall n, 0 <= n < 32 -> mapped RV64 (GP n)) /\ (forall n, 0 <= n < 32 -> mapped RV64 (VEC n)).
Proof.
  assert (X : forall P : Z -> Prop, (forall k, (k < 32)%nat -> P (Z.of_nat k)) -> forall n, 0 <= n < 32 -> P n).
  { intros P Q n I0. replace n with (Z.of_nat (Z.to_nat n)) by lia. apply Q. lia. }
  split; apply X; intros k LT; do 32 (destruct k as [|k]; [vm_compute; tauto|]); lia.
Qed.
Lemma rv_rel0 : forall S0 g0 m0, rv_holds S0 m0 g0 -> rv_range g0 -> Rv64Sim.rel (rv_st0 g0 m0) g0.
Proof.
  intros S0 g0 m0 (H1 & H2 & H3) [R1 R2].
  split; cbn [rv_st0 s_reg s_mem]; try assumption; [|reflexivity]. intros n N. destruct (Z.eqb_spec n 0); [contradiction|reflexivity].
Qed.
Lemma rv64_setup : forall `{FpuOps} c cfg kc fetch ds a0 bs g0 S0 m0,
  c_arch c = RV64 -> gbase_ok c -> LiftRv.ext_ok c ->
  decoded rvinst r_len rv_cls ds ->
  (forall d, In d (f_ins _ ds) -> r_start (d_i _ d) = d_start _ d /\ fetch (addr_pc_base c (d_start _ d)) = Some (d_i _ d)) ->
  rlift c cfg kc true (f_ins _ ds) = LFn (a0, bs) ->
  rv_holds S0 m0 g0 -> rv_range g0 -> g_pc g0 = addr_pc_base c a0 ->
  (forall i s, visits rvinst c ds a0 bs (rv_st0 g0 m0) i s -> kc_sound (kc i) s) ->
  (forall k g i, gsteps (rv_step c cfg fetch) k g0 g -> fetch (g_pc g) = Some i -> rv_good c cfg i g) ->
  exists x0, goto (LA := plain_lang) rvinst ds bs a0 (rv_st0 g0 m0) = Ok x0 /\
    (forall n, exists x, lsteps (LA := plain_lang) rvinst c ds bs n x0 = Ok x /\
      match x with
      | COut _ s => exists k g, gsteps (rv_step c cfg fetch) k g0 g /\ Rv64Sim.rel s g /\ pc_at c s g
      | CRun _ _ _ s => exists k g, gsteps (rv_step c cfg fetch) k g0 g /\ Rv64Sim.rel s g /\ (n <= 2 * k + 1)%nat
      end) /\
    (forall r, held (c_arch c) r -> ole (s_reg (rv_st0 g0 m0) r) (rbits (S0 r))).
Proof.
  intros F c cfg kc fetch ds a0 bs g0 S0 m0 HA GB EX D FE LI (H1 & H2 & H3) [R1 R2] P0 KC GD.
  pose proof (rv_rel0 S0 g0 m0 (conj H1 (conj H2 H3)) (conj R1 R2)) as R0.
  destruct (rv64_function_simulates c cfg kc fetch ds a0 bs (rv_st0 g0 m0) g0 HA GB EX D FE LI R0 P0 KC GD) as (x0 & E0 & SI).
  exists x0. split; [exact E0|]. split; [exact SI|].
  rewrite HA. intros r [MR|MR] z Q; [|discriminate MR]. cbn [rv_st0 s_reg] in Q. 
  assert (MM : (exists n, r = GP n /\ 0 <= n < 32) \/ (exists n, r = VEC n /\ 0 <= n < 32)).
  { unfold mapped in MR. vm_compute in MR. repeat (destruct MR as [<-|MR]; [first [left; eexists; split; [reflexivity|lia] | right; eexists; split; [reflexivity|lia]]|]). destruct MR. }
  destruct MM as [(n & -> & I0)|(n & -> & I0)].
  - destruct (Z.eqb_spec n 0); [discriminate|]. rewrite H1 by lia. exact Q.
  - rewrite H2 by assumption. exact Q.
Qed.
Theorem rv64_emitted_code_simulates : forall `{FpuOps} c cfg kc fetch ds a0 bs g0 cfold gcache M npc is_undef fuel ord L S0 p0 m0,
  c_arch c = RV64 -> gbase_ok c -> LiftRv.ext_ok c -> LowerSem.ext_ok c ->
  decoded rvinst r_len rv_cls ds ->
  (forall d, In d (f_ins _ ds) -> r_start (d_i _ d) = d_start _ d /\ fetch (addr_pc_base c (d_start _ d)) = Some (d_i _ d)) ->
  rlift c cfg kc true (f_ins _ ds) = LFn (a0, bs) ->
  lower c rvinst ds a0 cfold gcache bs = Some (M, npc) ->
  undef_sound RV64 is_undef -> all_blocks (m_f M) ord -> Cfg.finish RV64 is_undef fuel (m_f M) ord = Some L -> fold_ok c M npc L S0 p0 m0 ->
  rv_holds S0 m0 g0 -> rv_range g0 -> g_pc g0 = addr_pc_base c a0 ->
  (forall i s, visits rvinst c ds a0 bs (rv_st0 g0 m0) i s -> kc_sound (kc i) s) ->
  (forall k g i, gsteps (rv_step c cfg fetch) k g0 g -> fetch (g_pc g) = Some i -> rv_good c cfg i g) ->
  ~ ifail c M npc L S0 p0 m0 /\
  forall S p mem, ireturn c M npc L S0 p0 m0 S p mem ->
    exists k g, gsteps (rv_step c cfg fetch) k g0 g /\ rv_holds S mem g /\ p = V (TInt 64) (g_pc g).
Proof.
  intros F c cfg kc fetch ds a0 bs g0 cfold gcache M npc is_undef fuel ord L S0 p0 m0 HA GB EX EM D FE LI LO US AB FIN FO HO0 RG0 P0 KC GD.
  destruct (rv64_setup c cfg kc fetch ds a0 bs g0 S0 m0 HA GB EX D FE LI HO0 RG0 P0 KC GD) as (x0 & E0 & SI & RG).
  assert (HO : forall n, exists x, lsteps (LA := plain_lang) rvinst c ds bs n x0 = Ok x) by (intro n; destruct (SI n) as (x & E & _); eauto).
  rewrite <- HA in US, FIN.
  destruct (emitted_code_refines_statements c rvinst ds a0 cfold gcache bs M npc is_undef fuel ord L S0 p0 m0 (rv_st0 g0 m0) x0 LO US AB FIN EM FO E0 HO eq_refl RG) as [NF RT].
  split; [exact NF|]. intros S p mem IR. destruct (RT S p mem IR) as (n & s & v & ST & SM & SR & PV & PL).
  destruct (SI n) as (x & E & X). rewrite E in ST. injection ST as ->. destruct X as (k & g & GS & [RX RXR RF RFR RM] & PC).
  exists k, g. split; [exact GS|]. rewrite HA in SR. destruct rv_mapped as [MG MV]. split; [split; [|split]|].
  - intros n' I0. apply (SR (GP n')); [left; apply MG; lia|]. apply RX. lia.
  - intros n' I0. apply (SR (VEC n')); [left; apply MV; lia|]. apply RF.
  - intro y. rewrite <- SM. apply RM.
  - unfold pc_at in PC. rewrite PC in PV. injection PV as <-. destruct PL as [<-|Q]; [reflexivity|discriminate].
Qed.
Print Assumptions rv64_emitted_code_simulates.
(** For every [K], the emitted function has an execution that returns, in a state of
    the guest, or the guest has an execution of more than [K] steps ([fetch] may be
    just the decoded instructions). *)
Theorem rv64_emitted_code_returns : forall `{FpuOps} c cfg kc fetch ds a0 bs g0 cfold gcache M npc is_undef fuel ord L S0 p0 m0 K,
  c_arch c = RV64 -> gbase_ok c -> LiftRv.ext_ok c -> LowerSem.ext_ok c ->
  decoded rvinst r_len rv_cls ds ->
  (forall d, In d (f_ins _ ds) -> r_start (d_i _ d) = d_start _ d /\ fetch (addr_pc_base c (d_start _ d)) = Some (d_i _ d)) ->
  rlift c cfg kc true (f_ins _ ds) = LFn (a0, bs) ->
  lower c rvinst ds a0 cfold gcache bs = Some (M, npc) ->
  undef_sound RV64 is_undef -> all_blocks (m_f M) ord -> Cfg.finish RV64 is_undef fuel (m_f M) ord = Some L -> fold_ok c M npc L S0 p0 m0 ->
  rv_holds S0 m0 g0 -> rv_range g0 -> g_pc g0 = addr_pc_base c a0 ->
  (forall i s, visits rvinst c ds a0 bs (rv_st0 g0 m0) i s -> kc_sound (kc i) s) ->
  (forall k g i, gsteps (rv_step c cfg fetch) k g0 g -> fetch (g_pc g) = Some i -> rv_good c cfg i g) ->
  ext_rng c -> slots_ok RV64 S0 -> tw p0 (TInt 64) ->
  (exists S p mem k g, ireturn c M npc L S0 p0 m0 S p mem /\ gsteps (rv_step c cfg fetch) k g0 g /\ rv_holds S mem g /\ p = V (TInt 64) (g_pc g)) \/
  (exists k g, gsteps (rv_step c cfg fetch) k g0 g /\ (K < k)%nat).
Proof.
  intros F c cfg kc fetch ds a0 bs g0 cfold gcache M npc is_undef fuel ord L S0 p0 m0 K HA GB EX EM D FE LI LO US AB FIN FO HO0 RG0 P0 KC GD ER SO PO.
  destruct (rv64_setup c cfg kc fetch ds a0 bs g0 S0 m0 HA GB EX D FE LI HO0 RG0 P0 KC GD) as (x0 & E0 & SI & RG).
  assert (HO : forall n, exists x, lsteps (LA := plain_lang) rvinst c ds bs n x0 = Ok x) by (intro n; destruct (SI n) as (x & E & _); eauto).
  destruct (SI (2 * K + 2)%nat) as (x & E & X). destruct x as [segs en s|s]; [destruct X as (k & g & GS & _ & LE); right; exists k, g; split; [exact GS|lia]|left].
  destruct (rv64_emitted_code_simulates c cfg kc fetch ds a0 bs g0 cfold gcache M npc is_undef fuel ord L S0 p0 m0 HA GB EX EM D FE LI LO US AB FIN FO HO0 RG0 P0 KC GD) as [_ RT].
  rewrite <- HA in US, FIN, SO.
  destruct (emitted_code_returns c rvinst ds a0 cfold gcache bs M npc is_undef fuel ord L S0 p0 m0 (rv_st0 g0 m0) x0 _ s LO US AB FIN EM FO E0 HO eq_refl RG ER SO PO E) as (S & p & mem & IR).
  destruct (RT S p mem IR) as (k & g & Y). exists S, p, mem, k, g. auto.
Qed.
Print Assumptions rv64_emitted_code_returns.

(** *** AArch64 *)
Definition a64_holds (S : slots) (mem : bytes) (g : kst) : Prop :=
  (forall n, 0 <= n < 31 -> rbits (S (GP n)) = Some (k_x g n)) /\ rbits (S (GP 31)) = Some (k_sp g) /\
  (forall f b, k_f g f = Some b -> rbits (S (kcell f)) = Some (b2z b)) /\
  (forall n, 0 <= n < 32 -> rbits (S (VEC n)) = Some (k_q g n)) /\ (forall x, mem x = k_m g x) /\ rbits (S TPIDR) = Some (k_tp g).
Definition a64_range (g : kst) : Prop :=
  (forall n, 0 <= n < 31 -> inr 64 (k_x g n)) /\ inr 64 (k_sp g) /\ (forall n, 0 <= n < 32 -> inr 128 (k_q g n)) /\ inr 64 (k_tp g).
Definition a64_st0 (g : kst) (mem : bytes) : st :=
  St (fun r => match r with
               | GP n => if n =? 31 then Some (k_sp g) else if n =? 256 then Some (k_tp g) else Some (k_x g n)
               | VEC n => Some (k_q g n)
               | FLAG f => if f =? 0 then option_map b2z (k_f g fZ) else if f =? 1 then option_map b2z (k_f g fN)
                           else if f =? 3 then option_map b2z (k_f g fC) else if f =? 4 then option_map b2z (k_f g fV) else None
               end)
     (PcVal (Poison (TInt 64))) mem (fun _ => None) false.
Lemma a64_mapped : (forall n, 0 <= n < 32 -> mapped AArch64 (GP n)) /\ (forall n, 0 <= n < 32 -> mapped AArch64 (VEC n)) /\ (forall f, mapped AArch64 (kcell f)).
Proof.
  assert (X : forall P : Z -> Prop, (forall k, (k < 32)%nat -> P (Z.of_nat k)) -> forall n, 0 <= n < 32 -> P n).
  { intros P Q n I0. replace n with (Z.of_nat (Z.to_nat n)) by lia. apply Q. lia. }
  split; [|split]; [apply X; intros k LT; do 32 (destruct k as [|k]; [vm_compute; tauto|]); lia ..|].
  intros []; vm_compute; tauto.
Qed.
Lemma a64_rel0 : forall S0 g0 m0, a64_holds S0 m0 g0 -> a64_range g0 -> krel (a64_st0 g0 m0) g0.
Proof.
  intros S0 g0 m0 (H1 & H2 & H3 & H4 & H5 & H6) (R1 & R2 & R3 & R4).
  split; cbn [a64_st0 s_reg s_mem A64_SP TPIDR]; try assumption; try reflexivity.
  - intros n N. destruct (Z.eqb_spec n 31); [lia|]. destruct (Z.eqb_spec n 256); [lia|reflexivity].
  - intros [] b Q; cbn [kcell]; vm_compute kcell; cbv iota; cbn; rewrite Q; reflexivity.
Qed.
Lemma a64_setup : forall `{FpuOps} c cfg unk fetch ds a0 bs g0 S0 m0,
  c_arch c = AArch64 -> kext_ok c ->
  decoded ainst a_len (a_cls unk) ds ->
  (forall d, In d (f_ins _ ds) -> a_start (d_i _ d) = d_start _ d /\ fetch (addr_pc_base c (d_start _ d)) = Some (d_i _ d)) ->
  alift cfg true (f_ins _ ds) = LFn (a0, bs) ->
  a64_holds S0 m0 g0 -> a64_range g0 -> k_pc g0 = addr_pc_base c a0 ->
  (forall k g i, gsteps (a64_step c cfg fetch) k g0 g -> fetch (k_pc g) = Some i -> a64_good c cfg i g) ->
  exists x0, goto (LA := plain_lang) ainst ds bs a0 (a64_st0 g0 m0) = Ok x0 /\
    (forall n, exists x, lsteps (LA := plain_lang) ainst c ds bs n x0 = Ok x /\
      match x with
      | COut _ s => exists k g, gsteps (a64_step c cfg fetch) k g0 g /\ krel s g /\ kpc_at c s g
      | CRun _ _ _ s => exists k g, gsteps (a64_step c cfg fetch) k g0 g /\ krel s g /\ (n <= 2 * k + 1)%nat
      end) /\
    (forall r, held (c_arch c) r -> ole (s_reg (a64_st0 g0 m0) r) (rbits (S0 r))).
Proof.
  intros F c cfg unk fetch ds a0 bs g0 S0 m0 HA EX D FE LI (H1 & H2 & H3 & H4 & H5 & H6) (R1 & R2 & R3 & R4) P0 GD.
  pose proof (a64_rel0 S0 g0 m0 (conj H1 (conj H2 (conj H3 (conj H4 (conj H5 H6))))) (conj R1 (conj R2 (conj R3 R4)))) as R0.
  destruct (a64_function_simulates c cfg unk fetch ds a0 bs (a64_st0 g0 m0) g0 HA EX D FE LI R0 P0 GD) as (x0 & E0 & SI).
  exists x0. split; [exact E0|]. split; [exact SI|].
  rewrite HA. intros r [MR|MR] z Q; cbn [a64_st0 s_reg] in Q; [|apply areg_eqb_eq in MR; subst r; injection Q as <-; exact H6].
  assert (MM : (exists n, r = GP n /\ 0 <= n < 32) \/ (exists n, r = VEC n /\ 0 <= n < 32) \/ exists f, r = kcell f).
  { unfold mapped in MR. vm_compute in MR. repeat (destruct MR as [<-|MR];
      [first [left; eexists; split; [reflexivity|lia] | right; left; eexists; split; [reflexivity|lia]
             | right; right; exists fZ; reflexivity | right; right; exists fN; reflexivity | right; right; exists fC; reflexivity | right; right; exists fV; reflexivity]|]). destruct MR. }
  destruct MM as [(n & -> & I0)|[(n & -> & I0)|(f & ->)]].
  - destruct (Z.eqb_spec n 31); [subst; rewrite H2; exact Q|]. destruct (Z.eqb_spec n 256); [lia|]. rewrite H1 by lia. exact Q.
  - rewrite H4 by assumption. exact Q.
  - destruct f; cbn in Q; match type of Q with option_map _ ?X = _ => destruct X as [b|] eqn:B; [|discriminate] end; injection Q as <-; apply H3; exact B.
Qed.
Theorem a64_emitted_code_simulates : forall `{FpuOps} c cfg unk fetch ds a0 bs g0 cfold gcache M npc is_undef fuel ord L S0 p0 m0,
  c_arch c = AArch64 -> kext_ok c -> LowerSem.ext_ok c ->
  decoded ainst a_len (a_cls unk) ds ->
  (forall d, In d (f_ins _ ds) -> a_start (d_i _ d) = d_start _ d /\ fetch (addr_pc_base c (d_start _ d)) = Some (d_i _ d)) ->
  alift cfg true (f_ins _ ds) = LFn (a0, bs) ->
  lower c ainst ds a0 cfold gcache bs = Some (M, npc) ->
  undef_sound AArch64 is_undef -> all_blocks (m_f M) ord -> Cfg.finish AArch64 is_undef fuel (m_f M) ord = Some L -> fold_ok c M npc L S0 p0 m0 ->
  a64_holds S0 m0 g0 -> a64_range g0 -> k_pc g0 = addr_pc_base c a0 ->
  (forall k g i, gsteps (a64_step c cfg fetch) k g0 g -> fetch (k_pc g) = Some i -> a64_good c cfg i g) ->
  ~ ifail c M npc L S0 p0 m0 /\
  forall S p mem, ireturn c M npc L S0 p0 m0 S p mem ->
    exists k g, gsteps (a64_step c cfg fetch) k g0 g /\ a64_holds S mem g /\ p = V (TInt 64) (k_pc g).
Proof.
  intros F c cfg unk fetch ds a0 bs g0 cfold gcache M npc is_undef fuel ord L S0 p0 m0 HA EX EM D FE LI LO US AB FIN FO HO0 RG0 P0 GD.
  destruct (a64_setup c cfg unk fetch ds a0 bs g0 S0 m0 HA EX D FE LI HO0 RG0 P0 GD) as (x0 & E0 & SI & RG).
  assert (HO : forall n, exists x, lsteps (LA := plain_lang) ainst c ds bs n x0 = Ok x) by (intro n; destruct (SI n) as (x & E & _); eauto).
  rewrite <- HA in US, FIN.
  destruct (emitted_code_refines_statements c ainst ds a0 cfold gcache bs M npc is_undef fuel ord L S0 p0 m0 (a64_st0 g0 m0) x0 LO US AB FIN EM FO E0 HO eq_refl RG) as [NF RT].
  split; [exact NF|]. intros S p mem IR. destruct (RT S p mem IR) as (n & s & v & ST & SM & SR & PV & PL).
  destruct (SI n) as (x & E & X). rewrite E in ST. injection ST as ->. destruct X as (k & g & GS & [RX RXR RSP RSPR RF RQ RQR RTP RTPR RM] & PC).
  exists k, g. split; [exact GS|]. rewrite HA in SR. destruct a64_mapped as (MG & MV & MF). split; [split; [|split; [|split; [|split; [|split]]]]|].
  - intros n' I0. apply (SR (GP n')); [left; apply MG; lia|]. apply RX. lia.
  - apply (SR (GP 31)); [left; apply MG; lia|]. exact RSP.
  - intros f b Q. apply (SR (kcell f)); [left; apply MF|]. apply RF. exact Q.
  - intros n' I0. apply (SR (VEC n')); [left; apply MV; lia|]. apply RQ. exact I0.
  - intro y. rewrite <- SM. apply RM.
  - apply (SR TPIDR); [right; reflexivity|]. exact RTP.
  - unfold kpc_at in PC. rewrite PC in PV. injection PV as <-. destruct PL as [<-|Q]; [reflexivity|discriminate].
Qed.
Print Assumptions a64_emitted_code_simulates.
Theorem a64_emitted_code_returns : forall `{FpuOps} c cfg unk fetch ds a0 bs g0 cfold gcache M npc is_undef fuel ord L S0 p0 m0 K,
  c_arch c = AArch64 -> kext_ok c -> LowerSem.ext_ok c ->
  decoded ainst a_len (a_cls unk) ds ->
  (forall d, In d (f_ins _ ds) -> a_start (d_i _ d) = d_start _ d /\ fetch (addr_pc_base c (d_start _ d)) = Some (d_i _ d)) ->
  alift cfg true (f_ins _ ds) = LFn (a0, bs) ->
  lower c ainst ds a0 cfold gcache bs = Some (M, npc) ->
  undef_sound AArch64 is_undef -> all_blocks (m_f M) ord -> Cfg.finish AArch64 is_undef fuel (m_f M) ord = Some L -> fold_ok c M npc L S0 p0 m0 ->
  a64_holds S0 m0 g0 -> a64_range g0 -> k_pc g0 = addr_pc_base c a0 ->
  (forall k g i, gsteps (a64_step c cfg fetch) k g0 g -> fetch (k_pc g) = Some i -> a64_good c cfg i g) ->
  ext_rng c -> slots_ok AArch64 S0 -> tw p0 (TInt 64) ->
  (exists S p mem k g, ireturn c M npc L S0 p0 m0 S p mem /\ gsteps (a64_step c cfg fetch) k g0 g /\ a64_holds S mem g /\ p = V (TInt 64) (k_pc g)) \/
  (exists k g, gsteps (a64_step c cfg fetch) k g0 g /\ (K < k)%nat).
Proof.
  intros F c cfg unk fetch ds a0 bs g0 cfold gcache M npc is_undef fuel ord L S0 p0 m0 K HA EX EM D FE LI LO US AB FIN FO HO0 RG0 P0 GD ER SO PO.
  destruct (a64_setup c cfg unk fetch ds a0 bs g0 S0 m0 HA EX D FE LI HO0 RG0 P0 GD) as (x0 & E0 & SI & RG).
  assert (HO : forall n, exists x, lsteps (LA := plain_lang) ainst c ds bs n x0 = Ok x) by (intro n; destruct (SI n) as (x & E & _); eauto).
  destruct (SI (2 * K + 2)%nat) as (x & E & X). destruct x as [segs en s|s]; [destruct X as (k & g & GS & _ & LE); right; exists k, g; split; [exact GS|lia]|left].
  destruct (a64_emitted_code_simulates c cfg unk fetch ds a0 bs g0 cfold gcache M npc is_undef fuel ord L S0 p0 m0 HA EX EM D FE LI LO US AB FIN FO HO0 RG0 P0 GD) as [_ RT].
  rewrite <- HA in US, FIN, SO.
  destruct (emitted_code_returns c ainst ds a0 cfold gcache bs M npc is_undef fuel ord L S0 p0 m0 (a64_st0 g0 m0) x0 _ s LO US AB FIN EM FO E0 HO eq_refl RG ER SO PO E) as (S & p & mem & IR).
  destruct (RT S p mem IR) as (k & g & Y). exists S, p, mem, k, g. auto.
Qed.
Print Assumptions a64_emitted_code_returns.

(** ** Non-vacuity *)
(** The loop of Prop_Lift.v, with a call in each iteration, as it is emitted: five
    blocks, one PHI node, two stores to the CPU struct. *)
Definition low_loop := lower c_ret rvinst ds_loop 0x1000 (fun _ _ => None) (fun _ => true) bs_loop.
Definition em_loop : em := match low_loop with Some (m, _) => m | None => em0 end.
Definition npc_loop : nat := match low_loop with Some (_, n) => n | None => O end.
Definition ord_loop : list nat := seq 0 (f_nb (m_f em_loop)).
Definition fin_loop := Cfg.finish RV64 (fun _ => false) 40 (m_f em_loop) ord_loop.
Definition L_loop : lifted := match fin_loop with Some l => l | None => Lifted fn0 [] [] [] end.
Definition S_loop : slots := fun r => match r with GP n => V (nty RV64 r) (if n =? 5 then 3 else 0x9000) | VEC _ => V (nty RV64 r) 0 | FLAG _ => Poison (nty RV64 r) end.
Definition p_start : rv := V (TInt 64) 0x1000.
Definition g_start : gst := Gst (fun n => if n =? 5 then 3 else 0x9000) (fun _ => 0) 0x1000 (fun _ => 0).
Example ex_loop_shape : f_nb (m_f em_loop) = 5%nat /\ length (l_phis L_loop) = 1%nat /\ length (l_stores L_loop) = 2%nat /\ m_fold em_loop = [].
Proof. vm_compute. repeat split; reflexivity. Qed.
Lemma low_loop_eq : lower c_ret rvinst ds_loop 0x1000 (fun _ _ => None) (fun _ => true) bs_loop = Some (em_loop, npc_loop).
Proof.
  assert (X : match low_loop with Some _ => true | None => false end = true) by (vm_compute; reflexivity).
  unfold em_loop, npc_loop, low_loop in *. destruct (lower _ _ _ _ _ _ _) as [[m n]|]; [reflexivity|discriminate].
Qed.
Lemma fin_loop_eq : Cfg.finish RV64 (fun _ => false) 40 (m_f em_loop) ord_loop = Some L_loop.
Proof.
  assert (X : match fin_loop with Some _ => true | None => false end = true) by (vm_compute; reflexivity).
  unfold L_loop, fin_loop in *. destruct (Cfg.finish _ _ _ _ _); [reflexivity|discriminate].
Qed.
Lemma S_loop_ok : slots_ok RV64 S_loop.
Proof.
  intros []; split; try reflexivity; cbn [S_loop wf_rv]; try exact I; unfold inr.
  - destruct (i =? 5); vm_compute; split; congruence.
  - vm_compute; split; congruence.
Qed.
Lemma ext_ret_mono : LowerSem.ext_ok c_ret.
Proof. intros f u u' (A1 & A2 & A3). split; [|split]; cbn; [apply A2; left; apply rv_mapped; lia|exact A2|exact A3]. Qed.
(** It has an execution that returns, after three iterations with x5 = 0 and the PC
    in x1. *)
Example ex_emitted_returns : exists S p mem, @ireturn fpu0 c_ret em_loop npc_loop L_loop S_loop p_start (fun _ => 0) S p mem /\
  S (GP 5) = V (TInt 64) 0 /\ S (GP 1) = V (TInt 64) 0x1008 /\ p = V (TInt 64) 0x1008.
Proof.
  assert (X : match @calli fpu0 c_ret em_loop npc_loop L_loop 40 S_loop p_start (fun _ => 0) with
              | Some (SS, p, _) => SS (GP 5) = V (TInt 64) 0 /\ SS (GP 1) = V (TInt 64) 0x1008 /\ p = V (TInt 64) 0x1008 | None => False end)
    by (vm_compute; repeat split; reflexivity).
  destruct (@calli fpu0 c_ret em_loop npc_loop L_loop 40 S_loop p_start (fun _ => 0)) as [[[SS p] mem]|] eqn:E; [|contradiction].
  exists SS, p, mem. split; [|exact X]. apply (@calli_ok fpu0 c_ret em_loop npc_loop L_loop S_loop p_start (fun _ => 0) 40 SS p mem S_loop_ok E).
Qed.
Lemma ext_ret_rng : ext_rng c_ret.
Proof. intros g u RU r z MR U. cbn in U. apply RU; assumption. Qed.
Example ex_code : length (m_code em_loop 1) = 3%nat.
Proof. vm_compute. reflexivity. Qed.
(** All hypotheses of [rv64_emitted_code_simulates] hold of it. *)
Example ex_emitted_simulates :
  ~ @ifail fpu0 c_ret em_loop npc_loop L_loop S_loop p_start (fun _ => 0) /\
  forall S p mem, @ireturn fpu0 c_ret em_loop npc_loop L_loop S_loop p_start (fun _ => 0) S p mem ->
    exists k g, gsteps (@rv_step fpu0 c_ret cfg_call (prog p_loop)) k g_start g /\ rv_holds S mem g /\ p = V (TInt 64) (g_pc g).
Proof.
  apply (@rv64_emitted_code_simulates fpu0 c_ret cfg_call (fun _ => kc_ex) (prog p_loop) ds_loop 0x1000 bs_loop g_start (fun _ _ => None) (fun _ => true)
           em_loop npc_loop (fun _ => false) 40 ord_loop L_loop S_loop p_start (fun _ => 0)).
  - reflexivity.
  - exact I.
  - exact (ext_ret).
  - exact ext_ret_mono.
  - exact (decoded_cf_decoded _ _ _ _ _ (decoded_all_cf _ _ _ _ _ ds_loop_decoded)).
  - intros d I0. vm_compute in I0. repeat (destruct I0 as [<-|I0]; [split; reflexivity|]). destruct I0.
  - reflexivity.
  - exact low_loop_eq.
  - intros v Q. discriminate.
  - intro b. unfold ord_loop. rewrite in_seq. lia.
  - exact fin_loop_eq.
  - intros k e S p mem mem' x z _ _ I0. destruct ex_loop_shape as (_ & _ & _ & E). rewrite E in I0. destruct I0.
  - split; [|split]; intros; reflexivity.
  - split; intros; cbn [g_start g_x g_f]; [destruct (n =? 5)|]; split; vm_compute; congruence.
  - reflexivity.
  - intros i s _ r z Q. discriminate.
  - apply (@p_loop_good fpu0). reflexivity.
Qed.
Example ex_emitted_returns_or_loops : forall K,
  (exists S p mem k g, @ireturn fpu0 c_ret em_loop npc_loop L_loop S_loop p_start (fun _ => 0) S p mem /\
    gsteps (@rv_step fpu0 c_ret cfg_call (prog p_loop)) k g_start g /\ rv_holds S mem g /\ p = V (TInt 64) (g_pc g)) \/
  exists k g, gsteps (@rv_step fpu0 c_ret cfg_call (prog p_loop)) k g_start g /\ (K < k)%nat.
Proof.
  intro K.
  apply (@rv64_emitted_code_returns fpu0 c_ret cfg_call (fun _ => kc_ex) (prog p_loop) ds_loop 0x1000 bs_loop g_start (fun _ _ => None) (fun _ => true)
           em_loop npc_loop (fun _ => false) 40 ord_loop L_loop S_loop p_start (fun _ => 0)).
  - reflexivity.
  - exact I.
  - exact (ext_ret).
  - exact ext_ret_mono.
  - exact (decoded_cf_decoded _ _ _ _ _ (decoded_all_cf _ _ _ _ _ ds_loop_decoded)).
  - intros d I0. vm_compute in I0. repeat (destruct I0 as [<-|I0]; [split; reflexivity|]). destruct I0.
  - reflexivity.
  - exact low_loop_eq.
  - intros v Q. discriminate.
  - intro b. unfold ord_loop. rewrite in_seq. lia.
  - exact fin_loop_eq.
  - intros k e S p mem mem' x z _ _ I0. destruct ex_loop_shape as (_ & _ & _ & E). rewrite E in I0. destruct I0.
  - split; [|split]; intros; reflexivity.
  - split; intros; cbn [g_start g_x g_f]; [destruct (n =? 5)|]; split; vm_compute; congruence.
  - reflexivity.
  - intros i s _ r z Q. discriminate.
  - apply (@p_loop_good fpu0). reflexivity.
  - exact ext_ret_rng.
  - exact S_loop_ok.
  - split; [reflexivity|]. split; vm_compute; congruence.
Qed.

(** The loop of Prop_LiftA64.v, with BL in each iteration. *)
Definition low_a := lower ac_ret ainst ads_loop 0x1000 (fun _ _ => None) (fun _ => true) abs_loop.
Definition em_a : em := match low_a with Some (m, _) => m | None => em0 end.
Definition npc_a : nat := match low_a with Some (_, n) => n | None => O end.
Definition ord_a : list nat := seq 0 (f_nb (m_f em_a)).
Definition fin_a := Cfg.finish AArch64 (fun _ => false) 40 (m_f em_a) ord_a.
Definition L_a : lifted := match fin_a with Some l => l | None => Lifted fn0 [] [] [] end.
Definition S_a : slots := fun r => match r with GP n => V (nty AArch64 r) (if n =? 3 then 3 else 0x9000) | VEC _ => V (nty AArch64 r) 0 | FLAG _ => Poison (nty AArch64 r) end.
Definition g_a : kst := Kst (fun n => if n =? 3 then 3 else 0x9000) 0x9000 (fun _ => None) (fun _ => 0) 0x9000 0x1000 (fun _ => 0).
Example ex_a64_shape : f_nb (m_f em_a) = 5%nat /\ length (l_stores L_a) = 10%nat /\ m_fold em_a = [].
Proof. vm_compute. repeat split; reflexivity. Qed.
Lemma low_a_eq : lower ac_ret ainst ads_loop 0x1000 (fun _ _ => None) (fun _ => true) abs_loop = Some (em_a, npc_a).
Proof.
  assert (X : match low_a with Some _ => true | None => false end = true) by (vm_compute; reflexivity).
  unfold em_a, npc_a, low_a in *. destruct (lower _ _ _ _ _ _ _) as [[m n]|]; [reflexivity|discriminate].
Qed.
Lemma fin_a_eq : Cfg.finish AArch64 (fun _ => false) 40 (m_f em_a) ord_a = Some L_a.
Proof.
  assert (X : match fin_a with Some _ => true | None => false end = true) by (vm_compute; reflexivity).
  unfold L_a, fin_a in *. destruct (Cfg.finish _ _ _ _ _); [reflexivity|discriminate].
Qed.
Lemma S_a_ok : slots_ok AArch64 S_a.
Proof.
  intros []; split; try reflexivity; cbn [S_a wf_rv]; try exact I; unfold inr.
  - destruct (i =? 3); vm_compute; split; congruence.
  - vm_compute; split; congruence.
Qed.
Example ex_a64_emitted_returns : exists S p mem, @ireturn fpu0 ac_ret em_a npc_a L_a S_a p_start (fun _ => 0) S p mem /\
  S (GP 3) = V (TInt 64) 0 /\ S (GP 30) = V (TInt 64) 0x1008 /\ p = V (TInt 64) 0x1008.
Proof.
  assert (X : match @calli fpu0 ac_ret em_a npc_a L_a 40 S_a p_start (fun _ => 0) with
              | Some (SS, p, _) => SS (GP 3) = V (TInt 64) 0 /\ SS (GP 30) = V (TInt 64) 0x1008 /\ p = V (TInt 64) 0x1008 | None => False end)
    by (vm_compute; repeat split; reflexivity).
  destruct (@calli fpu0 ac_ret em_a npc_a L_a 40 S_a p_start (fun _ => 0)) as [[[SS p] mem]|] eqn:E; [|contradiction].
  exists SS, p, mem. split; [|exact X]. apply (@calli_ok fpu0 ac_ret em_a npc_a L_a S_a p_start (fun _ => 0) 40 SS p mem S_a_ok E).
Qed.
Lemma ap_loop_good : forall k g i, gsteps (@a64_step fpu0 ac_ret acfg_call (aprog ap_loop)) k g_a g -> aprog ap_loop (k_pc g) = Some i -> @a64_good fpu0 ac_ret acfg_call i g.
Proof.
  intros k g i _ FI. assert (IN : In i ap_loop).
  { unfold ap_loop, aprog in FI. cbn [amk a_start] in FI.
    repeat match type of FI with (if ?b then _ else _) = _ => destruct b eqn:? end; try discriminate FI; injection FI as <-; cbn; auto. }
  repeat (destruct IN as [<-|IN]; [unfold a64_good; cbn [a_unsup a_op amk]; split; [discriminate|]; split; [reflexivity|]; split; [|split; [reflexivity|exact I]]; intros fg Q; destruct Q|]). destruct IN.
Qed.
Example ex_a64_emitted_simulates : forall K,
  (~ @ifail fpu0 ac_ret em_a npc_a L_a S_a p_start (fun _ => 0)) /\
  ((exists S p mem k g, @ireturn fpu0 ac_ret em_a npc_a L_a S_a p_start (fun _ => 0) S p mem /\
    gsteps (@a64_step fpu0 ac_ret acfg_call (aprog ap_loop)) k g_a g /\ a64_holds S mem g /\ p = V (TInt 64) (k_pc g)) \/
  exists k g, gsteps (@a64_step fpu0 ac_ret acfg_call (aprog ap_loop)) k g_a g /\ (K < k)%nat).
Proof.
  intro K.
  assert (EM : LowerSem.ext_ok ac_ret).
  { intros f u u' (A1 & A2 & A3). split; [|split]; cbn; [apply A2; left; apply a64_mapped; lia|exact A2|exact A3]. }
  assert (D : decoded ainst a_len (a_cls aunk) ads_loop) by exact (decoded_cf_decoded _ _ _ _ _ (decoded_all_cf _ _ _ _ _ ads_loop_decoded)).
  assert (FE : forall d, In d (f_ins _ ads_loop) -> a_start (d_i _ d) = d_start _ d /\ aprog ap_loop (addr_pc_base ac_ret (d_start _ d)) = Some (d_i _ d)).
  { intros d I0. vm_compute in I0. repeat (destruct I0 as [<-|I0]; [split; reflexivity|]). destruct I0. }
  assert (LI : alift acfg_call true (f_ins _ ads_loop) = LFn (0x1000, abs_loop)) by apply ex_a64_edges.
  assert (HA : c_arch ac_ret = AArch64) by reflexivity.
  assert (P0 : k_pc g_a = addr_pc_base ac_ret 0x1000) by reflexivity.
  assert (US : @undef_sound fpu0 AArch64 (fun _ => false)) by (intros v Q; discriminate).
  assert (AB : all_blocks (m_f em_a) ord_a) by (intro b; unfold ord_a; rewrite in_seq; lia).
  assert (FO : @fold_ok fpu0 ac_ret em_a npc_a L_a S_a p_start (fun _ => 0)).
  { intros k e S p mem mem' x z _ _ I0. destruct ex_a64_shape as (_ & _ & E). rewrite E in I0. destruct I0. }
  assert (HO : a64_holds S_a (fun _ => 0) g_a).
  { split; [|split; [|split; [|split; [|split]]]]; try (intros; reflexivity). intros f b Q. discriminate. }
  assert (RG : a64_range g_a).
  { split; [|split; [|split]]; cbn [g_a k_x k_sp k_q k_tp]; try (intros n N); try (destruct (n =? 3)); split; vm_compute; congruence. }
  split.
  - exact (proj1 (@a64_emitted_code_simulates fpu0 ac_ret acfg_call aunk (aprog ap_loop) ads_loop 0x1000 abs_loop g_a (fun _ _ => None) (fun _ => true)
           em_a npc_a (fun _ => false) 40 ord_a L_a S_a p_start (fun _ => 0) HA kext_ret EM D FE LI low_a_eq US AB fin_a_eq FO HO RG P0 ap_loop_good)).
  - apply (@a64_emitted_code_returns fpu0 ac_ret acfg_call aunk (aprog ap_loop) ads_loop 0x1000 abs_loop g_a (fun _ _ => None) (fun _ => true)
           em_a npc_a (fun _ => false) 40 ord_a L_a S_a p_start (fun _ => 0) K HA kext_ret EM D FE LI low_a_eq US AB fin_a_eq FO HO RG P0 ap_loop_good).
    + intros g u RU r z MR U. cbn in U. apply RU; assumption.
    + exact S_a_ok.
    + split; [reflexivity|]. split; vm_compute; congruence.
Qed.
