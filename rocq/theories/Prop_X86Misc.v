(** C69: CPUID, RDTSC, fences and prefetches. *)

From Coq Require Import ZArith Lia ZifyBool List Bool.
From Verif Require Import Bits IR Facet Dsl Rv64 Rv64Spec Rv64Sim Rv64Ex X86 X86Spec X86Arith X86Sim X86Ops X86Ex X86Misc.
Import ListNotations.
Open Scope Z_scope.
Ltac Zify.zify_post_hook ::= Z.div_mod_to_equations.

(** ** Specification *)
(** What CPUID gives for the leaf and subleaf in EAX and ECX. *)
Record cpuinfo := CpuInfo { i_eax : Z; i_ebx : Z; i_ecx : Z; i_edx : Z }.
Definition cpuinfo_ok (x : cpuinfo) : Prop := inr 32 (i_eax x) /\ inr 32 (i_ebx x) /\ inr 32 (i_ecx x) /\ inr 32 (i_edx x).
(** The effect of an instruction (Intel SDM). Writes of 32-bit registers clear the upper
    halves; flags, memory and all other registers are kept. *)
Definition regs4 (g : xst) (a b cx d : Z) : xst :=
  set_r g (fun k => if k =? 0 then a else if k =? 1 then cx else if k =? 2 then d else if k =? 3 then b else y_r g k).
Definition mspec (leaf : Z -> Z -> cpuinfo) (tsc : Z) (i : minst) (g : xst) : xst :=
  let g1 := set_ip g (y_ip g + k_len i) in
  match k_mn i with
  | M_CPUID => let x := leaf (y_r g 0 mod 2^32) (y_r g 1 mod 2^32) in regs4 g1 (i_eax x) (i_ebx x) (i_ecx x) (i_edx x)
  | M_RDTSC => set_r g1 (fun k => if k =? 0 then tsc mod 2^32 else if k =? 2 then tsc / 2^32 else y_r g k)
  | _ => g1
  end.
(** The function given to ll_config_set_cpuinfo_func answers for [leaf], packed as
    config.h:102 says. *)
Definition answers (info : Z -> Z -> Z * Z) (leaf : Z -> Z -> cpuinfo) : Prop :=
  forall a b, inr 32 a -> inr 32 b -> cpuinfo_ok (leaf a b) /\
    info a b = (i_eax (leaf a b) + 2^32 * i_ecx (leaf a b), i_edx (leaf a b) + 2^32 * i_ebx (leaf a b)).
Definition no_info : Z -> Z -> cpuinfo := fun _ _ => CpuInfo 0 0 0 0.
Definition is_prefetch (i : minst) : bool := match k_mn i with M_CPUID | M_RDTSC | M_LFENCE | M_SFENCE | M_MFENCE => false | _ => true end.
(** Memory operands whose address is computed correctly (C31, and F57 below). *)
Definition pf_ok (cfg : xcfg) (i : minst) : bool :=
  match k_op0 i with
  | XMem _ m => wf_mem m && good_mem cfg (m_seg m) m && negb (((m_seg m =? 4) || (m_seg m =? 5)) && xl_nativeseg cfg)
  | _ => false
  end.
Record m_ctx (c : cenv) (cfg : xcfg) (kc : areg -> konst) (i : minst) (s : st) (g : xst) : Prop := MCtx {
  mc_arch : c_arch c = X86_64;
  mc_gb : gbase_ok c;
  mc_rel : xrel s g;
  mc_kc : xkc_sound kc g;
  mc_ip : y_ip g = addr_pc_base c (k_start i);
}.
(** The instruction is lifted, and its code runs without undefined behaviour to a
    state that holds [g']. *)
Definition m_lifts `{FpuOps} (c : cenv) (cfg : xcfg) (hi : bool) (kc : areg -> konst) (info : Z -> Z -> Z * Z) (tsc : Z) (i : minst) (s : st) (g' : xst) : Prop :=
  exists k s', lift_misc c cfg hi kc i = Some k /\ mrun c info tsc s k = Ok s' /\ xrel s' g' /\
    pc_value c (s_pc s') 0 = Ok (V (TInt 64) (y_ip g')) /\ s_ret s' = s_ret s.

Section Misc.
Context `{FpuOps}.
Variables (c : cenv) (cfg : xcfg) (kc : areg -> konst) (info : Z -> Z -> Z * Z) (leaf : Z -> Z -> cpuinfo) (tsc : Z).
Variables (i : minst) (s : st) (g : xst).
Hypothesis CTX : m_ctx c cfg kc i s g.
Notation g1 := (set_ip g (y_ip g + k_len i)).
Notation p := (PcConst (k_end i)).

Lemma ip1 : y_ip g1 = addr_pc_base c (k_end i).
Proof. destruct CTX as [_ _ _ _ IP]. unfold k_end. cbn [set_ip y_ip]. rewrite IP, addr_pc_base_trunc, addr_pc_base_add. reflexivity. Qed.
Lemma at1 : forall vs, At g1 p vs (s_ret s) (with_var (with_pc s p) vs).
Proof. intro vs. destruct CTX as [_ _ R _ _]. split; [|repeat split]. destruct R. split; assumption. Qed.
Lemma at0 : At g1 p (s_var s) (s_ret s) (with_pc s p).
Proof. destruct CTX as [_ _ R _ _]. split; [|repeat split]. destruct R. split; assumption. Qed.
Lemma and_lo : forall z, 0 <= z -> Z.land z 0xffffffff = z mod 2^32.
Proof. intros z Z0. change 0xffffffff with (Z.ones 32). apply Z.land_ones. lia. Qed.
Lemma g_regs4 : forall vs l0 l1 l2 l3 a b cx d, vals c g1 p vs l0 (V (TInt 64) a) ->
  vals c (wr_reg g1 64 0 a) p vs l1 (V (TInt 64) cx) -> vals c (wr_reg (wr_reg g1 64 0 a) 64 1 cx) p vs l2 (V (TInt 64) d) ->
  vals c (wr_reg (wr_reg (wr_reg g1 64 0 a) 64 1 cx) 64 2 d) p vs l3 (V (TInt 64) b) ->
  inr 64 a -> inr 64 b -> inr 64 cx -> inr 64 d ->
  G c g1 p vs (s_ret s) [SSet RAX l0; SSet RCX l1; SSet RDX l2; SSet RBX l3] (done c (regs4 g1 a b cx d) (s_ret s)).
Proof.
  intros vs l0 l1 l2 l3 a b cx d V0 V1 V2 V3 I0 I1 I2 I3.
  eapply G_wreg64; [exact (mc_arch _ _ _ _ _ _ CTX)|left; exact V0|lia|]. eapply G_wreg64; [exact (mc_arch _ _ _ _ _ _ CTX)|left; exact V1|lia|]. eapply G_wreg64; [exact (mc_arch _ _ _ _ _ _ CTX)|left; exact V2|lia|]. eapply G_wreg64; [exact (mc_arch _ _ _ _ _ _ CTX)|left; exact V3|lia|].
  apply G_done; [|apply (f_equal (fun z => Ok (V (TInt 64) z))); rewrite Z.add_0_r; symmetry; exact ip1].
  repeat split; auto. intros n N. unfold regs4, wr_reg, set_r. cbn [y_r]. unfold reg_merge. cbn [Z.eqb Pos.eqb].
  destruct (n =? 3) eqn:E3; [assert (n = 3) by lia; subst; cbn [Z.eqb Pos.eqb]; apply trunc_small; assumption|].
  destruct (n =? 2) eqn:E2; [assert (n = 2) by lia; subst; cbn [Z.eqb Pos.eqb]; apply trunc_small; assumption|].
  destruct (n =? 1) eqn:E1; [assert (n = 1) by lia; subst; cbn [Z.eqb Pos.eqb]; apply trunc_small; assumption|].
  destruct (n =? 0) eqn:E0; [apply trunc_small; assumption|reflexivity].
Qed.
Lemma info_lo : forall a b, inr 32 a -> inr 32 b -> Z.land (a + 2^32 * b) (trunc 64 0xffffffff) = a.
Proof.
  intros a b A B. change (trunc 64 0xffffffff) with 0xffffffff. rewrite and_lo by (unfold inr in *; lia). unfold inr in *. change (2^32) with 4294967296 in *. lia.
Qed.
Lemma info_hi : forall a b, inr 32 a -> inr 32 b -> Z.shiftr (a + 2^32 * b) (trunc 64 32) = b.
Proof.
  intros a b A B. change (trunc 64 32) with 32. rewrite Z.shiftr_div_pow2 by lia. unfold inr in *. change (2^32) with 4294967296 in *. lia.
Qed.
Lemma inr_info : forall a b, inr 32 a -> inr 32 b -> inr 64 (a + 2^32 * b).
Proof. intros a b A B. unfold inr in *. change (2^64) with 18446744073709551616. change (2^32) with 4294967296 in *. lia. Qed.
Lemma inr_3264 : forall a, inr 32 a -> inr 64 a.
Proof. intros a A. unfold inr in *. change (2^64) with 18446744073709551616. change (2^32) with 4294967296 in *. lia. Qed.

Theorem x86_cpuid_correct : k_mn i = M_CPUID -> answers info leaf -> m_lifts c cfg true kc info tsc i s (mspec leaf tsc i g).
Proof.
  intros MN AN. set (a0 := y_r g 0 mod 2^32). set (c0 := y_r g 1 mod 2^32).
  assert (IA : inr 32 a0) by (unfold a0, inr; apply Z.mod_pos_bound; lia). assert (IC : inr 32 c0) by (unfold c0, inr; apply Z.mod_pos_bound; lia).
  destruct (AN a0 c0 IA IC) as ((I1 & I2 & I3 & I4) & EI). set (x := leaf a0 c0) in *.
  set (vs := upd_var (upd_var (s_var s) 0 (V (TInt 64) (i_eax x + 2^32 * i_ecx x))) 1 (V (TInt 64) (i_edx x + 2^32 * i_ebx x))).
  assert (K : G c g1 p vs (s_ret s) [SSet RAX (eAnd (vX 0) (cI 64 0xffffffff)); SSet RCX (eLShr (vX 0) (cI 64 32)); SSet RDX (eAnd (vX 1) (cI 64 0xffffffff)); SSet RBX (eLShr (vX 1) (cI 64 32))]
             (done c (regs4 g1 (i_eax x) (i_ebx x) (i_ecx x) (i_edx x)) (s_ret s))).
  { apply g_regs4; try (apply inr_3264; assumption).
    - eapply v_bin; [apply v_var; reflexivity|apply v_cI|]. cbn [ibin]. f_equal. apply info_lo; assumption.
    - eapply v_bin; [apply v_var; reflexivity|apply v_cI|]. cbn [ibin]. change (trunc 64 32 <? 64) with true. cbv iota. f_equal. apply info_hi; assumption.
    - eapply v_bin; [apply v_var; reflexivity|apply v_cI|]. cbn [ibin]. f_equal. apply info_lo; assumption.
    - eapply v_bin; [apply v_var; reflexivity|apply v_cI|]. cbn [ibin]. change (trunc 64 32 <? 64) with true. cbv iota. f_equal. apply info_hi; assumption. }
  destruct (K _ (at1 vs)) as (s' & RN & D1 & D2 & D3).
  unfold m_lifts, lift_misc. rewrite MN. eexists. exists s'. split; [reflexivity|].
  assert (EA : ev c (with_pc s p) (rG RAX I32) = Ok (V (TInt 32) a0)) by (apply (v_gp c g1 p (s_var s) 0 32 ltac:(lia) eq_refl _ _ at0)).
  assert (EC : ev c (with_pc s p) (rG RCX I32) = Ok (V (TInt 32) c0)) by (apply (v_gp c g1 p (s_var s) 1 32 ltac:(lia) eq_refl _ _ at0)).
  split; [|unfold mspec; rewrite MN; fold a0 c0 x; split; [exact D1|split; [exact D2|exact D3]]].
  cbn [mpre LiftCpuid app mrun run run1 bind]. rewrite EA, EC. cbn [bind]. rewrite EI. exact RN.
Qed.
(** Without such a function, every leaf is zero. *)
Theorem x86_cpuid_none : k_mn i = M_CPUID -> m_lifts c cfg false kc info tsc i s (mspec no_info tsc i g).
Proof.
  intros MN. assert (I0 : inr 64 0) by (unfold inr; lia).
  assert (K : G c g1 p (s_var s) (s_ret s) [SSet RAX (cI 64 0); SSet RCX (cI 64 0); SSet RDX (cI 64 0); SSet RBX (cI 64 0)] (done c (regs4 g1 0 0 0 0) (s_ret s))).
  { apply g_regs4; try assumption; apply v_cI. }
  destruct (K _ at0) as (s' & RN & D1 & D2 & D3).
  unfold m_lifts, lift_misc. rewrite MN. eexists. exists s'. split; [reflexivity|]. split; [exact RN|]. unfold mspec. rewrite MN. split; [exact D1|split; [exact D2|exact D3]].
Qed.
Theorem x86_rdtsc_correct : forall hi, k_mn i = M_RDTSC -> inr 64 tsc -> m_lifts c cfg hi kc info tsc i s (mspec leaf tsc i g).
Proof.
  intros hi MN IT. set (vs := upd_var (s_var s) 0 (V (TInt 64) tsc)).
  assert (H32 : inr 32 (tsc mod 2^32)) by (unfold inr; apply Z.mod_pos_bound; lia).
  assert (HH : inr 64 (tsc / 2^32)) by (unfold inr in *; change (2^64) with 18446744073709551616 in *; change (2^32) with 4294967296 in *; lia).
  assert (K : G c g1 p vs (s_ret s) [SSet RAX (eTrunc 32 (vX 0)); SSet RDX (eLShr (vX 0) (cI 64 32))] (done c (mspec leaf tsc i g) (s_ret s))).
  { eapply G_wreg32; [exact (mc_arch _ _ _ _ _ _ CTX)|eapply v_trunc; [apply v_var; reflexivity|lia|exact IT]|exact H32|lia|].
    eapply G_wreg64 with (z := tsc / 2^32); [exact (mc_arch _ _ _ _ _ _ CTX)|left; eapply v_bin; [apply v_var; reflexivity|apply v_cI|]|lia|].
    { cbn [ibin]. change (trunc 64 32 <? 64) with true. cbv iota. f_equal. change (trunc 64 32) with 32. rewrite Z.shiftr_div_pow2 by lia. reflexivity. }
    apply G_done; [|unfold mspec; rewrite MN; apply (f_equal (fun z => Ok (V (TInt 64) z))); rewrite Z.add_0_r; symmetry; exact ip1].
    unfold mspec. rewrite MN. repeat split; auto. intros n N. unfold wr_reg, set_r. cbn [y_r]. unfold reg_merge. cbn [Z.eqb Pos.eqb].
    destruct (n =? 2) eqn:E2; [assert (n = 2) by lia; subst; cbn [Z.eqb Pos.eqb]; apply trunc_small; assumption|].
    destruct (n =? 0) eqn:E0; [apply (trunc_small 32); exact H32|reflexivity]. }
  destruct (K _ (at1 vs)) as (s' & RN & D1 & D2 & D3).
  unfold m_lifts, lift_misc. rewrite MN. eexists. exists s'. split; [reflexivity|]. split; [exact RN|]. split; [exact D1|split; [exact D2|exact D3]].
Qed.
Theorem x86_fence_correct : forall hi, In (k_mn i) [M_LFENCE; M_SFENCE; M_MFENCE] -> m_lifts c cfg hi kc info tsc i s (mspec leaf tsc i g).
Proof.
  intros hi I0. destruct at0 as (R & P & _).
  assert (PV : pc_value c p 0 = Ok (V (TInt 64) (y_ip g1))) by (apply (f_equal (fun z => Ok (V (TInt 64) z))); rewrite Z.add_0_r; symmetry; exact ip1).
  exists (MStm [SPcConst (k_end i)]), (with_pc s p).
  destruct I0 as [E|[E|[E|[]]]]; unfold lift_misc, mspec; rewrite <- E; (split; [reflexivity|split; [reflexivity|split; [exact R|split; [exact PV|reflexivity]]]]).
Qed.
Theorem x86_prefetch_partial : forall hi, is_prefetch i = true -> pf_ok cfg i = true -> m_lifts c cfg hi kc info tsc i s (mspec leaf tsc i g).
Proof.
  intros hi PF OK. unfold pf_ok in OK. destruct (k_op0 i) as [| | | |w m] eqn:EO; try discriminate.
  apply andb_prop in OK. destruct OK as [OK NS]. apply andb_prop in OK. destruct OK as [WM GM]. apply negb_true_iff in NS.
  assert (KC1 : xkc_sound kc g1) by exact (mc_kc _ _ _ _ _ _ CTX).
  assert (K : G c g1 p (s_var s) (s_ret s) [SLet 0 (OpAddr c cfg kc m 7)] (done c g1 (s_ret s))).
  { eapply G_let; [unfold OpAddr; eapply v_OpAddr; [exact (mc_gb _ _ _ _ _ _ CTX)|exact ip1|exact WM|exact KC1|reflexivity|exact GM]|].
    apply G_done; [apply gle_refl|apply (f_equal (fun z => Ok (V (TInt 64) z))); rewrite Z.add_0_r; symmetry; exact ip1]. }
  destruct (K _ at0) as (s' & RN & D1 & D2 & D3).
  exists (MStm [SPcConst (k_end i); SLet 0 (OpAddr c cfg kc m 7)]), s'.
  assert (EL : lift_misc c cfg hi kc i = Some (MStm [SPcConst (k_end i); SLet 0 (OpAddr c cfg kc m 7)])).
  { unfold lift_misc, LiftPrefetch, is_prefetch in *. rewrite EO, NS. destruct (k_mn i); try discriminate; reflexivity. }
  assert (ES : mspec leaf tsc i g = g1) by (unfold mspec, is_prefetch in *; destruct (k_mn i); try discriminate; reflexivity).
  rewrite ES. split; [exact EL|]. split; [exact RN|]. split; [exact D1|split; [exact D2|exact D3]].
Qed.
(** F57: a prefetch relative to FS or GS is lifted to ill-typed code if segment bases are
    those of the host. *)
Theorem x86_prefetch_segment_refuted : forall hi w m, is_prefetch i = true -> k_op0 i = XMem w m -> m_seg m = 4 \/ m_seg m = 5 -> xl_nativeseg cfg = true ->
  lift_misc c cfg hi kc i = None.
Proof.
  intros hi w m PF EO SG NS. unfold lift_misc, LiftPrefetch, is_prefetch in *. rewrite EO, NS.
  replace ((m_seg m =? 4) || (m_seg m =? 5)) with true by lia. destruct (k_mn i); try discriminate; reflexivity.
Qed.
End Misc.
Print Assumptions x86_cpuid_correct.
Print Assumptions x86_cpuid_none.
Print Assumptions x86_rdtsc_correct.
Print Assumptions x86_fence_correct.
Print Assumptions x86_prefetch_partial.
Print Assumptions x86_prefetch_segment_refuted.

(** ** Non-vacuity *)
Lemma mctx_ex : forall i r f, k_start i = 0x1000 -> m_ctx c_x xcfg_ex kc_ex i (xst_of (xst_ex r f 0x1000)) (xst_ex r f 0x1000).
Proof.
  intros i r f ST. split; try reflexivity.
  - apply xrel_ex.
  - intros n z _ E. discriminate.
  - rewrite ST. reflexivity.
Qed.
(** Leaf 0 ("GenuineIntel") and leaf 1 depend on EAX; the upper halves of RAX and RCX are
    ignored. *)
Definition leaf_ex (a b : Z) : cpuinfo := if a =? 0 then CpuInfo 22 0x756e6547 0x6c65746e 0x49656e69 else CpuInfo (a mod 2^32) 2 (b mod 2^32) 4.
Definition info_ex (a b : Z) : Z * Z := (i_eax (leaf_ex a b) + 2^32 * i_ecx (leaf_ex a b), i_edx (leaf_ex a b) + 2^32 * i_ebx (leaf_ex a b)).
Example ex_answers : answers info_ex leaf_ex.
Proof.
  intros a b A B. split; [|reflexivity]. unfold leaf_ex, cpuinfo_ok. destruct (a =? 0); cbn [i_eax i_ebx i_ecx i_edx]; unfold inr; repeat split; try lia; try apply Z.mod_pos_bound; lia.
Qed.
Definition i_cpuid : minst := MInst M_CPUID XNone 0x1000 2.
Example ex_cpuid : m_lifts (H := fpu0) c_x xcfg_ex true kc_ex info_ex 0 i_cpuid (xst_of (xst_ex (fun n => 2^40 * n) (all_set true) 0x1000))
    (mspec leaf_ex 0 i_cpuid (xst_ex (fun n => 2^40 * n) (all_set true) 0x1000)) /\
  y_r (mspec leaf_ex 0 i_cpuid (xst_ex (fun n => 2^40 * n) (all_set true) 0x1000)) 3 = 0x756e6547 /\
  y_r (mspec leaf_ex 0 i_cpuid (xst_ex (fun n => 2^40 * n) (all_set true) 0x1000)) 4 = 2^42 /\
  y_ip (mspec leaf_ex 0 i_cpuid (xst_ex (fun n => 2^40 * n) (all_set true) 0x1000)) = 0x1002.
Proof.
  split; [|vm_compute; repeat split; reflexivity]. apply (@x86_cpuid_correct fpu0); [apply mctx_ex; reflexivity|reflexivity|exact ex_answers].
Qed.
Definition i_rdtsc : minst := MInst M_RDTSC XNone 0x1000 2.
Example ex_rdtsc : m_lifts (H := fpu0) c_x xcfg_ex true kc_ex info_ex 0x123456789a i_rdtsc (xst_of (xst_ex (fun n => -1 - n) (all_set true) 0x1000))
    (mspec leaf_ex 0x123456789a i_rdtsc (xst_ex (fun n => -1 - n) (all_set true) 0x1000)) /\
  y_r (mspec leaf_ex 0x123456789a i_rdtsc (xst_ex (fun n => -1 - n) (all_set true) 0x1000)) 0 = 0x3456789a /\
  y_r (mspec leaf_ex 0x123456789a i_rdtsc (xst_ex (fun n => -1 - n) (all_set true) 0x1000)) 2 = 0x12.
Proof.
  split; [|vm_compute; repeat split; reflexivity]. apply (@x86_rdtsc_correct fpu0); [apply mctx_ex; reflexivity|reflexivity|unfold inr; lia].
Qed.
(** prefetcht0 fs:[rax + 8*rcx + 16] *)
Definition i_pref : minst := MInst M_PREFETCHT0 (XMem 8 (XMemOp (BReg 0) (Some 1) 3 16 4 8)) 0x1000 5.
Example ex_prefetch : is_prefetch i_pref = true /\ pf_ok xcfg_ex i_pref = true /\
  m_lifts (H := fpu0) c_x xcfg_ex true kc_ex info_ex 0 i_pref (xst_of (xst_ex (fun n => -1 - n) (all_set true) 0x1000)) (mspec leaf_ex 0 i_pref (xst_ex (fun n => -1 - n) (all_set true) 0x1000)) /\
  lift_misc c_x (XCfg None None false false true) true kc_ex i_pref = None.
Proof.
  split; [reflexivity|]. split; [reflexivity|]. split; [|reflexivity]. apply (@x86_prefetch_partial fpu0); [apply mctx_ex; reflexivity|reflexivity|reflexivity].
Qed.
