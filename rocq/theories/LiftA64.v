(** AArch64 instance of the driver (LiftFn.v): guest semantics of whole functions,
    the code of one instruction, the edges lifting creates. *)

From Coq Require Import ZArith Lia ZifyBool List Bool Arith.
From Verif Require Import Bits IR Facet Dsl Rv64Spec Rv64Sim X86Spec A64 A64Spec A64Sim A64Dp A64Br A64Mem A64Sys A64SimdStep A64Step
  Decode DecodeOk LiftFn LiftSim LiftEdge LiftRv.
Import ListNotations.
Open Scope Z_scope.
Ltac Zify.zify_post_hook ::= Z.div_mod_to_equations.

(** Length of an instruction (instr.h:170). *)
Definition a_len (i : ainst) : Z := 4.
Section Cls.
(** Among the instructions without support in main.cc: is it one of HVC, SMC, BRK,
    HLT, DCPS1-3 (lldecoder.cc:139-145)? *)
Variable unk : ainst -> bool.
(** lldecoder.cc:116-147 classifyInstr, case Arch::AArch64 (uint64_t arithmetic). *)
Definition a_cls (i : ainst) : kind * Z :=
  match a_op i with
  | A_BCOND | A_CBZ | A_CBNZ | A_TBZ | A_TBNZ => (KCond, trunc 64 (a_start i + a_off i))
  | A_B => (KBranch, trunc 64 (a_start i + a_off i))
  | A_BR => (KBranch, 0)
  | A_BL | A_BLR => (KCall, 0)
  | A_RET | A_SVC => (KUnknown, 0)
  | A_OTHER => if unk i then (KUnknown, 0) else (KOther, 0)
  | _ => (KOther, 0)
  end.
End Cls.

(** ** Guest semantics *)
(** A CPU struct holding a guest state, with values in range. *)
Definition kcpu_holds (u : cpu) (g : kst) : Prop :=
  u_pc u = Some (k_pc g) /\ inr 64 (k_pc g) /\ krel (St (u_reg u) (PcVal (Poison (TInt 64))) (u_mem u) (fun _ => None) false) g.
Definition kext_rel (c : cenv) (f : Z) (g g' : kst) : Prop := exists u, kcpu_holds u g /\ kcpu_holds (c_ext c f u) g'.
(** Given a complete CPU struct, external functions leave a complete one. *)
Definition kext_ok (c : cenv) : Prop := forall f u g, kcpu_holds u g -> exists g', kcpu_holds (c_ext c f u) g'.
Definition is_call (i : ainst) : bool := match a_op i with A_BL | A_BLR => true | _ => false end.

(** One guest step: an instruction of the ISA; or a call together with everything
    the call function does; or a supervisor call by the configured function. *)
Inductive a64_step `{FpuOps} (c : cenv) (cfg : acfg) (fetch : Z -> option ainst) (g g' : kst) : Prop :=
| as_isa : forall i, fetch (k_pc g) = Some i -> kstep (al_clobber cfg) i g = Some g' ->
    (is_call i = true -> al_call cfg = None) -> a64_step c cfg fetch g g'
| as_call : forall i f g1, fetch (k_pc g) = Some i -> is_call i = true -> al_call cfg = Some f ->
    kstep (al_clobber cfg) i g = Some g1 -> kext_rel c f g1 g' -> a64_step c cfg fetch g g'
| as_svc : forall i f, fetch (k_pc g) = Some i -> a_op i = A_SVC -> al_syscall cfg = Some f ->
    kext_rel c f (wrpc g (k_pc g + 4)) g' -> a64_step c cfg fetch g g'.

(** The instructions without support: not known to main.cc, or a system register or
    cache operation it does not handle. *)
Definition a_unsup (i : ainst) : bool :=
  match a_op i with
  | A_OTHER => true
  | A_MSR_REG => negb (existsb (Z.eqb (a_imm i)) [0xde82; 0xda10; 0xda20; 0xda21])
  | A_MRS => negb (existsb (Z.eqb (a_imm i)) [0xde82; 0xda10; 0xda20; 0xda21; 0xd807; 0xc000])
  | A_SYS => negb (a_imm i =? 0x1ba1)
  | A_VEC v => match lift_vec v with Some None => true | _ => false end
  | _ => false
  end.
Definition a_uncode (i : ainst) : list stm := [SPcConst (a_start i); SPcVal (cI 64 (a_start i))].
Lemma unsup_lift : forall cfg i, a_unsup i = true -> lift_a64 cfg i = Some (false, a_uncode i).
Proof.
  intros cfg i E. unfold lift_a64, lift_op, a_unsup in *. cbv zeta. destruct (a_op i); try discriminate E; try reflexivity; cbn [existsb] in E.
  4: { destruct (lift_vec v) as [[|]|]; (discriminate E || reflexivity). }
  all: repeat match goal with |- context [if ?b then _ else _] => destruct b eqn:? end; try reflexivity; exfalso; lia.
Qed.
Lemma sup_lift : forall cfg i ok code, a_unsup i = false -> lift_a64 cfg i = Some (ok, code) -> ok = true.
Proof.
  intros cfg i ok code E L. unfold lift_a64 in L. destruct (lift_op cfg i) as [[[[|] l]|]|] eqn:O; try (injection L as <- _; reflexivity); try discriminate L.
  exfalso. unfold lift_op, a_unsup in *. cbv zeta in O. unfold go, jump, unhandled in O.
  destruct (a_op i); try discriminate E; try discriminate O; cbn [existsb] in E.
  all: repeat match type of O with
    | (if ?b then _ else _) = _ => destruct b eqn:?
    | (match ?x with Some _ => _ | None => _ end) = _ => destruct x eqn:? end; try discriminate O; try discriminate E; lia.
Qed.

(** The lifted code for [i] does what the ISA says (A64Step.v): the encoding is not
    among those refuted in Prop_A64.v; the flags it reads are specified; unsupported
    instructions and supervisor calls are lifted for their own address. *)
Definition a64_good `{FpuOps} (c : cenv) (cfg : acfg) (i : ainst) (g : kst) : Prop :=
  if a_unsup i then at_home c (a_start i) else
  match a_op i with
  | A_SVC => al_syscall cfg <> None /\ at_home c (a_end i)
  | _ => kstep (al_clobber cfg) i g <> None /\ kwf i = true /\ flags_known i g /\ kdef i g
  end.

Lemma krel_pcany : forall s s' g, (forall r, s_reg s' r = s_reg s r) -> (forall x, s_mem s' x = s_mem s x) -> krel s g -> krel s' g.
Proof. intros s s' g E1 E2 [A B C D E G I J K L]. split; intros; rewrite ?E1, ?E2; auto. Qed.
Lemma krel_wrpc : forall s g t, krel s g -> krel s (wrpc g t).
Proof. intros s g t [A B C D E G I J K L]. split; assumption. Qed.
Lemma krel_of_cpu : forall s u g, kcpu_holds u g -> krel (of_cpu s u) g.
Proof. intros s u g (_ & _ & R). eapply krel_pcany; [| |exact R]; reflexivity. Qed.
Lemma kcpu_of : forall s g pc, krel s g -> inr 64 (k_pc g) -> pc = k_pc g -> kcpu_holds (to_cpu s (V (TInt 64) pc)) g.
Proof. intros s g pc R I0 ->. split; [reflexivity|]. split; [assumption|]. eapply krel_pcany; [| |exact R]; reflexivity. Qed.

Lemma kstep_pc : forall `{FpuOps} clob i g g', kstep clob i g = Some g' -> inr 64 (k_pc g) -> inr 64 (k_pc g').
Proof.
  intros F clob i g g' E I0. unfold kstep in E.
  assert (W : forall x t, inr 64 (k_pc (wrpc x t))) by (intros; apply trunc_range; lia).
  destruct (kdp i g) as [[r fo]|]; [injection E as <-; apply W|].
  destruct (kcmp i g); [injection E as <-; apply W|]. destruct (kbr i g); [injection E as <-; apply W|].
  destruct (kcall clob i g) eqn:K; [|destruct (kmem i g); [injection E as <-; apply W|]; destruct (ksys i g); [injection E as <-; apply W|]; destruct (ksimd i g); [injection E as <-; apply W|discriminate]].
  injection E as <-. unfold kcall in K. destruct (a_op i); try discriminate K; injection K as <-; apply W.
Qed.
Lemma kstep_next : forall `{FpuOps} clob unk i g g', fst (a_cls unk i) = KOther -> kstep clob i g = Some g' -> k_pc g' = U 64 (k_pc g + 4).
Proof.
  intros F clob unk i g g' K E. unfold kstep in E.
  assert (NB : kbr i g = None /\ kcall clob i g = None).
  { unfold a_cls in K. unfold kbr, kcall. destruct (a_op i); try discriminate K; split; reflexivity. }
  destruct NB as [N1 N2]. rewrite N1, N2 in E.
  destruct (kdp i g) as [[r fo]|]; [injection E as <-; reflexivity|].
  destruct (kcmp i g); [injection E as <-; reflexivity|].
  destruct (kmem i g); [injection E as <-; reflexivity|]. destruct (ksys i g); [injection E as <-; reflexivity|].
  destruct (ksimd i g); [injection E as <-; reflexivity|discriminate].
Qed.
Definition kpc_at (c : cenv) (s : st) (g : kst) : Prop := pc_value c (s_pc s) 0 = Ok (V (TInt 64) (k_pc g)).

Section One.
Context `{FpuOps}.
Variable c : cenv.
Hypothesis HA : c_arch c = AArch64.
Hypothesis EX : kext_ok c.
Variable cfg : acfg.
Variable unk : ainst -> bool.
Variable i : ainst.
Variable s : st.
Variable g : kst.
Hypothesis R : krel s g.
Hypothesis PC : k_pc g = addr_pc_base c (a_start i).
Variable fetch : Z -> option ainst.
Hypothesis FE : fetch (k_pc g) = Some i.
Hypothesis GD : a64_good c cfg i g.

Lemma a64_one : forall ok code, lift_a64 cfg i = Some (ok, code) ->
  exists s', run c s code = Ok s' /\
    if ok then exists g', a64_step c cfg fetch g g' /\ krel s' g' /\ kpc_at c s' g' /\
                 (fst (a_cls unk i) = KOther -> k_pc g' = addr_pc_base c (trunc 64 (a_start i + 4)))
    else krel s' g /\ kpc_at c s' g /\ exists v, s_pc s' = PcVal v.
Proof.
  intros ok code L.
  assert (IPC : inr 64 (k_pc g)) by (rewrite PC; apply addr_pc_base_inr).
  assert (NXT : U 64 (k_pc g + 4) = addr_pc_base c (trunc 64 (a_start i + 4))).
  { rewrite addr_pc_base_trunc, addr_pc_base_add, <- PC. reflexivity. }
  assert (CS : a_unsup i = true \/ a_op i = A_SVC \/
    (a_op i <> A_SVC /\ kstep (al_clobber cfg) i g <> None /\ kwf i = true /\ flags_known i g /\ kdef i g)).
  { clear - GD. unfold a64_good in GD. destruct (a_unsup i); [left; reflexivity|]. destruct (a_op i); try tauto; right; right; (split; [discriminate|exact GD]). }
  destruct CS as [O|[O|(NS & KS & WF & FK & AC)]].
  - unfold a64_good in GD. rewrite O in GD. rewrite (unsup_lift cfg i O) in L. injection L as <- <-. unfold a_uncode.
    eexists. split; [reflexivity|]. split; [eapply krel_pcany; [| |exact R]; reflexivity|].
    split; [|eexists; reflexivity]. unfold kpc_at. cbn [with_pc s_pc pc_value]. change (0 =? 0) with true. cbv iota.
    rewrite PC. f_equal. f_equal. symmetry. exact GD.
  - unfold a64_good, a_unsup in GD. rewrite O in GD. destruct GD as [SY HM]. destruct (al_syscall cfg) as [f|] eqn:LS; [|congruence].
    destruct (svc_step c cfg i g O) as (l & L1 & T). rewrite L1 in L. injection L as <- <-.
    destruct (T s R) as (s1 & RN & D1 & D2 & D3 & D4).
    unfold ktail. rewrite O, LS, run_app, RN. cbn [bind run run1].
    assert (P1 : pc_value c (s_pc s1) 0 = Ok (V (TInt 64) (a_end i))) by (rewrite D2; reflexivity).
    rewrite P1. cbn [bind].
    assert (HE : a_end i = k_pc (wrpc g (k_pc g + 4))).
    { cbn [wrpc k_pc]. rewrite NXT. unfold at_home in HM. unfold a_end in *. rewrite HM. symmetry. apply trunc_trunc. lia. }
    assert (D1' : krel s1 (wrpc g (k_pc g + 4))) by (eapply krel_wrpc with (t := k_pc g + 4) in R; apply krel_wrpc with (t := k_pc g + 4) in D1; destruct D1; split; assumption).
    assert (IP1 : inr 64 (k_pc (wrpc g (k_pc g + 4)))) by (apply trunc_range; lia).
    pose proof (kcpu_of s1 _ _ D1' IP1 HE) as CU.
    destruct (EX f _ _ CU) as [g' HG].
    eexists. split; [reflexivity|]. exists g'. split; [eapply as_svc; [exact FE|exact O|exact LS|eexists; split; [exact CU|exact HG]]|].
    split; [apply krel_of_cpu, HG|]. split; [|unfold a_cls; rewrite O; discriminate].
    destruct HG as (U1 & U2 & _). unfold kpc_at. cbn [of_cpu s_pc]. rewrite U1. cbn [pc_value]. change (0 =? 0) with true. cbv iota.
    rewrite trunc_small by assumption. reflexivity.
  - destruct (kstep (al_clobber cfg) i g) as [g1|] eqn:KE; [|congruence].
    destruct (step_prefix c cfg i s g g1 (KCtx c i s g HA R PC WF FK) AC NS KE) as (pre & s1 & L1 & RN & R1 & P1 & RT).
    rewrite L1 in L. injection L as <- <-.
    assert (IP1 : inr 64 (k_pc g1)) by (eapply kstep_pc; eassumption).
    assert (TL : ktail cfg i = [] \/ (a_op i = A_RET /\ ktail cfg i = [SRet]) \/
       (is_call i = true /\ exists f, al_call cfg = Some f /\ ktail cfg i = [SCall f; SPcCallret (a_end i)])).
    { unfold ktail, is_call. destruct (a_op i); try (left; reflexivity); destruct (al_call cfg) as [f|]; try (left; reflexivity);
      try (right; left; split; reflexivity); try (right; right; split; [reflexivity|exists f; split; reflexivity]); congruence. }
    destruct TL as [T|[[O T]|(IC & f & AC2 & T)]]; rewrite T.
    + rewrite app_nil_r. exists s1. split; [exact RN|]. exists g1. split.
      * apply (as_isa c cfg fetch g g1 i FE KE). intro IC. unfold ktail in T. unfold is_call in IC.
        destruct (a_op i); try discriminate IC; destruct (al_call cfg); (reflexivity || discriminate T).
      * split; [exact R1|]. split; [exact P1|]. intro K. rewrite (kstep_next _ _ _ _ _ K KE). exact NXT.
    + rewrite run_app, RN. cbn [bind run run1]. eexists. split; [reflexivity|]. exists g1.
      split; [apply (as_isa c cfg fetch g g1 i FE KE); unfold is_call; rewrite O; discriminate|].
      split; [eapply krel_pcany; [| |exact R1]; reflexivity|]. split; [exact P1|]. unfold a_cls. rewrite O. discriminate.
    + rewrite run_app, RN. cbn [bind run run1]. rewrite P1. cbn [bind].
      pose proof (kcpu_of s1 g1 _ R1 IP1 eq_refl) as CU. destruct (EX f _ _ CU) as [g' HG].
      pose proof HG as HG'. destruct HG' as (U1 & U2 & U3).
      set (s2 := of_cpu s1 (c_ext c f (to_cpu s1 (V (TInt 64) (k_pc g1))))) in *.
      assert (P2 : s_pc s2 = PcVal (V (TInt 64) (k_pc g'))).
      { unfold s2. cbn [of_cpu s_pc]. rewrite U1. rewrite trunc_small by assumption. reflexivity. }
      rewrite P2. cbn [pc_value bind]. change (0 =? 0) with true. cbv iota. cbn [bind].
      eexists. split; [reflexivity|]. exists g'. split; [eapply as_call; [exact FE|exact IC|exact AC2|exact KE|eexists; split; [exact CU|exact HG]]|].
      split; [eapply krel_pcany; [| |apply (krel_of_cpu s1), HG]; reflexivity|].
      split; [unfold kpc_at; cbn [with_pc s_pc pc_value]; reflexivity|]. unfold a_cls, is_call in *. destruct (a_op i); discriminate.
Qed.
End One.

(** ** Shape of the code of one instruction *)
Definition nret' (o : option (list stm)) : Prop := match o with Some l => forallb nret l = true | None => True end.
Lemma nret_SetGp : forall r e, forallb nret (SetGp r e) = true.
Proof. intros. unfold SetGp. destruct r; reflexivity. Qed.
Lemma nret_app : forall a b, forallb nret a = true -> forallb nret b = true -> forallb nret (a ++ b) = true.
Proof. intros a b A B. rewrite forallb_app, A, B. reflexivity. Qed.
Lemma nret_cons : forall x a, nret x = true -> forallb nret a = true -> forallb nret (x :: a) = true.
Proof. intros x a A B. cbn [forallb]. rewrite A, B. reflexivity. Qed.
Ltac nr := repeat first [reflexivity | apply nret_SetGp | apply nret_app | apply nret_cons
  | match goal with |- nret (if ?b then _ else _) = true => destruct b | |- forallb nret (if ?b then _ else _) = true => destruct b | |- forallb nret (match ?b with _ => _ end) = true => destruct b end].
Lemma nret_FlagCalcAdd : forall cfg w a b d, forallb nret (FlagCalcAdd cfg w a b d) = true.
Proof. intros. unfold FlagCalcAdd. nr. Qed.
Lemma nret_FlagCalcSub : forall w a b d, forallb nret (FlagCalcSub w a b d) = true.
Proof. intros. unfold FlagCalcSub. nr. Qed.
Lemma nret_FlagCalcLogic : forall w a, forallb nret (FlagCalcLogic w a) = true.
Proof. intros. unfold FlagCalcLogic. nr. Qed.
Ltac nrf := repeat first [reflexivity | apply nret_SetGp | apply nret_FlagCalcAdd | apply nret_FlagCalcSub | apply nret_FlagCalcLogic | apply nret_app | apply nret_cons
  | match goal with |- nret (if ?b then _ else _) = true => destruct b | |- forallb nret (if ?b then _ else _) = true => destruct b | |- forallb nret (match ?b with _ => _ end) = true => destruct b end].
Lemma nret_bin : forall cfg i op o inv, nret' (LiftBinOp cfg i op o inv).
Proof.
  intros. unfold LiftBinOp. destruct o; [|exact I]. cbv zeta. destruct (a_flags i); [|cbn [nret']; nrf].
  destruct op; cbn [nret']; try exact I; nrf.
Qed.
Lemma nret_ccmp : forall cfg i rhs b, nret' (LiftCCmp cfg i rhs b).
Proof. intros. unfold LiftCCmp. cbv zeta. destruct (IsTrue (a_cond i)); cbn [nret']; [nrf|exact I]. Qed.
Lemma nret_sel : forall i a b, nret' (LiftSel i a b).
Proof. intros. unfold LiftSel. destruct (IsTrue (a_cond i)); cbn [nret']; [nrf|exact I]. Qed.
Lemma nret_oapp : forall a b, forallb nret a = true -> nret' b -> nret' (oapp a b).
Proof. intros a [b|] A B; [|exact I]. cbn [oapp nret'] in *. nr; assumption. Qed.
Lemma nret_addr : forall k b i, match Addr k b i with Some (pre, _) => forallb nret pre = true | None => True end.
Proof.
  intros. unfold Addr. cbv zeta. destruct (a_mode i); [nrf..| |nrf|nrf|nrf]. destruct (a_ext i); (exact I || nrf).
Qed.
Lemma nret_ldgp : forall i x r p, nret' (LoadGpr i x r p).
Proof. intros. unfold LoadGpr. destruct (Extend _ _ _ _); [cbn [nret']; nrf|exact I]. Qed.
Lemma nret_ls : forall i, nret' (LiftLoadStore i).
Proof.
  intros. unfold LiftLoadStore. cbv zeta. pose proof (nret_addr (mem_w i / 8) (mem_w i / 8 =? 1) i) as A.
  destruct (Addr _ _ i) as [[pre ptr]|]; [|exact I]. apply nret_oapp; [nr; exact A|].
  destruct (a_op i); try exact I; try apply nret_ldgp; try reflexivity.
  all: pose proof (nret_ldgp i 5 (a_rt2 i) (aGep (mem_w i / 8) (vX 4) (cI 64 1))) as X; pose proof (nret_ldgp i 6 (a_rd i) (vX 4)) as Y;
    destruct (LoadGpr i 5 _ _); [|exact I]; destruct (LoadGpr i 6 _ _); [|exact I]; cbn [nret'] in *; nr; assumption.
Qed.
Lemma nret_lsf : forall i, nret' (LiftLoadStoreFP i).
Proof.
  intros. unfold LiftLoadStoreFP. cbv zeta. match goal with |- context [Addr ?k ?b i] => pose proof (nret_addr k b i) as A end.
  destruct (Addr _ _ i) as [[pre ptr]|]; [|exact I]. apply nret_oapp; [nr; exact A|]. destruct (a_op i); try exact I; reflexivity.
Qed.
Lemma nret_fccmp : forall i, nret' (LiftFCCmp i).
Proof. intros. unfold LiftFCCmp, A64SimdFp.FlagCalcFP. cbv zeta. destruct (IsTrue (a_cond i)); cbn [nret']; [reflexivity|exact I]. Qed.
(** SIMD and floating-point code. *)
Definition nrv (r : A64Simd.vres) : Prop := match r with Some (Some l) => forallb nret l = true | _ => True end.
Lemma nret_map : forall {A} (f : A -> stm) l, (forall x, nret (f x) = true) -> forallb nret (map f l) = true.
Proof. intros A f l E. induction l as [|x l IH]; [reflexivity|]. cbn [map forallb]. rewrite E. exact IH. Qed.
Lemma nret_fmap : forall {A} (f : A -> list stm) l, (forall x, forallb nret (f x) = true) -> forallb nret (flat_map f l) = true.
Proof. intros A f l E. induction l as [|x l IH]; [reflexivity|]. cbn [flat_map]. apply nret_app; [apply E|exact IH]. Qed.
Lemma nret_rdv : forall rs, forallb nret (map A64Simd.rdv rs) = true.
Proof. intro rs. apply nret_map. intros [[x r] f]. reflexivity. Qed.
Lemma nret_emit : forall rs rd e, forallb nret (A64Simd.emit rs rd e) = true.
Proof. intros. unfold A64Simd.emit. apply nret_app; [apply nret_rdv|reflexivity]. Qed.
Lemma nrv_ret : forall rs rd e, nrv (A64Simd.ret rs rd e).
Proof. intros. apply nret_emit. Qed.
Ltac nvs := repeat first [exact I | apply nrv_ret | match goal with |- nrv (match A64Simd.ret _ _ _ with _ => _ end) => unfold A64Simd.ret; cbv beta iota; apply nret_cons; [reflexivity|apply nret_emit] | |- nrv (if ?b then _ else _) => destruct b | |- nrv (match ?b with _ => _ end) => destruct b end].
Lemma nrv_int : forall v o, nrv (A64Simd.lift_int v o).
Proof.
  intros v o. destruct o; unfold A64Simd.lift_int, A64Simd.LiftThreeSame, A64Simd.LiftCm, A64Simd.LiftMulAcc, A64Simd.LiftMulAccElem, A64Simd.LiftLong, A64Simd.Pairwise,
    A64Simd.LiftRev, A64Simd.LiftTbl, A64Simd.InsertInHalf, A64Simd.InsertElem, A64Simd.vunhandled; cbv zeta; nvs.
  all: cbn [nrv A64Simd.ret]; nr; apply nret_emit.
Qed.
Lemma nrv_mem : forall v o, nrv (A64SimdMem.lift_mem v o).
Proof.
  intros v o. unfold A64SimdMem.lift_mem, A64SimdMem.SIMDLoadStoreAddr.
  assert (B : match A64SimdMem.mem_body v o with Some l => forallb nret l = true | None => True end).
  { destruct o; unfold A64SimdMem.mem_body; cbv zeta; repeat match goal with |- match (if ?b then _ else _) with _ => _ end => destruct b; [exact I|] end.
    all: repeat first [reflexivity | apply nret_app | apply nret_map; intro; reflexivity | apply nret_fmap; intro; first [apply nret_emit|reflexivity]]. }
  destruct (A64Simd.v_am v); try exact I; destruct (A64SimdMem.mem_body v o); try exact I; cbn [nrv]; nr; exact B.
Qed.
Lemma nrv_fp : forall v o, nrv (A64SimdFp.lift_fp v o).
Proof. intros v o. destruct o; unfold A64SimdFp.lift_fp, A64SimdFp.LiftFcvt, A64SimdFp.LiftFrint, A64SimdFp.LiftFMulElem; cbv zeta; nvs. Qed.
Lemma nrv_sfp : forall v o, nrv (A64SimdFp.lift_sfp v o).
Proof. intros v o. destruct o; unfold A64SimdFp.lift_sfp; cbv zeta; nvs. all: cbn [nrv]; nr. Qed.
Lemma nrv_vec : forall v, nrv (lift_vec v).
Proof. intro v. unfold lift_vec. destruct (A64Simd.v_op v); [apply nrv_int|apply nrv_mem|apply nrv_fp|apply nrv_sfp]. Qed.

Definition a_plain (i : ainst) (ok : bool) (code : list stm) : Prop :=
  (ok = true /\ exists l, code = SPcConst (a_start i) :: l ++ [SPcConst (a_end i)] /\ forallb nret l = true) \/
  (ok = false /\ code = [SPcConst (a_start i); SPcVal (cI 64 (a_start i))]).
Lemma a64_other : forall cfg unk i ok code, fst (a_cls unk i) = KOther -> lift_a64 cfg i = Some (ok, code) -> a_plain i ok code.
Proof.
  intros cfg unk i ok code K E. unfold lift_a64 in E.
  assert (G : forall o, nret' o -> lift_op cfg i = go o -> a_plain i ok code).
  { intros o N Q. rewrite Q in E. destruct o as [l|]; [|discriminate E]. cbn [go] in E. injection E as <- <-. left. split; [reflexivity|]. exists l. split; [reflexivity|exact N]. }
  assert (UH : lift_op cfg i = unhandled -> a_plain i ok code).
  { intros Q. rewrite Q in E. cbn [unhandled] in E. injection E as <- <-. right. split; reflexivity. }
  assert (NN : lift_op cfg i = None -> a_plain i ok code) by (intro Q; rewrite Q in E; discriminate E).
  clear E. assert (AS : forall e, nret' (Some (SetGp (a_rd i) e))) by (intro; apply nret_SetGp).
  assert (OS : forall o, nret' (match o with Some v => Some (SetGp (a_rd i) v) | None => None end)) by (intros [v|]; [apply nret_SetGp|exact I]).
  unfold lift_op in G, UH, NN. cbv zeta in G, UH, NN. unfold a_cls in K.
  destruct (a_op i); try discriminate K.
  all: try (apply UH; reflexivity).
  all: try (eapply G; [|reflexivity]; first [apply AS | apply OS | apply nret_bin | apply nret_ccmp | apply nret_sel | apply nret_ls | apply nret_lsf]).
  all: try (eapply G; [|reflexivity]; cbn [nret']; nrf; fail).
  all: repeat match type of UH with (if ?b then _ else _) = _ -> _ => destruct b end.
  all: try (apply UH; reflexivity); try (apply NN; reflexivity).
  all: try (eapply G; [|reflexivity]; first [apply AS | cbn [nret']; nrf]; fail).
  all: try (eapply G; [|reflexivity]; pose proof (nret_ls i) as X; destruct (LiftLoadStore i); [cbn [nret'] in *; nrf; assumption|exact I]).
  all: try (eapply G; [|reflexivity]; destruct (IsTrue (a_cond i)); [reflexivity|exact I]).
  - eapply G; [|reflexivity]. apply nret_fccmp.
  - pose proof (nrv_vec v) as N. destruct (lift_vec v) as [[l|]|]; [eapply G; [|reflexivity]; exact N|apply UH; reflexivity|apply NN; reflexivity].
Qed.

(** ** Edges *)
Definition a_has_call (cfg : acfg) : bool := match al_call cfg with Some _ => true | None => false end.
Lemma pc_of_undef : forall cfg p, pc_of (undef_flags cfg) p = p.
Proof. intros. unfold undef_flags. destruct (al_clobber cfg); reflexivity. Qed.

Lemma a64_hit : forall cfg unk d ok code t, t <> 0 -> a_start (d_i _ d) = d_start _ d ->
  d_inh _ d = (match fst (a_cls unk (d_i _ d)) with KCall => negb (a_has_call cfg) | _ => false end) ->
  lift_a64 cfg (d_i _ d) = Some (ok, code) ->
  sets_pc code /\ (end_of ainst d code = BBranch -> (hit t code <= real1 ainst a_len (a_cls unk) (a_has_call cfg) t d)%nat).
Proof.
  intros cfg unk d ok code t T0 SD IN L. set (i := d_i _ d) in *.
  assert (EN : d_end ainst a_len d = a_end i) by (unfold d_end, add64, a_end, a_len; fold i; rewrite SD; reflexivity).
  unfold real1. rewrite EN. unfold d_to, d_kind. fold i.
  assert (T0' : (t =? 0) = false) by lia. rewrite T0'. cbn [negb andb].
  assert (BND : forall a, pc_of code [] = [a] -> (t = a -> (1 <= (if (snd (a_cls unk i) =? t)%Z then 1 else 0) +
     (if follows (a_has_call cfg) (fst (a_cls unk i)) && (a_end i =? t)%Z then 1 else 0))%nat) ->
     (hit t code <= (if (snd (a_cls unk i) =? t)%Z then 1 else 0) +
     (if follows (a_has_call cfg) (fst (a_cls unk i)) && (a_end i =? t)%Z then 1 else 0))%nat).
  { intros a P Q. rewrite (hit_one t _ a P). destruct (Z.eqb_spec t a); [auto|lia]. }
  assert (BND0 : pc_of code [] = [] -> (hit t code <= (if (snd (a_cls unk i) =? t)%Z then 1 else 0) +
     (if follows (a_has_call cfg) (fst (a_cls unk i)) && (a_end i =? t)%Z then 1 else 0))%nat).
  { intros P. rewrite (hit_none t _ P). lia. }
  destruct (fst (a_cls unk i)) eqn:K.
  5: { destruct (a64_other cfg unk i ok code K L) as [(_ & l & -> & _)|(_ & ->)].
       - split; [apply sets_first|]. intros _. apply (BND (a_end i)); [cbn [pc_of]; rewrite pc_of_app; reflexivity|].
         intros ->. rewrite Z.eqb_refl. cbn [follows andb]. lia.
       - split; [apply sets_first|]. intros _. apply BND0. reflexivity. }
  all: unfold lift_a64, lift_op in L; cbv zeta in L; unfold a_cls in K; unfold a_cls in BND, BND0 |- *.
  all: destruct (a_op i) eqn:O; try discriminate K; cbn [snd] in *; try (destruct (unk i); discriminate K).
  - (* B *) cbn [jump] in L. injection L as <- <-. split; [apply sets_first|]. intros _. apply (BND (trunc 64 (a_start i + a_off i))); [reflexivity|].
    intros ->. rewrite Z.eqb_refl. lia.
  - (* BR *) cbn [jump] in L. injection L as <- <-. split; [apply sets_first|]. intros _. apply BND0. reflexivity.
  - destruct (IsTrue (a_cond i)); [|discriminate L]. cbn [jump] in L. injection L as <- <-. split; [apply sets_first|]. intros _. unfold hit, hits. cbn [cpc plain_lang pc_of existsb follows andb].
    rewrite !(Z.eqb_sym t). destruct (trunc 64 (a_start i + a_off i) =? t); destruct (a_end i =? t); cbn [orb]; lia.
  - cbn [jump] in L. injection L as <- <-. split; [apply sets_first|]. intros _. unfold hit, hits. cbn [cpc plain_lang pc_of existsb follows andb].
    rewrite !(Z.eqb_sym t). destruct (trunc 64 (a_start i + a_off i) =? t); destruct (a_end i =? t); cbn [orb]; lia.
  - cbn [jump] in L. injection L as <- <-. split; [apply sets_first|]. intros _. unfold hit, hits. cbn [cpc plain_lang pc_of existsb follows andb].
    rewrite !(Z.eqb_sym t). destruct (trunc 64 (a_start i + a_off i) =? t); destruct (a_end i =? t); cbn [orb]; lia.
  - destruct (negb _); [discriminate L|]. cbn [jump] in L. injection L as <- <-. split; [apply sets_first|]. intros _. unfold hit, hits. cbn [cpc plain_lang pc_of existsb follows andb].
    rewrite !(Z.eqb_sym t). destruct (trunc 64 (a_start i + a_off i) =? t); destruct (a_end i =? t); cbn [orb]; lia.
  - destruct (negb _); [discriminate L|]. cbn [jump] in L. injection L as <- <-. split; [apply sets_first|]. intros _. unfold hit, hits. cbn [cpc plain_lang pc_of existsb follows andb].
    rewrite !(Z.eqb_sym t). destruct (trunc 64 (a_start i + a_off i) =? t); destruct (a_end i =? t); cbn [orb]; lia.
  - (* BL *) cbn [jump] in L. injection L as <- <-. split; [apply sets_first|]. intro EO. unfold end_of in EO. rewrite IN in EO.
    destruct (cret _); [discriminate|]. unfold a_has_call in *. destruct (al_call cfg); [|discriminate EO].
    apply (BND (a_end i)); [cbn [pc_of]; rewrite pc_of_app, pc_of_undef; reflexivity|]. intros ->. cbn [follows andb]. rewrite Z.eqb_refl. lia.
  - cbn [jump] in L. injection L as <- <-. split; [apply sets_first|]. intro EO. unfold end_of in EO. rewrite IN in EO.
    destruct (cret _); [discriminate|]. unfold a_has_call in *. destruct (al_call cfg); [|discriminate EO].
    apply (BND (a_end i)); [cbn [pc_of]; rewrite pc_of_app, pc_of_undef; reflexivity|]. intros ->. cbn [follows andb]. rewrite Z.eqb_refl. lia.
  - (* SVC *) cbn [jump] in L. injection L as <- <-. split; [apply sets_first|]. intros _. apply BND0. destruct (al_syscall cfg); reflexivity.
  - (* RET *) cbn [jump] in L. injection L as <- <-. split; [apply sets_first|]. intros _. apply BND0. cbn [pc_of]. rewrite pc_of_app, pc_of_undef. destruct (al_call cfg); reflexivity.
  - (* OTHER *) cbn [unhandled] in L. injection L as <- <-. split; [apply sets_first|]. intros _. apply BND0. reflexivity.
Qed.
