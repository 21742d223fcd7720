(** x86-64 instance of the driver (LiftFn.v): guest semantics of whole functions,
    the code of one instruction, the edges lifting creates. *)

From Coq Require Import ZArith Lia ZifyBool List Bool Arith.
From Verif Require Import Bits IR Facet Dsl Rv64 Rv64Spec Rv64Sim X86 X86Spec X86Sim X86Ops X86Step X86StrSpec X86Run X86Str
  X86Sse X86SseSpec X86SseSim X86SseOps X86SseStep X86SseMain X86SseTop X86Shape Decode DecodeOk LiftFn LiftSim LiftEdge LiftRv.
Import ListNotations.
Open Scope Z_scope.
Ltac Zify.zify_post_hook ::= Z.div_mod_to_equations.

(** The code of one instruction: from the general-purpose and string lifters
    (X86.v), or from the SSE lifter (X86Sse.v). *)
Inductive xc := XC_gp (k : xcode) | XC_sse (l : list astm).
Definition xcode_ret (k : xcode) : bool :=
  match k with
  | CPlain l => has_ret l
  | CLoop h _ _ b _ _ cont => has_ret h || has_ret b || has_ret cont
  | CIf h _ l1 l2 _ cont => has_ret h || has_ret l1 || has_ret l2 || has_ret cont
  end.
(** The PC is set only in straight-line parts. *)
Definition xcode_pc (k : xcode) (p : list Z) : list Z :=
  match k with
  | CPlain l => pc_of l p
  | CLoop h _ _ b _ _ cont => pc_of cont (pc_of b (pc_of h p))
  | CIf h _ l1 l2 _ cont => pc_of cont (pc_of l2 (pc_of l1 (pc_of h p)))
  end.
Definition xc_ret (k : xc) : bool := match k with XC_gp k => xcode_ret k | XC_sse l => has_ret (map snd l) end.
Definition xc_run (F : FpuOps) (c : cenv) (s : st) (k : xc) : res st :=
  match k with XC_gp k => xrunf c s k | XC_sse l => arun c s l end.
Definition xc_pc (k : xc) (p : list Z) : list Z := match k with XC_gp k => xcode_pc k p | XC_sse l => pc_of (map snd l) p end.
Canonical Structure xlang : lang := Lang xc xc_ret xc_run xc_pc.
#[export] Existing Instance xlang.

(** Instructions of the two lifters. *)
Inductive zinst := ZG (i : xinst) | ZS (i : sinst).
Definition z_start (i : zinst) : Z := match i with ZG i => x_start i | ZS i => i_start i end.
Definition z_len (i : zinst) : Z := match i with ZG i => x_len i | ZS i => i_len i end.

Section Cls.
(** Among the instructions without support in lifter.cc: is it one of INT, INT3,
    INTO, UD0-2, HLT (lldecoder.cc:80-88)? *)
Variable unk : xinst -> bool.
(** lldecoder.cc:48-90 classifyInstr, case Arch::X86_64. *)
Definition x_cls (i : zinst) : kind * Z :=
  match i with
  | ZG i =>
    match x_mn i with
    | X_J _ | X_JCXZ | X_LOOP | X_LOOPZ | X_LOOPNZ => (KCond, x_target i)
    | X_JMP => (KBranch, x_target i)
    | X_CALL => (KCall, 0)
    | X_RET | X_SYSCALL => (KUnknown, 0)
    | X_OTHER => if unk i then (KUnknown, 0) else (KOther, 0)
    | _ => (KOther, 0)
    end
  | ZS _ => (KOther, 0)
  end.
End Cls.

(** lifter.cc:47-431: the instruction at position [n]; what is known to be constant
    there is given by [kc], [kcp] and [kd]. Always defined: the assertions of the
    operand handling are hypotheses of the one-instruction theorems. *)
Definition x_lf (c : cenv) (cfg : xcfg) (kc kcp : nat -> areg -> konst) (kd : nat -> kdivk) (n : nat) (i : zinst) : option (bool * xc) :=
  Some (match i with
        | ZG i => let p := lift_x86 c cfg (kc n) (kcp n) None (kd n) i in (fst p, XC_gp (snd p))
        | ZS i => (true, XC_sse (lift_sinst c cfg (kc n) i))
        end).

(** ** Guest semantics *)
(** A CPU struct holding a guest state, with values in range. *)
Definition zcpu_holds (u : cpu) (g : zst) : Prop :=
  u_pc u = Some (y_ip (z_x g)) /\ inr 64 (y_ip (z_x g)) /\ zrel (St (u_reg u) (PcVal (Poison (TInt 64))) (u_mem u) (fun _ => None) false) g.
Definition zext_rel (c : cenv) (f : Z) (g g' : zst) : Prop := exists u, zcpu_holds u g /\ zcpu_holds (c_ext c f u) g'.
(** Given a complete CPU struct, external functions leave a complete one. *)
Definition zext_ok (c : cenv) : Prop := forall f u g, zcpu_holds u g -> exists g', zcpu_holds (c_ext c f u) g'.
(** The user function that finishes an instruction. *)
Definition x_fun (cfg : xcfg) (i : xinst) : option Z :=
  match x_mn i with X_CALL => xl_call cfg | X_SYSCALL => xl_syscall cfg | _ => None end.
(** The effect of an instruction, with the flags of [xlost] given up. *)
Definition x_eff (cfg : xcfg) (i : xinst) (g : zst) (x : xst) : zst := set_x g (forget (xlost cfg i (adv i (z_x g))) x).

(** One guest step: an instruction of the ISA; or a call or system call together
    with everything the configured function does. *)
Inductive zstep `{FpuOps} (c : cenv) (cfg : xcfg) (rel : ty -> Z -> Z -> option comparison) (fetch : Z -> option zinst) (g g' : zst) : Prop :=
| zs_gp : forall i x, fetch (y_ip (z_x g)) = Some (ZG i) -> xspec i (z_x g) = Some x -> x_fun cfg i = None ->
    g' = x_eff cfg i g x -> zstep c cfg rel fetch g g'
| zs_str : forall i x, fetch (y_ip (z_x g)) = Some (ZG i) -> str_spec i (z_x g) = Some x -> g' = set_x g x -> zstep c cfg rel fetch g g'
| zs_sse : forall i, fetch (y_ip (z_x g)) = Some (ZS i) -> s_spec rel i g = Some g' -> zstep c cfg rel fetch g g'
| zs_ext : forall i x f, fetch (y_ip (z_x g)) = Some (ZG i) -> xspec i (z_x g) = Some x -> x_fun cfg i = Some f ->
    zext_rel c f (x_eff cfg i g x) g' -> zstep c cfg rel fetch g g'.

Definition is_strmn (m : xmn) : bool := match m with X_LODS | X_STOS | X_MOVS | X_SCAS | X_CMPS => true | _ => false end.
(** The lifted code for [i] does what the ISA says in [g] (Prop_X86c.v, Prop_X86str.v,
    Prop_Sse.v): operands the lifter accepts; constants known to the lifter are
    right; none of the refuted forms; all flags read are specified; a system call
    has an implementation; unsupported instructions are lifted for their own
    address. FXSAVE, FXRSTOR, FSTCW, FSTSW, STMXCSR have no [s_spec]. *)
Definition z_good `{FpuOps} (c : cenv) (cfg : xcfg) (rel : ty -> Z -> Z -> option comparison) (kc kcp : areg -> konst) (kd : kdivk) (i : zinst) (g : zst) : Prop :=
  match i with
  | ZS i => s_shape i = true /\ good_q cfg (i_op0 i) = true /\ good_q cfg (i_op1 i) = true /\ xkc_sound kc (z_x g) /\
            i_mn i <> S_PSHUFHW /\ s_natural i g /\ cvt_ok i (sadv i g) /\ s_spec rel i g <> None
  | ZG i =>
    match x_mn i with
    | X_OTHER => at_home c (x_start i)
    | X_LODS | X_STOS | X_MOVS | X_SCAS | X_CMPS => str_spec i (z_x g) <> None
    | _ => xwf i = true /\ good_op cfg (x_op0 i) = true /\ good_op cfg (x_op1 i) = true /\ good_op cfg (x_op2 i) = true /\
           xkc_sound kc (z_x g) /\ xsupp kcp kd i (adv i (z_x g)) /\ xspec i (z_x g) <> None /\ (x_mn i = X_SYSCALL -> xl_syscall cfg <> None)
    end
  end.

Lemma zrel_st : forall s s' g, (forall r, s_reg s' r = s_reg s r) -> (forall x, s_mem s' x = s_mem s x) -> zrel s g -> zrel s' g.
Proof.
  intros s s' g E1 E2 [[A B C D E G I J] Q]. split; [split; intros; rewrite ?E1, ?E2; auto|].
  - apply I in H. destruct f; cbn [flag_is] in *; rewrite ?E1; exact H.
  - intros n N. rewrite E1. apply Q, N.
Qed.
Lemma zrel_of_cpu : forall s u g, zcpu_holds u g -> zrel (of_cpu s u) g.
Proof. intros s u g (_ & _ & R). eapply zrel_st; [| |exact R]; reflexivity. Qed.
Lemma zcpu_of : forall s g pc, zrel s g -> inr 64 (y_ip (z_x g)) -> pc = y_ip (z_x g) -> zcpu_holds (to_cpu s (V (TInt 64) pc)) g.
Proof. intros s g pc R I0 ->. split; [reflexivity|]. split; [assumption|]. eapply zrel_st; [| |exact R]; reflexivity. Qed.

(** ** Shape of the code of one instruction *)
Definition x_uncode (i : xinst) : list stm := [SPcConst (x_end i); SPcVal (cI 64 (x_start i))].
Lemma unsup_x86 : forall c cfg kc kcp kd i, x_mn i = X_OTHER -> lift_x86 c cfg kc kcp None kd i = (false, CPlain (x_uncode i)).
Proof. intros c cfg kc kcp kd i MN. unfold lift_x86, lift_gp, lift_str. rewrite MN. reflexivity. Qed.
Lemma sup_x86 : forall c cfg kc kcp kd i, x_mn i <> X_OTHER -> fst (lift_x86 c cfg kc kcp None kd i) = true.
Proof. intros c cfg kc kcp kd i MN. unfold lift_x86, lift_gp, lift_str. destruct (x_mn i); try reflexivity. congruence. Qed.
Lemma x86_other : forall c cfg kc kcp kd unk i ok k, fst (x_cls unk (ZG i)) = KOther -> lift_x86 c cfg kc kcp None kd i = (ok, k) ->
  (ok = true /\ exists k0, k = code_pre [SPcConst (x_end i)] k0 /\ xall qt k0 = true) \/ (ok = false /\ k = CPlain (x_uncode i)).
Proof.
  intros c cfg kc kcp kd unk i ok k K E. unfold lift_x86 in E. destruct (lift_gp c cfg kc kcp kd i) as [l|] eqn:LG.
  - injection E as <- <-. left. split; [reflexivity|]. exists (CPlain l). split; [reflexivity|].
    eapply lift_gp_qt; [|exact LG]. cbn [x_cls] in K. destruct (x_mn i); try reflexivity; discriminate K.
  - destruct (lift_str i) as [k0|] eqn:LS; injection E as <- <-.
    + left. split; [reflexivity|]. exists k0. split; [reflexivity|]. eapply lift_str_qt, LS.
    + right. split; reflexivity.
Qed.
Lemma gp_nvec : forall c cfg kc kcp kd i pre, lift_gp c cfg kc kcp kd i = Some (pre ++ xext cfg i) -> forallb nvec pre = true.
Proof.
  intros c cfg kc kcp kd i pre E.
  assert (Q : forall l, lift_gp c cfg kc kcp kd i = Some l -> xext cfg i = [] -> forallb nvec l = true -> forallb nvec pre = true).
  { intros l L X N. rewrite X, app_nil_r, L in E. injection E as <-. exact N. }
  assert (G : (match x_mn i with X_J _ | X_JMP | X_JCXZ | X_LOOP | X_LOOPZ | X_LOOPNZ | X_CALL | X_RET | X_SYSCALL => false | _ => true end) = true -> xext cfg i = [] -> forallb nvec pre = true).
  { intros NJ X. rewrite X, app_nil_r in E. apply (fb_imp qt nvec); [exact qt_nvec|]. eapply lift_gp_qt; eassumption. }
  assert (T : forall l, lift_gp c cfg kc kcp kd i = Some (l ++ xext cfg i) -> forallb nvec l = true -> forallb nvec pre = true).
  { intros l L N. rewrite L in E. injection E as E. apply app_inv_tail in E. rewrite <- E. exact N. }
  assert (LD : forall seg x o f, forallb nvec (OpLoadSeg c cfg kc seg x o f) = true) by (intros; apply (fb_imp qt nvec); [exact qt_nvec|apply qt_OpLoadSeg]).
  assert (UN : forall l, forallb novec l = true -> forallb nvec (SetFlagUndef l) = true) by (intros; apply (fb_imp qt nvec); [exact qt_nvec|apply qt_undef; assumption]).
  unfold lift_gp, xext in Q, G, T. destruct (x_mn i) eqn:MN; try (apply G; reflexivity).
  - (* CALL *) eapply T.
    + unfold LiftCall. rewrite !app_assoc. reflexivity.
    + repeat apply fb_app; try reflexivity; [destruct (xl_clobber cfg); [apply UN|]; reflexivity|]. destruct (x_op0 i); try reflexivity; apply LD.
  - (* RET *) eapply Q; [reflexivity|reflexivity|]. unfold LiftRet. repeat apply fb_app; try reflexivity;
    [destruct (xl_clobber cfg); [apply UN|]; reflexivity|destruct (x_op0 i); reflexivity|destruct (xl_call cfg); reflexivity].
  - (* SYSCALL *) eapply T; [unfold LiftSyscall; reflexivity|]. reflexivity.
  - eapply Q; [reflexivity|reflexivity|]. reflexivity.
  - eapply Q; [reflexivity|reflexivity|]. unfold LiftJmp. destruct (x_op0 i); try reflexivity; (apply fb_app; [apply LD|reflexivity]).
  - eapply Q; [reflexivity|reflexivity|]. reflexivity.
  - eapply Q; [reflexivity|reflexivity|]. unfold LiftLoop. repeat apply fb_app; try reflexivity. apply (fb_imp qt nvec); [exact qt_nvec|]. apply qt_StoreGpFacet. reflexivity.
  - eapply Q; [reflexivity|reflexivity|]. unfold LiftLoop. repeat apply fb_app; try reflexivity. apply (fb_imp qt nvec); [exact qt_nvec|]. apply qt_StoreGpFacet. reflexivity.
  - eapply Q; [reflexivity|reflexivity|]. unfold LiftLoop. repeat apply fb_app; try reflexivity. apply (fb_imp qt nvec); [exact qt_nvec|]. apply qt_StoreGpFacet. reflexivity.
Qed.
Lemma anpc_snd : forall l, forallb anpc l = true -> forallb npc (map snd l) = true.
Proof. induction l as [|x l IH]; intros E; [reflexivity|]. cbn [forallb map] in *. apply andb_prop in E. destruct E as [A B]. rewrite (IH B), andb_true_r. exact A. Qed.
Lemma npc_noret : forall l, forallb npc l = true -> has_ret l = false.
Proof. induction l as [|x l IH]; intros E; [reflexivity|]. cbn [forallb] in E. apply andb_prop in E. destruct E as [A B]. unfold has_ret in *. cbn [existsb]. rewrite (IH B). destruct x; (reflexivity || discriminate A). Qed.
Lemma npc_pc : forall l p, forallb npc l = true -> pc_of l p = p.
Proof. induction l as [|x l IH]; intros p E; [reflexivity|]. cbn [forallb] in E. apply andb_prop in E. destruct E as [A B]. destruct x; try discriminate A; cbn [pc_of]; apply IH, B. Qed.
Lemma xall_ret : forall k, xall npc k = true -> xcode_ret k = false.
Proof.
  intros [l|h g phi b a cphi cont|h g l1 l2 phi cont] E; cbn [xall xcode_ret] in *.
  - apply npc_noret, E.
  - apply andb_prop in E as [E E3]. apply andb_prop in E as [E1' E2']. rewrite !npc_noret by assumption. reflexivity.
  - apply andb_prop in E as [E E3]. apply andb_prop in E as [E E4]. apply andb_prop in E as [E1' E2']. rewrite !npc_noret by assumption. reflexivity.
Qed.
Lemma xall_pc : forall k p, xall npc k = true -> xcode_pc k p = p.
Proof.
  intros [l|h g phi b a cphi cont|h g l1 l2 phi cont] p E; cbn [xall xcode_pc] in *.
  - apply npc_pc, E.
  - apply andb_prop in E as [E E3]. apply andb_prop in E as [E1' E2']. rewrite !npc_pc by assumption. reflexivity.
  - apply andb_prop in E as [E E3]. apply andb_prop in E as [E E4]. apply andb_prop in E as [E1' E2']. rewrite !npc_pc by assumption. reflexivity.
Qed.
Lemma xall_qt : forall k, xall qt k = true -> xall npc k = true.
Proof.
  intros [l|h g phi b a cphi cont|h g l1 l2 phi cont] E; cbn [xall] in *.
  - apply (fb_imp qt); [exact qt_npc|exact E].
  - apply andb_prop in E as [E E3]. apply andb_prop in E as [E1' E2']. rewrite !(fb_imp qt npc) by (exact qt_npc || assumption). reflexivity.
  - apply andb_prop in E as [E E3]. apply andb_prop in E as [E E4]. apply andb_prop in E as [E1' E2']. rewrite !(fb_imp qt npc) by (exact qt_npc || assumption). reflexivity.
Qed.
Lemma xcode_ret_pre : forall a k, xcode_ret (code_pre [SPcConst a] k) = xcode_ret k.
Proof. intros a k. destruct k; reflexivity. Qed.
Lemma xcode_pc_pre : forall a k p, xcode_pc (code_pre [SPcConst a] k) p = xcode_pc k [a].
Proof. intros a k p. destruct k; reflexivity. Qed.
Lemma xrunq_pre : forall `{FpuOps} c p s a k, xrunq c p s (code_pre [SPcConst a] k) = xrunq c p (with_pc s (PcConst a)) k.
Proof. intros F c p s a k. destruct k; reflexivity. Qed.
Lemma xrunq_plain : forall `{FpuOps} c p s l, xrunq c p s (CPlain l) = run c s l.
Proof. reflexivity. Qed.
Lemma xrunf_plain : forall `{FpuOps} c s l, xrunf c s (CPlain l) = run c s l.
Proof. intros. apply xrunq_plain. Qed.
Lemma whole_nvec : forall c cfg kc kcp kd i pre, is_strmn (x_mn i) = false -> lift_x86 c cfg kc kcp None kd i = (true, CPlain (pre ++ xext cfg i)) -> forallb nvec pre = true.
Proof.
  intros c cfg kc kcp kd i pre NS E. unfold lift_x86 in E. destruct (lift_gp c cfg kc kcp kd i) as [l|] eqn:LG.
  - injection E as E. destruct pre as [|x pre].
    + reflexivity.
    + cbn [app] in E. injection E as <- E. rewrite E in LG. cbn [forallb]. eapply gp_nvec, LG.
  - exfalso. unfold lift_gp in LG. destruct (x_mn i) eqn:MN; try discriminate LG; try discriminate NS.
    unfold lift_str in E. rewrite MN in E. discriminate E.
Qed.
Definition zpc_at (c : cenv) (s : st) (g : zst) : Prop := pc_value c (s_pc s) 0 = Ok (V (TInt 64) (y_ip (z_x g))).
Lemma isa_inr : forall i g g', inr 64 (y_ip g) -> x_mn i = X_CALL \/ x_mn i = X_SYSCALL -> isa i g = Some g' -> inr 64 (y_ip g').
Proof.
  intros i g g' I0 MN E. assert (W : forall x t, inr 64 (y_ip (set_ip x t))) by (intros; apply trunc_range; lia).
  unfold isa in E. destruct MN as [MN|MN]; rewrite MN in E; unfold obind in E; cbv zeta beta iota in E.
  - injection E as <-. apply W.
  - destruct (defined g all_flags); [|discriminate]. injection E as <-. exact I0.
Qed.

Section One.
Context `{FpuOps}.
Variable c : cenv.
Hypothesis HA : c_arch c = X86_64.
Hypothesis GB : gbase_ok c.
Hypothesis EX : zext_ok c.
Variable cfg : xcfg.
Variable rel : ty -> Z -> Z -> option comparison.
Hypothesis FS : fpu_std rel.
Variable unk : xinst -> bool.
Variables kc kcp : nat -> areg -> konst.
Variable kd : nat -> kdivk.
Variable n : nat.
Variable i : zinst.
Variable s : st.
Variable g : zst.
Hypothesis R : zrel s g.
Hypothesis PC : y_ip (z_x g) = addr_pc_base c (z_start i).
Variable fetch : Z -> option zinst.
Hypothesis FE : fetch (y_ip (z_x g)) = Some i.
Hypothesis GD : z_good c cfg rel (kc n) (kcp n) (kd n) i g.

Lemma pc_const : forall s' g' a, zpc_at c s' g' -> s_pc s' = PcConst a -> y_ip (z_x g') = addr_pc_base c a.
Proof. intros s' g' a P E. unfold zpc_at in P. rewrite E in P. cbn [pc_value] in P. injection P as P. rewrite Z.add_0_r in P. symmetry. exact P. Qed.
Lemma zrel_x : forall s' x, xrel s' x -> (forall m, s_reg s' (VEC m) = s_reg s (VEC m)) -> zrel s' (set_x g x).
Proof. intros s' x X V. split; [exact X|]. intros m M. rewrite V. apply (proj2 R m M). Qed.

Lemma z_one : forall ok code, x_lf c cfg kc kcp kd n i = Some (ok, code) ->
  exists s', crun c s code = Ok s' /\
    if ok then exists g', zstep c cfg rel fetch g g' /\ zrel s' g' /\ zpc_at c s' g' /\
                 (fst (x_cls unk i) = KOther -> y_ip (z_x g') = addr_pc_base c (trunc 64 (z_start i + z_len i)))
    else zrel s' g /\ zpc_at c s' g /\ exists v, s_pc s' = PcVal v.
Proof.
  intros ok code L. unfold x_lf in L.
  assert (SI : forall a b : bool * xc, Some a = Some b -> a = b) by (intros a b Q; injection Q as Q; exact Q). apply SI in L. clear SI. destruct i as [j|j]; cbn [z_good z_start z_len] in *.
  2: { injection L as <- <-. destruct GD as (SH & O0 & O1 & KC & NP & NA & CV & SP).
       destruct (s_spec rel j g) as [g'|] eqn:E; [|congruence].
       destruct (sse_step c cfg rel (kc n) j s g g' FS (SCtx _ _ _ _ _ _ HA GB R SH O0 O1 KC PC) NP NA CV E) as (s' & R1 & Z1 & P1 & T1).
       exists s'. split; [exact R1|]. exists g'. split; [eapply zs_sse; eassumption|]. split; [exact Z1|]. split; [exact P1|].
       intros _. rewrite (arun_pc c cfg (kc n) j s) in R1.
       destruct (arun_npc c _ _ _ (anpc_snd _ (lift_sse_npc c cfg (kc n) j)) R1) as [Q _]. eapply pc_const; [exact P1|exact Q]. }
  destruct (is_strmn (x_mn j)) eqn:ST.
  { assert (SP : str_spec j (z_x g) <> None) by (destruct (x_mn j); try discriminate ST; exact GD).
    destruct (str_spec j (z_x g)) as [x|] eqn:E; [|congruence].
    destruct (str_wholef c cfg (kc n) (kcp n) (kd n) j s (z_x g) x HA (proj1 R) PC E) as (k & s' & L1 & RN & X1 & P1 & T1).
    cbv zeta in L. rewrite L1 in L. cbn [fst snd] in L. injection L as <- <-. exists s'. split; [exact RN|].
    assert (KO : fst (x_cls unk (ZG j)) = KOther) by (cbn [x_cls]; destruct (x_mn j); (reflexivity || discriminate ST)).
    destruct (x86_other c cfg (kc n) (kcp n) (kd n) unk j true k KO L1) as [(_ & k0 & -> & Q)|(Q & _)]; [|discriminate].
    unfold xrunf in RN. rewrite xrunq_pre in RN. destruct (xrunq_qt c _ _ _ _ Q RN) as (V1 & P2 & _).
    exists (set_x g x). split; [eapply zs_str; [exact FE|exact E|reflexivity]|]. split; [apply zrel_x; [exact X1|intros m; rewrite V1; reflexivity]|].
    split; [exact P1|]. intros _. eapply (pc_const s'); [exact P1|exact P2]. }
  destruct (match x_mn j with X_OTHER => true | _ => false end) eqn:OT.
  { assert (MN : x_mn j = X_OTHER) by (destruct (x_mn j); (reflexivity || discriminate OT)).
    rewrite MN in GD. cbv zeta in L. rewrite (unsup_x86 c cfg (kc n) (kcp n) (kd n) j MN) in L. cbn [fst snd] in L. injection L as <- <-.
    cbn [crun xlang xc_run]. rewrite xrunf_plain. unfold x_uncode. eexists. split; [reflexivity|].
    split; [eapply zrel_st; [| |exact R]; reflexivity|]. split; [|eexists; reflexivity].
    unfold zpc_at. cbn [with_pc s_pc pc_value]. change (0 =? 0) with true. cbv iota. rewrite PC. f_equal. f_equal. symmetry. exact GD. }
  assert (GD' : xwf j = true /\ good_op cfg (x_op0 j) = true /\ good_op cfg (x_op1 j) = true /\ good_op cfg (x_op2 j) = true /\
           xkc_sound (kc n) (z_x g) /\ xsupp (kcp n) (kd n) j (adv j (z_x g)) /\ xspec j (z_x g) <> None /\ (x_mn j = X_SYSCALL -> xl_syscall cfg <> None)).
  { destruct (x_mn j); try discriminate ST; try discriminate OT; exact GD. }
  destruct GD' as (WF & O0 & O1 & O2 & KC & SU & SP & SY). clear GD.
  destruct (xspec j (z_x g)) as [x|] eqn:E; [|congruence].
  destruct (whole_pre c cfg (kc n) (kcp n) (kd n) j s (z_x g) x (XCtx _ _ _ _ _ _ HA GB (proj1 R) WF O0 O1 O2 KC PC) SU E) as (pre & s1 & L1 & RN & X1 & P1 & T1).
  pose proof (whole_nvec c cfg (kc n) (kcp n) (kd n) j pre ST L1) as NV. pose proof (run_nvec c _ _ _ NV RN) as V1.
  pose proof L1 as L1'. cbv zeta in L. rewrite L1 in L. cbn [fst snd] in L. injection L as <- <-.
  cbn [crun xlang xc_run]. rewrite xrunf_plain, run_app, RN. cbn [bind].
  assert (Z1 : zrel s1 (x_eff cfg j g x)) by (apply zrel_x; assumption).
  assert (P1' : zpc_at c s1 (x_eff cfg j g x)) by exact P1.
  destruct (x_fun cfg j) as [f|] eqn:XF.
  2: { assert (XE : xext cfg j = []) by (unfold x_fun, xext in *; destruct (x_mn j); try reflexivity; rewrite XF; reflexivity).
       rewrite XE. cbn [run]. exists s1. split; [reflexivity|]. exists (x_eff cfg j g x).
       split; [eapply zs_gp; [exact FE|exact E|exact XF|reflexivity]|]. split; [exact Z1|]. split; [exact P1'|].
       intros KO. rewrite XE, app_nil_r in L1'.
       destruct (x86_other c cfg (kc n) (kcp n) (kd n) unk j true _ KO L1') as [(_ & k0 & Q1 & Q)|(Q & _)]; [|discriminate].
       destruct k0 as [l|h gg phi b a cphi cont|h gg l1 l2 phi cont]; cbn [code_pre] in Q1; try discriminate Q1. injection Q1 as ->.
       cbn [app run run1 bind xall] in RN, Q. destruct (run_npc c _ _ _ (fb_imp _ _ _ qt_npc Q) RN) as [P2 _].
       eapply pc_const; [exact P1'|exact P2]. }
  assert (MC : x_mn j = X_CALL \/ x_mn j = X_SYSCALL) by (unfold x_fun in XF; destruct (x_mn j); try discriminate XF; auto).
  assert (IP1 : inr 64 (y_ip (z_x (x_eff cfg j g x)))).
  { cbn [x_eff set_x z_x forget set_f y_ip]. eapply isa_inr; [|exact MC|exact E]. apply trunc_range. lia. }
  pose proof (zcpu_of s1 _ _ Z1 IP1 eq_refl) as CU. destruct (EX f _ _ CU) as [g' HG].
  set (s2 := of_cpu s1 (c_ext c f (to_cpu s1 (V (TInt 64) (y_ip (z_x (x_eff cfg j g x))))))) in *.
  assert (P2 : s_pc s2 = PcVal (V (TInt 64) (y_ip (z_x g')))).
  { destruct HG as (U1 & U2 & _). unfold s2. cbn [of_cpu s_pc]. rewrite U1. rewrite trunc_small by assumption. reflexivity. }
  assert (RC : run1 c s1 (SCall f) = Ok s2) by (cbn [run1]; unfold zpc_at in P1'; rewrite P1'; reflexivity).
  assert (ZX : zstep c cfg rel fetch g g') by (eapply zs_ext; [exact FE|exact E|exact XF|eexists; split; [exact CU|exact HG]]).
  assert (Z2 : zrel s2 g') by (apply (zrel_of_cpu s1), HG).
  destruct MC as [MN|MN]; unfold x_fun in XF; unfold xext; rewrite MN in *; rewrite XF; cbn [run]; rewrite RC; cbn [bind].
  - cbn [run1]. rewrite P2. cbn [pc_value bind]. change (0 =? 0) with true. cbv iota. cbn [bind].
    eexists. split; [reflexivity|]. exists g'. split; [exact ZX|]. split; [eapply zrel_st; [| |exact Z2]; reflexivity|].
    split; [unfold zpc_at; cbn [with_pc s_pc pc_value]; reflexivity|]. cbn [x_cls]. rewrite MN. discriminate.
  - exists s2. split; [reflexivity|]. exists g'. split; [exact ZX|]. split; [exact Z2|].
    split; [unfold zpc_at; rewrite P2; cbn [pc_value]; reflexivity|]. cbn [x_cls]. rewrite MN. discriminate.
Qed.
End One.

(** ** Edges *)
Definition x_has_call (cfg : xcfg) : bool := match xl_call cfg with Some _ => true | None => false end.
Lemma xhit_one : forall t (k : xc) a, xc_pc k [] = [a] -> hit (LA := xlang) t k = if t =? a then 1%nat else 0%nat.
Proof. intros t k a E. unfold hit, hits. cbn [cpc xlang]. rewrite E. cbn [existsb]. rewrite orb_false_r. reflexivity. Qed.
Lemma xhit_none : forall t (k : xc), xc_pc k [] = [] -> hit (LA := xlang) t k = 0%nat.
Proof. intros t k E. unfold hit, hits. cbn [cpc xlang]. rewrite E. reflexivity. Qed.
Lemma pc_of_qt : forall l p, forallb qt l = true -> pc_of l p = p.
Proof. intros l p E. apply npc_pc. apply (fb_imp qt); [exact qt_npc|exact E]. Qed.
Lemma pc_of_undef : forall cfg p, pc_of (if xl_clobber cfg then SetFlagUndef status_flags else []) p = p.
Proof. intros. destruct (xl_clobber cfg); reflexivity. Qed.

Lemma z_hit : forall c cfg kc kcp kd unk n d ok code t, t <> 0 -> z_start (d_i _ d) = d_start _ d ->
  d_inh _ d = (match fst (x_cls unk (d_i _ d)) with KCall => negb (x_has_call cfg) | _ => false end) ->
  (forall i, d_i _ d = ZG i -> x_mn i = X_SYSCALL -> xl_syscall cfg <> None) ->
  x_lf c cfg kc kcp kd n (d_i _ d) = Some (ok, code) ->
  sets_pc code /\ (end_of zinst d code = BBranch -> (hit t code <= real1 zinst z_len (x_cls unk) (x_has_call cfg) t d)%nat).
Proof.
  intros c cfg kc kcp kd unk n d ok code t T0 SD IN SY L.
  assert (EN : d_end zinst z_len d = trunc 64 (z_start (d_i _ d) + z_len (d_i _ d))) by (unfold d_end, add64; rewrite SD; reflexivity).
  unfold real1. rewrite EN. unfold d_to, d_kind. clear EN SD.
  assert (T0' : (t =? 0) = false) by lia. rewrite T0'. cbn [negb andb]. clear T0'.
  set (e := trunc 64 (z_start (d_i _ d) + z_len (d_i _ d))) in *.
  assert (BND : forall a, xc_pc code [] = [a] -> (t = a -> (1 <= (if (snd (x_cls unk (d_i _ d)) =? t)%Z then 1 else 0) +
     (if follows (x_has_call cfg) (fst (x_cls unk (d_i _ d))) && (e =? t)%Z then 1 else 0))%nat) ->
     (hit t code <= (if (snd (x_cls unk (d_i _ d)) =? t)%Z then 1 else 0) +
     (if follows (x_has_call cfg) (fst (x_cls unk (d_i _ d))) && (e =? t)%Z then 1 else 0))%nat).
  { intros a P Q. rewrite (xhit_one t _ a P). destruct (Z.eqb_spec t a); [auto|lia]. }
  assert (BND0 : xc_pc code [] = [] -> (hit t code <= (if (snd (x_cls unk (d_i _ d)) =? t)%Z then 1 else 0) +
     (if follows (x_has_call cfg) (fst (x_cls unk (d_i _ d))) && (e =? t)%Z then 1 else 0))%nat).
  { intros P. rewrite (xhit_none t _ P). lia. }
  unfold x_lf in L. assert (SI : forall a b : bool * xc, Some a = Some b -> a = b) by (intros a b Q; injection Q as Q; exact Q). apply SI in L. clear SI.
  unfold end_of. destruct (d_i _ d) as [i|i] eqn:DI.
  2: { injection L as <- <-. unfold sets_pc. cbn [cpc xlang xc_pc lift_sinst map snd pc_of].
       split; [reflexivity|]. intros _. apply (BND e).
       - cbn [xc_pc lift_sinst map snd pc_of]. apply npc_pc, anpc_snd, lift_sse_npc.
       - intros ->. cbn [x_cls fst follows andb]. rewrite Z.eqb_refl. lia. }
  cbv zeta in L. destruct (lift_x86 c cfg (kc n) (kcp n) None (kd n) i) as [ok0 k] eqn:LX. cbn [fst snd] in L. injection L as <- <-.
  change e with (x_end i) in *. clear e.
  destruct (fst (x_cls unk (ZG i))) eqn:K.
  5: { destruct (x86_other c cfg (kc n) (kcp n) (kd n) unk i ok0 k K LX) as [(_ & k0 & -> & Q)|(_ & ->)].
       - unfold sets_pc. cbn [cpc xlang xc_pc]. split; [intros; rewrite !xcode_pc_pre; reflexivity|]. intros _.
         apply (BND (x_end i)); [cbn [xc_pc]; rewrite xcode_pc_pre; apply xall_pc, xall_qt, Q|].
         intros ->. cbn [follows andb]. rewrite Z.eqb_refl. lia.
       - split; [intros p p'; reflexivity|]. intros _. apply BND0. reflexivity. }
  all: assert (SP : exists l, k = CPlain (SPcConst (x_end i) :: l) /\ lift_gp c cfg (kc n) (kcp n) (kd n) i = Some l \/ x_mn i = X_OTHER /\ k = CPlain (x_uncode i)) by
    (unfold lift_x86 in LX; destruct (lift_gp c cfg (kc n) (kcp n) (kd n) i) as [l|] eqn:LG;
     [exists l; left; injection LX as _ <-; split; reflexivity|exists []; right; unfold lift_gp in LG; cbn [x_cls] in K;
      destruct (x_mn i) eqn:MN; try discriminate LG; try discriminate K; split; [reflexivity|]; unfold lift_str in LX; rewrite MN in LX; injection LX as _ <-; reflexivity]).
  all: destruct SP as (l & [(-> & LG)|(MO & ->)]); (split; [intros p p'; reflexivity|]).
  all: try (intros _; apply BND0; reflexivity).
  all: cbn [x_cls] in *; unfold lift_gp in LG; destruct (x_mn i) eqn:MN; try discriminate K; try discriminate LG; injection LG as <-.
  all: cbn [cret xlang xc_ret xcode_ret cpc xc_pc xcode_pc snd fst] in *.
  - (* JMP *) intros _. unfold LiftJmp in *. destruct (x_op0 i) eqn:O0; try (apply BND0; cbn [pc_of]; rewrite pc_of_app; reflexivity).
    apply (BND (x_target i)); [reflexivity|]. intros ->. rewrite Z.eqb_refl. lia.
  - intros _. unfold hit, hits. cbn [cpc xlang xc_pc xcode_pc LiftJcc pc_of existsb follows andb].
    rewrite !(Z.eqb_sym t). destruct (x_target i =? t); destruct (x_end i =? t); cbn [orb]; lia.
  - intros _. unfold hit, hits. cbn [cpc xlang xc_pc xcode_pc LiftJcxz pc_of existsb follows andb].
    rewrite !(Z.eqb_sym t). destruct (x_target i =? t); destruct (x_end i =? t); cbn [orb]; lia.
  - intros _. unfold hit, hits. cbn [cpc xlang xc_pc xcode_pc pc_of]. unfold LiftLoop. rewrite !pc_of_app. cbn [pc_of existsb follows andb].
    rewrite !(Z.eqb_sym t). destruct (x_target i =? t); destruct (x_end i =? t); cbn [orb]; lia.
  - intros _. unfold hit, hits. cbn [cpc xlang xc_pc xcode_pc pc_of]. unfold LiftLoop. rewrite !pc_of_app. cbn [pc_of existsb follows andb].
    rewrite !(Z.eqb_sym t). destruct (x_target i =? t); destruct (x_end i =? t); cbn [orb]; lia.
  - intros _. unfold hit, hits. cbn [cpc xlang xc_pc xcode_pc pc_of]. unfold LiftLoop. rewrite !pc_of_app. cbn [pc_of existsb follows andb].
    rewrite !(Z.eqb_sym t). destruct (x_target i =? t); destruct (x_end i =? t); cbn [orb]; lia.
  - (* CALL *) rewrite IN. intro EO. destruct (has_ret _); [discriminate|]. unfold x_has_call in *. destruct (xl_call cfg) as [f|] eqn:XC; [|discriminate EO].
    apply (BND (x_end i)); [cbn [pc_of]; unfold LiftCall; rewrite !pc_of_app, XC; reflexivity|]. intros ->. cbn [follows andb]. rewrite Z.eqb_refl. lia.
  - (* RET *) intros _. apply BND0. cbn [pc_of]. unfold LiftRet. rewrite !pc_of_app.
    assert (Z1 : forall p, pc_of (match x_op0 i with XImm _ v => [SSet RSP (eGep 1 (rG RSP PTR) (cI 64 v))] | _ => [] end) p = p) by (intros; destruct (x_op0 i); reflexivity).
    assert (Z2 : forall p, pc_of (match xl_call cfg with Some _ => [SRet] | None => [] end) p = p) by (intros; destruct (xl_call cfg); reflexivity).
    rewrite Z2, Z1. reflexivity.
  - (* SYSCALL *) intros _. apply BND0. specialize (SY i eq_refl MN). cbn [pc_of]. unfold LiftSyscall. rewrite pc_of_app. destruct (xl_syscall cfg); [reflexivity|congruence].
Qed.
