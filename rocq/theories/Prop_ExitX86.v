(** Property C66: a lifted function is left only where it has to be, x86-64. *)

From Coq Require Import ZArith Lia ZifyBool List Bool Arith.
From Verif Require Import Bits IR Facet Dsl Rv64 Rv64Spec Rv64Sim X86 X86Spec X86Sim X86Ops X86Step X86StrSpec X86Run X86Str X86Ex
  X86Sse X86SseSpec X86SseSim X86SseOps X86SseStep X86SseMain X86SseTop X86Shape Decode DecodeOk LiftFn LiftSim LiftEdge LiftRv LiftX86 LiftExit Prop_X86 Prop_Sse Prop_LiftX86.
Import ListNotations.
Open Scope Z_scope.

(** ** Specification *)
Definition x_condbr (i : xinst) : bool := match x_mn i with X_J _ | X_JCXZ | X_LOOP | X_LOOPZ | X_LOOPNZ => true | _ => false end.
Definition x_fallthrough (i : xinst) : bool := match x_mn i with X_JMP | X_RET | X_SYSCALL => false | _ => true end.
(** The addresses at which control continues after [i], as far as the instruction tells:
    behind it, or the target of a direct branch. *)
Definition x_next (i : zinst) (t : Z) : Prop :=
  match i with
  | ZS j => t = (i_start j + i_len j) mod 2^64
  | ZG j => (x_fallthrough j = true /\ t = (x_start j + x_len j) mod 2^64) \/
      ((x_condbr j = true \/ x_mn j = X_JMP) /\ exists o, x_op0 j = XOff o /\ t = (x_start j + x_len j + o) mod 2^64)
  end.
(** Why a function is left after [i] with the resulting state [g]; see Prop_Exit.v. *)
Inductive x_leaves (cfg : xcfg) (at_ : Z -> Z) (dec : Z -> option zinst) (g : zst) : zinst -> Prop :=
| xl_return : forall j, x_mn j = X_RET -> x_leaves cfg at_ dec g (ZG j)
| xl_nocall : forall j, xl_call cfg = None -> x_mn j = X_CALL -> x_leaves cfg at_ dec g (ZG j)
| xl_callret : forall j f, xl_call cfg = Some f -> x_mn j = X_CALL -> y_ip (z_x g) <> at_ ((x_start j + x_len j) mod 2^64) -> x_leaves cfg at_ dec g (ZG j)
| xl_indirect : forall j, x_mn j = X_JMP -> (forall o, x_op0 j <> XOff o) -> x_leaves cfg at_ dec g (ZG j)
| xl_sys : forall j, x_mn j = X_SYSCALL -> x_leaves cfg at_ dec g (ZG j)
| xl_zero : forall i, y_ip (z_x g) = at_ 0 -> x_leaves cfg at_ dec g i
| xl_undecoded : forall i t, x_next i t -> dec t = None -> y_ip (z_x g) = at_ t -> x_leaves cfg at_ dec g i.

(** ** What the code of each instruction does *)
Section Shape.
Context `{FpuOps}.
Variable c : cenv.
Variable cfg : xcfg.
Variables kc kcp : nat -> areg -> konst.
Variable kd : nat -> kdivk.
Variable unk : xinst -> bool.
Definition z_end (i : zinst) : Z := trunc 64 (z_start i + z_len i).
Lemma z_shape : forall n i code, x_lf c cfg kc kcp kd n i = Some (true, code) ->
  (fst (x_cls unk i) = KOther /\ xc_ret code = false /\ xc_pc code [] = [z_end i] /\ sets_pc (LA := xlang) code /\
   (forall s s', crun (l := xlang) c s code = Ok s' -> s_pc s' = PcConst (z_end i))) \/
  (exists j l, i = ZG j /\ fst (x_cls unk i) <> KOther /\ code = XC_gp (CPlain (SPcConst (x_end j) :: l)) /\ lift_gp c cfg (kc n) (kcp n) (kd n) j = Some l).
Proof.
  intros n i code L. unfold x_lf in L. assert (SI : forall a b : bool * xc, Some a = Some b -> a = b) by (intros a b Q; injection Q as Q; exact Q). apply SI in L. clear SI.
  destruct i as [j|j].
  2: { left. injection L as <-. pose proof (anpc_snd _ (lift_sse_npc c cfg (kc n) j)) as NP.
       split; [reflexivity|]. split; [cbn [xc_ret lift_sinst map snd]; unfold has_ret; cbn [existsb is_ret orb]; exact (npc_noret _ NP)|].
       split; [cbn [xc_pc lift_sinst map snd pc_of]; apply npc_pc, NP|]. split; [intros p p'; cbn [cpc xlang xc_pc lift_sinst map snd pc_of]; reflexivity|].
       intros s s' RN. cbn [crun xlang xc_run] in RN. rewrite (arun_pc c cfg (kc n) j s) in RN. destruct (arun_npc c _ _ _ NP RN) as [Q _]. exact Q. }
  cbv zeta in L. destruct (lift_x86 c cfg (kc n) (kcp n) None (kd n) j) as [ok k] eqn:LX. cbn [fst snd] in L. injection L as -> <-.
  destruct (fst (x_cls unk (ZG j))) eqn:K.
  5: { left. split; [reflexivity|]. destruct (x86_other c cfg (kc n) (kcp n) (kd n) unk j true k K LX) as [(_ & k0 & -> & Q)|(Q & _)]; [|discriminate Q].
       split; [cbn [xc_ret]; rewrite xcode_ret_pre; apply xall_ret, xall_qt, Q|]. split; [cbn [xc_pc]; rewrite xcode_pc_pre; apply xall_pc, xall_qt, Q|].
       split; [intros p p'; cbn [cpc xlang xc_pc]; rewrite !xcode_pc_pre; reflexivity|].
       intros s s' RN. cbn [crun xlang xc_run] in RN. unfold xrunf in RN. rewrite xrunq_pre in RN. destruct (xrunq_qt c _ _ _ _ Q RN) as (_ & P2 & _). exact P2. }
  all: right; exists j; unfold lift_x86 in LX; destruct (lift_gp c cfg (kc n) (kcp n) (kd n) j) as [l|] eqn:LG;
    [exists l; injection LX as <-; split; [reflexivity|]; split; [discriminate|]; split; reflexivity|exfalso].
  all: unfold lift_gp in LG; cbn [x_cls] in K; destruct (x_mn j) eqn:MN; try discriminate LG; try discriminate K.
  all: unfold lift_str in LX; rewrite MN in LX; discriminate LX.
Qed.
Lemma z_cpc : forall n i code s s', x_lf c cfg kc kcp kd n i = Some (true, code) -> crun (l := xlang) c s code = Ok s' ->
  pc_addrs (s_pc s') = xc_pc code (pc_addrs (s_pc s)).
Proof.
  intros n i code s s' L RN. destruct (z_shape n i code L) as [(_ & _ & P & SP & PR)|(j & l & -> & _ & -> & _)].
  - rewrite (PR s s' RN). cbn [pc_addrs]. rewrite <- P. exact (SP [] (pc_addrs (s_pc s))).
  - cbn [crun xlang xc_run] in RN. rewrite xrunf_plain in RN. exact (pc_of_run c _ s s' RN).
Qed.
(** Branches and calls. *)
Lemma npc_callret : forall l, forallb npc l = true -> existsb is_callret l = false.
Proof. induction l as [|x l IH]; intro E; [reflexivity|]. cbn [forallb] in E. apply andb_prop in E. destruct E as [X E]. cbn [existsb]. rewrite (IH E). destruct x; (reflexivity || discriminate X). Qed.
Lemma cond_shape : forall n j l, x_condbr j = true -> lift_gp c cfg (kc n) (kcp n) (kd n) j = Some l ->
  exists l0 k, l = l0 ++ [SPcCond k (x_target j) (x_end j)] /\ forallb npc l0 = true.
Proof.
  intros n j l C L. unfold lift_gp in L. unfold x_condbr in C. destruct (x_mn j) eqn:MN; try discriminate C; injection L as <-.
  - exists []. eexists. split; reflexivity.
  - exists []. eexists. split; reflexivity.
  - unfold LiftLoop. rewrite app_assoc. do 2 eexists. split; [reflexivity|]. unfold StoreGpX. cbn [app forallb npc]. apply (fb_imp qt); [exact qt_npc|]. apply qt_StoreGpFacet. reflexivity.
  - unfold LiftLoop. rewrite app_assoc. do 2 eexists. split; [reflexivity|]. unfold StoreGpX. cbn [app forallb npc]. apply (fb_imp qt); [exact qt_npc|]. apply qt_StoreGpFacet. reflexivity.
  - unfold LiftLoop. rewrite app_assoc. do 2 eexists. split; [reflexivity|]. unfold StoreGpX. cbn [app forallb npc]. apply (fb_imp qt); [exact qt_npc|]. apply qt_StoreGpFacet. reflexivity.
Qed.
Lemma jmp_shape : forall n j l, x_mn j = X_JMP -> lift_gp c cfg (kc n) (kcp n) (kd n) j = Some l ->
  l = [SPcConst (x_target j)] \/ (exists l0, l = l0 ++ [SPcVal (vX 1)] /\ forallb npc l0 = true /\ forall o, x_op0 j <> XOff o).
Proof.
  intros n j l MN L. unfold lift_gp in L. rewrite MN in L. injection L as <-. unfold LiftJmp.
  destruct (x_op0 j) eqn:O; try (left; reflexivity); right; eexists; (split; [reflexivity|]); (split; [apply (fb_imp qt); [exact qt_npc|apply qt_OpLoadSeg]|discriminate]).
Qed.
Lemma call_shape : forall n j l, x_mn j = X_CALL -> lift_gp c cfg (kc n) (kcp n) (kd n) j = Some l ->
  exists l0, l = l0 ++ [SPcVal (vX 1)] ++ match xl_call cfg with Some f => [SCall f; SPcCallret (x_end j)] | None => [] end /\ forallb npc l0 = true.
Proof.
  intros n j l MN L. unfold lift_gp in L. rewrite MN in L. injection L as <-. unfold LiftCall. match goal with |- exists l0, ?a ++ ?b ++ ?d ++ _ = _ /\ _ => exists (a ++ b ++ d) end. split; [rewrite <- !app_assoc; reflexivity|].
  rewrite !forallb_app. apply andb_true_intro. split; [destruct (xl_clobber cfg); reflexivity|]. apply andb_true_intro. split.
  - destruct (x_op0 j); try reflexivity; (apply (fb_imp qt); [exact qt_npc|apply qt_OpLoadSeg]).
  - apply (fb_imp qt); [exact qt_npc|]. reflexivity.
Qed.
End Shape.

(** Return instructions, in call-return mode (x86-64/lifter-gp.cc:666-682). *)
Definition x_returns (cfg : xcfg) (i : zinst) : Prop := xl_call cfg <> None /\ exists j, i = ZG j /\ x_mn j = X_RET.
Lemma x_unret : forall `{FpuOps} c cfg kc kcp kd m i code, x_lf c cfg kc kcp kd m i = Some (false, code) -> xc_ret code = false.
Proof.
  intros F c cfg kc kcp kd m i code LF. unfold x_lf in LF. destruct i as [j|j]; [|discriminate LF]. cbv zeta in LF.
  destruct (lift_x86 c cfg (kc m) (kcp m) None (kd m) j) as [ok k1] eqn:LX. cbn [fst snd] in LF. injection LF as -> <-.
  assert (MO : x_mn j = X_OTHER).
  { destruct (x_mn j) eqn:MN; try reflexivity; exfalso;
    (assert (NO : x_mn j <> X_OTHER) by (rewrite MN; discriminate)); pose proof (sup_x86 c cfg (kc m) (kcp m) (kd m) j NO) as Q; rewrite LX in Q; discriminate Q. }
  unfold lift_x86, lift_gp, lift_str in LX. rewrite MO in LX. injection LX as <-. reflexivity.
Qed.
Lemma x_ret_code : forall `{FpuOps} c cfg kc kcp kd (unk : xinst -> bool) m i code, x_lf c cfg kc kcp kd m i = Some (true, code) -> (xc_ret code = true <-> x_returns cfg i).
Proof.
  intros F c cfg kc kcp kd unk m i code LF. unfold x_returns.
  destruct (z_shape c cfg kc kcp kd unk m i code LF) as [(K & CR0 & _)|(j & l & DI & K & -> & LG)].
  - rewrite CR0. split; [discriminate|]. intros (_ & j & -> & Q). cbn [x_cls] in K. rewrite Q in K. discriminate K.
  - subst i. cbn [xc_ret xcode_ret].
    assert (NP : forall l0, forallb npc l0 = true -> existsb is_ret l0 = false) by (intros l0 Q; exact (npc_noret _ Q)).
    assert (NRT : x_mn j <> X_RET -> has_ret (SPcConst (x_end j) :: l) = false -> (has_ret (SPcConst (x_end j) :: l) = true <-> xl_call cfg <> None /\ exists j0, ZG j = ZG j0 /\ x_mn j0 = X_RET)).
    { intros N Q. rewrite Q. split; [discriminate|]. intros (_ & j0 & E & X). injection E as ->. contradiction. }
    assert (KIND : x_condbr j = true \/ x_mn j = X_JMP \/ x_mn j = X_CALL \/ x_mn j = X_RET \/ x_mn j = X_SYSCALL).
    { unfold x_condbr. cbn [x_cls] in K. unfold lift_gp in LG. destruct (x_mn j); try (exfalso; apply K; reflexivity); try discriminate LG; auto. }
    destruct KIND as [C|[C|[C|[C|C]]]].
    + destruct (cond_shape c cfg kc kcp kd m j l C LG) as (l0 & kk & -> & Q). apply NRT; [unfold x_condbr in C; intro X; rewrite X in C; discriminate C|].
      unfold has_ret. cbn [existsb is_ret orb]. rewrite existsb_app, (NP l0 Q). reflexivity.
    + apply NRT; [congruence|]. destruct (jmp_shape c cfg kc kcp kd m j l C LG) as [->|(l0 & -> & Q & _)]; [reflexivity|]. unfold has_ret. cbn [existsb is_ret orb]. rewrite existsb_app, (NP l0 Q). reflexivity.
    + apply NRT; [congruence|]. destruct (call_shape c cfg kc kcp kd m j l C LG) as (l0 & -> & Q). unfold has_ret. cbn [existsb is_ret orb]. rewrite existsb_app, (NP l0 Q). destruct (xl_call cfg); reflexivity.
    + unfold lift_gp in LG. rewrite C in LG. injection LG as <-. unfold has_ret, LiftRet. cbn [existsb is_ret orb]. rewrite !existsb_app.
      assert (Q : existsb is_ret (if xl_clobber cfg then SetFlagUndef status_flags else []) = false) by (destruct (xl_clobber cfg); reflexivity).
      assert (Q' : existsb is_ret (match x_op0 j with XImm _ v => [SSet RSP (eGep 1 (rG RSP PTR) (cI 64 v))] | _ => [] end) = false) by (destruct (x_op0 j); reflexivity).
      rewrite Q, Q'. cbn [orb existsb is_ret]. change (existsb is_ret (StackPop 1 RSP)) with false. cbn [orb].
      destruct (xl_call cfg); cbn; split; try discriminate; intros X; try reflexivity; try (destruct X as (Y & _); destruct (Y eq_refl)). split; [discriminate|exists j; auto].
    + apply NRT; [congruence|]. unfold lift_gp in LG. rewrite C in LG. injection LG as <-. unfold LiftSyscall. destruct (xl_syscall cfg); reflexivity.
Qed.

(** How the lifted function is left; see [x86_function_left_partial] below. *)
Lemma x86_left_how : forall `{FpuOps} c cfg rel kc kcp kd unk fetch dec E ds a0 bs s0 g0,
  c_arch c = X86_64 -> gbase_ok c -> zext_ok c -> fpu_std rel ->
  calls zinst z_len (x_cls unk) dec (x_has_call cfg) E ds ->
  (forall a i, dec a = Some i -> z_start i = a /\ fetch (addr_pc_base c a) = Some i) ->
  (forall a j, dec a = Some (ZG j) -> x_mn j = X_SYSCALL -> xl_syscall cfg <> None) ->
  lift zinst (x_lf c cfg kc kcp kd) true (f_ins _ ds) = LFn (a0, bs) ->
  zrel s0 g0 -> y_ip (z_x g0) = addr_pc_base c a0 ->
  (forall k g n d, gsteps (zstep c cfg rel fetch) k g0 g -> nth_error (f_ins _ ds) n = Some d -> y_ip (z_x g) = addr_pc_base c (d_start _ d) ->
     z_good c cfg rel (kc n) (kcp n) (kd n) (d_i _ d) g) ->
  forall x0 n e s, enter zinst ds a0 bs s0 = Ok x0 -> lsteps zinst c ds bs n x0 = Ok (CRun _ [] e s) -> lstep zinst c ds bs (CRun _ [] e s) = Ok (COut _ s) ->
  exists k g, gsteps (zstep c cfg rel fetch) k g0 g /\ zrel s g /\ zpc_at c s g /\
  ((e <> BRet /\ exists i, fetch (y_ip (z_x g)) = Some i /\ x_unsup i = true) \/
   (exists k' g' i, gsteps (zstep c cfg rel fetch) k' g0 g' /\ fetch (y_ip (z_x g')) = Some i /\ zstep c cfg rel fetch g' g /\ x_leaves cfg (addr_pc_base c) dec g i /\ (e = BRet <-> x_returns cfg i))).
Proof.
  intros F c cfg rel kc kcp kd unk fetch dec E ds a0 bs s0 g0 HA GB EX FS DC DE SY L R0 P0 GD x0 n e s E0 EN LST.
  assert (DA : decoded_all zinst z_len (x_cls unk) (x_has_call cfg) ds).
  { clear - DC. induction DC as [|E0 s0 n0 a s' D IH X]; [constructor|]. econstructor; eassumption. }
  pose proof (decoded_cf_decoded _ _ _ _ _ (decoded_all_cf _ _ _ _ _ DA)) as D.
  pose proof (decoded_inh _ _ _ _ _ DA) as FI. rewrite Forall_forall in FI.
  assert (FE : forall d, In d (f_ins _ ds) -> dec (d_start _ d) = Some (d_i _ d)).
  { intros d I0. destruct (calls_cinv _ _ _ _ _ _ _ DC) as [C _]. apply In_nth_error in I0. destruct I0 as [j N]. apply (c_ins _ _ _ _ _ _ _ C j d N). }
  assert (ONE : forall i d s g k, visits zinst c ds a0 bs s0 i s -> gsteps (zstep c cfg rel fetch) k g0 g -> nth_error (f_ins _ ds) i = Some d ->
    zrel s g -> y_ip (z_x g) = addr_pc_base c (d_start _ d) -> one_ok zinst z_len (x_cls unk) (x_lf c cfg kc kcp kd) c zst (fun g => y_ip (z_x g)) (zstep c cfg rel fetch) zrel i d s g).
  { intros i d s1 g k VI GS N R P ok code LF. pose proof (nth_error_In _ _ N) as I0. destruct (DE _ _ (FE d I0)) as (ST & FD).
    rewrite <- P in FD. assert (P' : y_ip (z_x g) = addr_pc_base c (z_start (d_i _ d))) by (rewrite ST; exact P).
    destruct (z_one c HA GB EX cfg rel FS unk kc kcp kd i (d_i _ d) s1 g R P' fetch FD (GD k g i d GS N P) ok code LF) as (s' & RN & X).
    exists s'. split; [exact RN|]. destruct ok; [|exact X]. destruct X as (g' & X1 & X2 & X3 & X4). exists g'.
    split; [assumption|]. split; [assumption|]. split; [assumption|]. intro KO. rewrite (X4 KO). unfold d_end, add64. rewrite ST. reflexivity. }
  destruct (left_reason zinst z_len (x_cls unk) (x_lf c cfg kc kcp kd) c ds zst (fun g => y_ip (z_x g)) (zstep c cfg rel fetch) zrel a0 bs (decoded_inv _ _ _ _ D) L s0 g0 R0 P0 ONE
    dec (x_has_call cfg) E DC (fun _ => False)
    (fun m d code s s' _ LF X => z_cpc c cfg kc kcp kd unk m (d_i _ d) code s s' LF X)) with (m := n) (x0 := x0) (e := e) (s := s) as (k & g & GS & RG & PG & W); try assumption.
  { intros m d ok code I0 LF. destruct (DE _ _ (FE d I0)) as (ST & _). right. intros t T0.
    apply (z_hit c cfg kc kcp kd unk m d ok code t T0 ST (FI d I0)); [|exact LF]. intros j Q MN. apply (SY (d_start _ d) j); [rewrite <- Q; exact (FE d I0)|exact MN]. }
  exists k, g. split; [assumption|]. split; [assumption|]. split; [exact PG|].
  destruct W as [m d code I0 LF PC EE|m d code s1 k' g' I0 LF RN GS' PC GST KO EE RE].
  - left. destruct (DE _ _ (FE d I0)) as (_ & FD).
    split. { rewrite EE. intro Q. apply end_ret in Q. change (xc_ret code = true) in Q. rewrite (x_unret c cfg kc kcp kd m _ _ LF) in Q. discriminate Q. }
    exists (d_i _ d). rewrite PC. split; [exact FD|].
    unfold x_lf in LF. destruct (d_i _ d) as [j|j]; [|discriminate LF]. cbn [x_unsup]. cbv zeta in LF.
    destruct (lift_x86 c cfg (kc m) (kcp m) None (kd m) j) as [ok k1] eqn:LX. cbn [fst snd] in LF. injection LF as -> _.
    assert (MO : x_mn j = X_OTHER).
    { destruct (x_mn j) eqn:MN; try reflexivity; exfalso;
      (assert (NO : x_mn j <> X_OTHER) by (rewrite MN; discriminate)); pose proof (sup_x86 c cfg (kc m) (kcp m) (kd m) j NO) as Q; rewrite LX in Q; discriminate Q. }
    rewrite MO. reflexivity.
  - right. destruct (DE _ _ (FE d I0)) as (ST & FD). exists k', g', (d_i _ d). split; [assumption|]. split; [rewrite PC; exact FD|]. split; [assumption|].
    split; [|rewrite EE; etransitivity; [apply end_ret|exact (x_ret_code c cfg kc kcp kd unk m _ _ LF)]].
    assert (EN' : d_end zinst z_len d = z_end (d_i _ d)) by (unfold d_end, add64, z_end; rewrite ST; reflexivity).
    specialize (FI d I0).
    destruct (z_shape c cfg kc kcp kd unk m (d_i _ d) code LF) as [(K & CR0 & P & _ & PR)|(j & l & DI & K & -> & LG)].
    + (* no control flow *)
      destruct RE as [CR|DI|[]|CR DI DY|v a Q1 Q2 Q3|t T IT PT].
      * cbn [cret xlang] in CR. congruence.
      * rewrite K in FI. congruence.
      * cbn [cpc xlang] in DY. rewrite P in DY. discriminate DY.
      * rewrite (PR s1 s RN) in Q1. discriminate Q1.
      * destruct T as [->|[SS DT]]; [apply xl_zero; symmetry; exact PT|].
        apply (xl_undecoded _ _ _ _ _ t); [|exact DT|symmetry; exact PT].
        cbn [cpc xlang] in IT. rewrite P in IT. destruct IT as [<-|[]]. unfold x_next, z_end. destruct (d_i _ d) as [j|j]; [|reflexivity].
        left. split; [|reflexivity]. unfold x_fallthrough. cbn [x_cls] in K. destruct (x_mn j); (reflexivity || discriminate K).
    + rewrite DI in *. cbn [crun xlang xc_run] in RN. rewrite xrunf_plain in RN. change (z_end (ZG j)) with (x_end j) in EN'.
      assert (NOTH : x_mn j <> X_OTHER) by (intro Q; unfold lift_gp in LG; rewrite Q in LG; discriminate LG).
      assert (SUCC : forall t, t <> 0 -> static_succ zinst z_len (x_cls unk) (x_has_call cfg) d t -> x_next (ZG j) t).
      { intros t T0 SS. unfold static_succ, d_to, d_kind in SS. rewrite EN', DI in SS. unfold x_next, x_fallthrough, x_condbr. cbn [x_cls] in *.
        assert (TG : x_target j = t -> exists o, x_op0 j = XOff o /\ t = (x_start j + x_len j + o) mod 2^64).
        { intro Q. unfold x_target in Q. destruct (x_op0 j); try congruence. eexists. split; [reflexivity|]. rewrite <- Q. unfold x_end, trunc. apply Zplus_mod_idemp_l. }
        destruct (x_mn j); cbn [fst snd follows] in SS; try (exfalso; apply K; reflexivity); try (exfalso; exact (NOTH eq_refl)).
        all: try (destruct SS as [Q|[Q1 Q2]]; [first [exfalso; exact (T0 (eq_sym Q))|right; split; [auto|exact (TG Q)]]|first [discriminate Q1|left; split; [reflexivity|symmetry; exact Q2]]]). }
      assert (KIND : x_condbr j = true \/ x_mn j = X_JMP \/ x_mn j = X_CALL \/ x_mn j = X_RET \/ x_mn j = X_SYSCALL).
      { unfold x_condbr. cbn [x_cls] in K. unfold lift_gp in LG. destruct (x_mn j); try (exfalso; apply K; reflexivity); try discriminate LG; auto. }
      assert (NP : forall l0, forallb npc l0 = true -> has_ret l0 = false /\ (forall p, pc_of l0 p = p) /\ existsb is_callret l0 = false).
      { intros l0 Q. split; [exact (npc_noret _ Q)|]. split; [intro p; exact (npc_pc _ p Q)|exact (npc_callret _ Q)]. }
      assert (HRA : forall a b, has_ret (a ++ b) = has_ret a || has_ret b) by (intros; apply existsb_app).
      destruct KIND as [C|[C|[C|[C|C]]]]; [| | |apply xl_return; exact C|apply xl_sys; exact C].
      * (* conditional *)
        destruct (cond_shape c cfg kc kcp kd m j l C LG) as (l0 & kk & -> & Q). destruct (NP l0 Q) as (N1 & N2 & N3).
        destruct RE as [CR|DI'|[]|CR DI' DY|v a Q1 Q2 Q3|t T IT PT]; cbn [cret xlang xc_ret xcode_ret cpc xc_pc xcode_pc] in *.
        -- unfold has_ret in CR. cbn [existsb is_ret orb] in CR. fold (has_ret (l0 ++ [SPcCond kk (x_target j) (x_end j)])) in CR. rewrite HRA, N1 in CR. discriminate CR.
        -- rewrite FI in DI'. cbn [x_cls] in DI'. unfold x_condbr in C. destruct (x_mn j); (discriminate C || discriminate DI').
        -- cbn [pc_of] in DY. rewrite pc_of_app in DY. discriminate DY.
        -- cbn [pc_of] in Q2. rewrite pc_of_app in Q2. discriminate Q2.
        -- destruct T as [->|[SS DT]]; [apply xl_zero; symmetry; exact PT|].
           destruct (Z.eq_dec t 0) as [->|T0]; [apply xl_zero; symmetry; exact PT|].
           apply (xl_undecoded _ _ _ _ _ t); [exact (SUCC t T0 SS)|exact DT|symmetry; exact PT].
      * (* JMP *)
        destruct (jmp_shape c cfg kc kcp kd m j l C LG) as [->|(l0 & _ & _ & NO)]; [|apply xl_indirect; assumption].
        destruct RE as [CR|DI'|[]|CR DI' DY|v a Q1 Q2 Q3|t T IT PT]; cbn [cret xlang xc_ret xcode_ret cpc xc_pc xcode_pc] in *; try discriminate.
        -- rewrite FI in DI'. cbn [x_cls] in DI'. rewrite C in DI'. discriminate DI'.
        -- exfalso. eapply run_ncheck_const; [exact RN|reflexivity|exact Q1].
        -- destruct T as [->|[SS DT]]; [apply xl_zero; symmetry; exact PT|].
           destruct (Z.eq_dec t 0) as [->|T0]; [apply xl_zero; symmetry; exact PT|].
           apply (xl_undecoded _ _ _ _ _ t); [exact (SUCC t T0 SS)|exact DT|symmetry; exact PT].
      * (* CALL *)
        destruct (xl_call cfg) as [f|] eqn:XC; [|apply xl_nocall; assumption].
        destruct (call_shape c cfg kc kcp kd m j l C LG) as (l0 & LE & Q). rewrite XC in LE. destruct (NP l0 Q) as (N1 & N2 & N3).
        assert (P : pc_of (SPcConst (x_end j) :: l) [] = [x_end j]) by (rewrite LE; cbn [pc_of]; rewrite pc_of_app; reflexivity).
        destruct RE as [CR|DI'|[]|CR DI' DY|v a Q1 Q2 Q3|t T IT PT]; cbn [cret xlang xc_ret xcode_ret cpc xc_pc xcode_pc] in *.
        -- rewrite LE in CR. unfold has_ret in CR. cbn [existsb is_ret orb] in CR. rewrite existsb_app in CR. unfold has_ret in N1. rewrite N1 in CR. discriminate CR.
        -- rewrite FI in DI'. cbn [x_cls] in DI'. rewrite C in DI'. unfold x_has_call in DI'. rewrite XC in DI'. discriminate DI'.
        -- rewrite P in DY. discriminate DY.
        -- rewrite P in Q2. injection Q2 as <-. apply (xl_callret _ _ _ _ _ f); [exact XC|exact C|]. intro Q'. apply Q3. symmetry. exact Q'.
        -- destruct T as [->|[SS DT]]; [apply xl_zero; symmetry; exact PT|].
           destruct (Z.eq_dec t 0) as [->|T0]; [apply xl_zero; symmetry; exact PT|].
           apply (xl_undecoded _ _ _ _ _ t); [exact (SUCC t T0 SS)|exact DT|symmetry; exact PT].
Qed.
(** ** C66 *)
(** x86-64 with SSE; compare [rv64_function_left_partial]. Missing: system calls without
    implementation. *)
Theorem x86_function_left_partial : forall `{FpuOps} c cfg rel kc kcp kd unk fetch dec E ds a0 bs s0 g0,
  c_arch c = X86_64 -> gbase_ok c -> zext_ok c -> fpu_std rel ->
  calls zinst z_len (x_cls unk) dec (x_has_call cfg) E ds ->
  (forall a i, dec a = Some i -> z_start i = a /\ fetch (addr_pc_base c a) = Some i) ->
  (forall a j, dec a = Some (ZG j) -> x_mn j = X_SYSCALL -> xl_syscall cfg <> None) ->
  lift zinst (x_lf c cfg kc kcp kd) true (f_ins _ ds) = LFn (a0, bs) ->
  zrel s0 g0 -> y_ip (z_x g0) = addr_pc_base c a0 ->
  (forall k g n d, gsteps (zstep c cfg rel fetch) k g0 g -> nth_error (f_ins _ ds) n = Some d -> y_ip (z_x g) = addr_pc_base c (d_start _ d) ->
     z_good c cfg rel (kc n) (kcp n) (kd n) (d_i _ d) g) ->
  forall x0 n s, enter zinst ds a0 bs s0 = Ok x0 -> lsteps zinst c ds bs n x0 = Ok (COut _ s) ->
  exists k g, gsteps (zstep c cfg rel fetch) k g0 g /\ zrel s g /\ zpc_at c s g /\
  ((exists i, fetch (y_ip (z_x g)) = Some i /\ x_unsup i = true) \/
   (exists k' g' i, gsteps (zstep c cfg rel fetch) k' g0 g' /\ fetch (y_ip (z_x g')) = Some i /\ zstep c cfg rel fetch g' g /\ x_leaves cfg (addr_pc_base c) dec g i)).
Proof.
  intros F c cfg rel kc kcp kd unk fetch dec E ds a0 bs s0 g0 HA GB EX FS DC DE SY L R0 P0 GD x0 n s E0 EN.
  assert (DA : decoded_all zinst z_len (x_cls unk) (x_has_call cfg) ds).
  { clear - DC. induction DC as [|E0 s0 n0 a s' D IH X]; [constructor|]. econstructor; eassumption. }
  pose proof (decoded_inv _ _ _ _ (decoded_cf_decoded _ _ _ _ _ (decoded_all_cf _ _ _ _ _ DA))) as IV.
  destruct (out_from zinst z_len (x_cls unk) (x_lf c cfg kc kcp kd) c ds a0 bs IV L s0 n x0 s E0 EN) as (m & e & _ & EM & ST).
  destruct (x86_left_how c cfg rel kc kcp kd unk fetch dec E ds a0 bs s0 g0 HA GB EX FS DC DE SY L R0 P0 GD x0 m e s E0 EM ST) as (k & g & X1 & X2 & X3 & X4).
  exists k, g. split; [assumption|]. split; [assumption|]. split; [assumption|].
  destruct X4 as [[_ X4]|(k' & g' & i & Y1 & Y2 & Y3 & Y4 & _)]; [left; exact X4|right; exists k', g', i; auto].
Qed.
Print Assumptions x86_function_left_partial.

(** ** Examples *)
Lemma xds_loop_calls : calls zinst z_len (x_cls xunk) (xprog xp_loop) (x_has_call xcfg_call) [0x1000] xds_loop.
Proof. eapply (calls1 _ _ _ _ _ [] (dst0 _) 20%nat 0x1000); [apply calls0|]. vm_compute. reflexivity. Qed.
Lemma xp_loop_in : forall a i, xprog xp_loop a = Some i -> In a [0x1000; 0x1004; 0x1009; 0x100b].
Proof.
  intros a i Q. unfold xp_loop in Q. cbn [xprog z_start xmk x_start i_start] in Q. cbn [In].
  repeat match type of Q with (if ?x =? ?y then _ else _) = _ => destruct (Z.eqb_spec x y); [tauto|] end. discriminate Q.
Qed.
(** The theorem applies to the loop of [ex_x86_function_simulates], from every state. *)
Example ex_x86_function_left : forall s0 g0, zrel s0 g0 -> y_ip (z_x g0) = 0x1000 ->
  forall x0 n s, enter zinst xds_loop 0x1000 xbs_loop s0 = Ok x0 -> lsteps (H := fpu_ex) zinst xc_call xds_loop xbs_loop n x0 = Ok (COut _ s) ->
  exists k g, gsteps (zstep (H := fpu_ex) xc_call xcfg_call rel_ex (xprog xp_loop)) k g0 g /\ zrel s g /\ zpc_at xc_call s g /\
  ((exists i, xprog xp_loop (y_ip (z_x g)) = Some i /\ x_unsup i = true) \/
   (exists k' g' i, gsteps (zstep (H := fpu_ex) xc_call xcfg_call rel_ex (xprog xp_loop)) k' g0 g' /\ xprog xp_loop (y_ip (z_x g')) = Some i /\
      zstep (H := fpu_ex) xc_call xcfg_call rel_ex (xprog xp_loop) g' g /\ x_leaves xcfg_call (addr_pc_base xc_call) (xprog xp_loop) g i)).
Proof.
  intros s0 g0 R P.
  apply (x86_function_left_partial (H := fpu_ex) xc_call xcfg_call rel_ex kz kz (fun _ => DNone) xunk (xprog xp_loop) (xprog xp_loop) [0x1000] xds_loop 0x1000 xbs_loop s0 g0).
  - reflexivity.
  - exact I.
  - exact zext_call.
  - exact fpu_ex_std.
  - exact xds_loop_calls.
  - intros a i Q. pose proof (xp_loop_in a i Q) as IN.
    cbn [In] in IN. destruct IN as [<-|[<-|[<-|[<-|[]]]]]; vm_compute in Q; injection Q as <-; split; reflexivity.
  - intros a j Q MN. discriminate.
  - reflexivity.
  - exact R.
  - rewrite P. reflexivity.
  - intros k g n d _ N _. apply nth_error_In in N.
    assert (IN : In (d_i _ d) xp_loop) by (vm_compute in N; repeat (destruct N as [<-|N]; [cbn; tauto|]); destruct N).
    assert (KS : forall x, xkc_sound (kz n) x) by (intros x r z _ Q; discriminate Q).
    destruct IN as [<-|IN].
    { cbn [z_good]. repeat (split; [reflexivity || apply KS || discriminate || idtac|]); try exact I; try discriminate. }
    repeat (destruct IN as [<-|IN]; [cbn [z_good xmk x_mn]; repeat (split; [reflexivity || apply KS || discriminate || exact I || idtac|]); try discriminate|]).
    destruct IN.
Qed.
(** The loop instruction does not leave the function. *)
Example ex_x86_not_left : forall g, y_ip (z_x g) = 0x1000 -> ~ x_leaves xcfg_call (addr_pc_base xc_call) (xprog xp_loop) g (xmk X_LOOP (XOff (-11)) 0x1009 2).
Proof.
  intros g P L. inversion L as [j A Q|j A B Q|j f A B D Q|j A B Q|j A Q|i A Q|i t A B D Q]; subst; try discriminate.
  - rewrite P in A. discriminate.
  - cbn [x_next xmk] in A. destruct A as [[_ ->]|(_ & o & O & ->)]; [discriminate B|]. injection O as <-. discriminate B.
Qed.
