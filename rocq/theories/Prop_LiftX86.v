(** C16, C17 and C41 for x86-64: whole functions. *)

From Coq Require Import ZArith Lia ZifyBool List Bool Arith.
From Verif Require Import Bits IR Facet Dsl Rv64 Rv64Spec Rv64Sim X86 X86Spec X86Sim X86Ops X86Step X86StrSpec X86Run X86Str X86Ex
  X86Sse X86SseSpec X86SseSim X86SseOps X86SseStep X86SseMain X86SseTop X86Shape Decode DecodeOk LiftFn LiftSim LiftEdge LiftRv LiftX86 Prop_X86 Prop_Sse.
Import ListNotations.
Open Scope Z_scope.

Definition x_unsup (i : zinst) : bool := match i with ZG i => match x_mn i with X_OTHER => true | _ => false end | ZS _ => false end.
Lemma x_unsup_mn : forall i, x_unsup (ZG i) = true -> x_mn i = X_OTHER.
Proof. intros i E. cbn [x_unsup] in E. destruct (x_mn i); (reflexivity || discriminate E). Qed.

(** ** C17 *)
(** Provided no address is 0: a function is returned unless nothing was decoded,
    the architecture is unknown or the first instruction is unsupported. *)
Theorem x86_lift_null_iff : forall c cfg kc kcp kd unk known ds, decoded zinst z_len (x_cls unk) ds ->
  (forall d, In d (f_ins _ ds) -> d_start _ d <> 0) ->
  let r := lift zinst (x_lf c cfg kc kcp kd) known (f_ins _ ds) in
  (r = LNull <-> (f_ins _ ds = [] \/ known = false \/ exists d, nth_error (f_ins _ ds) 0 = Some d /\ x_unsup (d_i _ d) = true)) /\
  (r <> LNull -> exists a bs, r = LFn (a, bs)).
Proof.
  intros c cfg kc kcp kd unk known ds D OK. cbv zeta. pose proof (decoded_inv _ _ _ _ D) as V.
  destruct (lift_null zinst (x_lf c cfg kc kcp kd) known (f_ins _ ds)) as [X Y].
  - split; [exact OK|]. intros i d LV N. unfold x_lf. eexists _, _. split; [apply f_equal, surjective_pairing|]. intros _ HR.
    destruct (nth_error (f_ins _ ds) (S i)) as [d'|] eqn:N'; [|exact I]. destruct (d_new _ d') eqn:NW; [reflexivity|]. exfalso.
    destruct (v_run _ _ _ _ V (S i) d' N' NW) as (j & d2 & Q & N2 & _ & KO & _). injection Q as <-. rewrite N in N2. injection N2 as <-.
    unfold d_kind in KO. destruct (d_i _ d) as [x|x]; cbn [snd] in HR.
    + cbv zeta in HR. cbn [snd] in HR. destruct (lift_x86 c cfg (kc i) (kcp i) None (kd i) x) as [ok k] eqn:LX. cbn [snd cret xlang xc_ret] in HR.
      destruct (x86_other c cfg (kc i) (kcp i) (kd i) unk x ok k KO LX) as [(_ & k0 & -> & Q)|(_ & ->)]; [|discriminate HR].
      rewrite xcode_ret_pre, (xall_ret _ (xall_qt _ Q)) in HR. discriminate HR.
    + cbn [cret xlang xc_ret lift_sinst map snd] in HR. unfold has_ret in HR. cbn [existsb is_ret orb] in HR.
      pose proof (npc_noret _ (anpc_snd _ (lift_sse_npc c cfg (kc i) x))) as Q. unfold has_ret in Q. rewrite Q in HR. discriminate HR.
  - destruct (f_ins _ ds) as [|d l] eqn:FI; [exact I|]. destruct (d_new _ d) eqn:NW; [reflexivity|].
    destruct (v_run _ _ _ _ V 0%nat d) as (j & _ & Q & _); [rewrite FI; reflexivity|assumption|discriminate].
  - split; [|exact Y]. rewrite X. split; (intros [Q|[Q|Q]]; [auto|auto|right; right]).
    + destruct Q as (d & code & N & E). exists d. split; [assumption|]. unfold x_lf in E. destruct (d_i _ d) as [x|x]; [|discriminate E].
      cbn [x_unsup]. destruct (x_mn x) eqn:MN; try reflexivity; exfalso; assert (NO : x_mn x <> X_OTHER) by (rewrite MN; discriminate);
      pose proof (sup_x86 c cfg (kc 0%nat) (kcp 0%nat) (kd 0%nat) x NO) as S1; cbv zeta in E; rewrite S1 in E; discriminate E.
    + destruct Q as (d & N & E). destruct (d_i _ d) as [x|x] eqn:DI; [|discriminate E]. exists d, (XC_gp (CPlain (x_uncode x))). split; [assumption|].
      rewrite DI. unfold x_lf. cbv zeta. rewrite (unsup_x86 _ _ _ _ _ x (x_unsup_mn x E)). reflexivity.
Qed.
Print Assumptions x86_lift_null_iff.

(** An unsupported instruction inside the function: the function is left with all
    registers and memory as they are, and with the PC of that instruction. *)
Theorem x86_unsupported_exits : forall `{FpuOps} c cfg kc kcp kd unk ds a0 bs s0 n x0 i d code segs e s x,
  decoded zinst z_len (x_cls unk) ds -> lift zinst (x_lf c cfg kc kcp kd) true (f_ins _ ds) = LFn (a0, bs) ->
  enter zinst ds a0 bs s0 = Ok x0 -> lsteps zinst c ds bs n x0 = Ok (CRun _ ((i, d, code) :: segs) e s) ->
  d_i _ d = ZG x -> x_mn x = X_OTHER -> at_home c (x_start x) ->
  exists s', lsteps zinst c ds bs (n + 2)%nat x0 = Ok (COut _ s') /\
    (forall r, s_reg s' r = s_reg s r) /\ (forall a, s_mem s' a = s_mem s a) /\
    pc_value c (s_pc s') 0 = Ok (V (TInt 64) (addr_pc_base c (x_start x))).
Proof.
  intros F c cfg kc kcp kd unk ds a0 bs s0 n x0 i d code segs e s x D L E0 RN DX MN HM. pose proof (decoded_inv _ _ _ _ D) as V.
  destruct (reach_code zinst z_len (x_cls unk) _ c ds a0 bs V L n s0 x0 E0 _ _ _ RN) as [Q|[j BC]]; [discriminate|].
  assert (LU : forall m, x_lf c cfg kc kcp kd m (d_i _ d) = Some (false, XC_gp (CPlain (x_uncode x)))).
  { intros m. rewrite DX. unfold x_lf. cbv zeta. rewrite unsup_x86 by assumption. reflexivity. }
  assert (X : segs = [] /\ code = XC_gp (CPlain (x_uncode x)) /\ e = end_of zinst d code).
  { inversion BC as [i' d' code' N' LF|i' d' code' N' LF NX|i' d' code' d2 sg e' N' LF HR NX NN BC']; subst; rewrite LU in LF; try discriminate LF;
    injection LF as <-; repeat split; reflexivity. }
  destruct X as (-> & -> & ->).
  replace (n + 2)%nat with (S (S n)) by lia. rewrite !lsteps_snoc, RN. cbn [bind lstep]. cbn [crun xlang xc_run]. rewrite xrunf_plain.
  unfold x_uncode. cbn [run run1]. unfold ev. cbn [eval cI bind].
  exists (with_pc (with_pc s (PcConst (x_end x))) (PcVal (IR.V (TInt 64) (trunc 64 (x_start x))))).
  split.
  { unfold end_of. cbn [cret xlang xc_ret xcode_ret has_ret existsb is_ret orb]. destruct (d_inh _ d); reflexivity. }
  split; [reflexivity|]. split; [reflexivity|]. cbn [with_pc s_pc pc_value]. change (0 =? 0) with true. cbv iota. rewrite HM. reflexivity.
Qed.
Print Assumptions x86_unsupported_exits.

(** ** C41 *)
(** Whole-function simulation, x86-64 with SSE; compare [rv64_function_simulates].
    What the lifter takes to be constant at a position has to be right whenever
    that position is reached. *)
Theorem x86_function_simulates : forall `{FpuOps} c cfg rel kc kcp kd unk fetch ds a0 bs s0 g0,
  c_arch c = X86_64 -> gbase_ok c -> zext_ok c -> fpu_std rel ->
  decoded zinst z_len (x_cls unk) ds ->
  (forall d, In d (f_ins _ ds) -> z_start (d_i _ d) = d_start _ d /\ fetch (addr_pc_base c (d_start _ d)) = Some (d_i _ d)) ->
  lift zinst (x_lf c cfg kc kcp kd) true (f_ins _ ds) = LFn (a0, bs) ->
  zrel s0 g0 -> y_ip (z_x g0) = addr_pc_base c a0 ->
  (forall k g n d, gsteps (zstep c cfg rel fetch) k g0 g -> nth_error (f_ins _ ds) n = Some d -> y_ip (z_x g) = addr_pc_base c (d_start _ d) ->
     z_good c cfg rel (kc n) (kcp n) (kd n) (d_i _ d) g) ->
  exists x0, enter zinst ds a0 bs s0 = Ok x0 /\ forall n, exists x, lsteps zinst c ds bs n x0 = Ok x /\
  match x with
  | COut _ s => exists k g, gsteps (zstep c cfg rel fetch) k g0 g /\ zrel s g /\ zpc_at c s g
  | CRun _ _ _ s => exists k g, gsteps (zstep c cfg rel fetch) k g0 g /\ zrel s g /\ (n <= 2 * k + 1)%nat
  end.
Proof.
  intros F c cfg rel kc kcp kd unk fetch ds a0 bs s0 g0 HA GB EX FS D FE L R0 P0 GD.
  apply (sim zinst z_len (x_cls unk) (x_lf c cfg kc kcp kd) c ds zst (fun g => y_ip (z_x g)) (zstep c cfg rel fetch) zrel a0 bs (decoded_inv _ _ _ _ D) L s0 g0 R0 P0).
  intros i d s g k VI GS N R P ok code LF. pose proof (nth_error_In _ _ N) as I0. destruct (FE d I0) as [ST FD].
  rewrite <- P in FD.
  assert (P' : y_ip (z_x g) = addr_pc_base c (z_start (d_i _ d))) by (rewrite ST; exact P).
  destruct (z_one c HA GB EX cfg rel FS unk kc kcp kd i (d_i _ d) s g R P' fetch FD (GD k g i d GS N P) ok code LF) as (s' & RN & X).
  exists s'. split; [exact RN|]. destruct ok; [|exact X]. destruct X as (g' & X1 & X2 & X3 & X4). exists g'.
  split; [assumption|]. split; [assumption|]. split; [assumption|]. intro KO. rewrite (X4 KO). unfold d_end, add64. rewrite ST. reflexivity.
Qed.
Print Assumptions x86_function_simulates.

(** ** C16, lifting *)
(** With an implementation for system calls, or without system calls, lifting never
    creates more predecessors than were counted. *)
Theorem x86_edges_counted_partial : forall c cfg kc kcp kd unk ds a0 bs t,
  decoded_all zinst z_len (x_cls unk) (x_has_call cfg) ds ->
  (forall d, In d (f_ins _ ds) -> z_start (d_i _ d) = d_start _ d) ->
  (forall d i, In d (f_ins _ ds) -> d_i _ d = ZG i -> x_mn i = X_SYSCALL -> xl_syscall cfg <> None) ->
  lift zinst (x_lf c cfg kc kcp kd) true (f_ins _ ds) = LFn (a0, bs) -> t <> 0 ->
  (block_edges zinst t bs <= e_preds (f_map _ ds t))%nat.
Proof.
  intros c cfg kc kcp kd unk ds a0 bs t D W SY L T. rewrite (preds_exact _ _ _ _ _ D). unfold real.
  apply (lift_edges zinst (x_lf c cfg kc kcp kd) t _ _ a0 bs); [|exact L].
  intros n d ok code I0 LF. pose proof (decoded_inh _ _ _ _ _ D) as FI. rewrite Forall_forall in FI.
  apply (z_hit c cfg kc kcp kd unk n d ok code t T (W d I0) (FI d I0) (fun i => SY d i I0) LF).
Qed.
Print Assumptions x86_edges_counted_partial.

Definition xmk (m : xmn) (o : xopnd) (a l : Z) : zinst := ZG (XInst m o XNone XNone 8 8 false false false a l).
Fixpoint xprog (l : list zinst) (a : Z) : option zinst :=
  match l with [] => None | i :: l' => if z_start i =? a then Some i else xprog l' a end.
Definition xunk : xinst -> bool := fun _ => false.
(** 1000 jz 1006; 1002 jz 1008; 1004 ret; 1006 syscall; 1008 ret *)
Definition xp_sys : list zinst := [xmk (X_J 4) (XOff 4) 0x1000 2; xmk (X_J 4) (XOff 4) 0x1002 2; xmk X_RET XNone 0x1004 1; xmk X_SYSCALL XNone 0x1006 2; xmk X_RET XNone 0x1008 1].
Definition xds (p : list zinst) (cf : bool) (a : Z) : dst zinst :=
  match decode zinst z_len (x_cls xunk) (xprog p) MAll cf 20 (dst0 _) a with Some (Some s) => s | _ => dst0 _ end.
Definition xins_list : list (dinst zinst) := Eval vm_compute in f_ins _ (xds xp_sys false 0x1000).
Lemma xins_sys : forall cf, f_ins _ (xds xp_sys cf 0x1000) = xins_list.
Proof. intros [|]; vm_compute; reflexivity. Qed.
Definition kz : nat -> areg -> konst := fun _ _ => KNone.
(** Without one, a system call continues behind itself along an edge that was not
    counted, whatever the other settings. Here the block behind it (1008) is lifted
    before the system call (1006), when it has the one counted predecessor (1002):
    it takes its registers from there (basicblock.cc:62-63), for both edges. *)
Theorem x86_edges_refuted : forall c cfg kc kcp kd, xl_syscall cfg = None ->
  exists ds a0 bs t d1 d2, decoded_all zinst z_len (x_cls xunk) (x_has_call cfg) ds /\
    (forall d, In d (f_ins _ ds) -> z_start (d_i _ d) = d_start _ d) /\
    lift zinst (x_lf c cfg kc kcp kd) true (f_ins _ ds) = LFn (a0, bs) /\ t <> 0 /\
    block_edges zinst t bs = 2%nat /\ e_preds (f_map _ ds t) = 1%nat /\
    nth_error (f_ins _ ds) 3 = Some d1 /\ d_start _ d1 = t /\ nth_error (f_ins _ ds) 4 = Some d2 /\ d_i _ d2 = xmk X_SYSCALL XNone 0x1006 2.
Proof.
  intros c [call sys clob ovf nseg] kc kcp kd E. cbn [xl_syscall] in E. subst sys. set (cfg := XCfg call None clob ovf nseg). set (cf := x_has_call cfg).
  pose proof (xins_sys cf) as XI. destruct xins_list as [|d0 [|d1 [|d2 [|d3 [|d4 [|]]]]]] eqn:XL; try discriminate XL.
  exists (xds xp_sys cf 0x1000), 0x1000, (match lift zinst (x_lf c cfg kc kcp kd) true xins_list with LFn (_, bs) => bs | _ => [] end), 0x1008, d3, d4.
  rewrite XI. injection XL as <- <- <- <- <-. split.
  { eapply (decoded_all1 _ _ _ _ _ (xprog xp_sys) 20 0x1000); [apply decoded_all0|]. destruct cf; vm_compute; reflexivity. }
  split; [intros d I0; repeat (destruct I0 as [<-|I0]; [reflexivity|]); destruct I0|].
  split; [subst cfg; destruct call, clob; reflexivity|]. split; [discriminate|].
  split; [subst cfg; destruct call, clob; reflexivity|]. split; [destruct cf; vm_compute; reflexivity|]. repeat split.
Qed.
Print Assumptions x86_edges_refuted.

(** ** Non-vacuity *)
(** 1000 paddq xmm0,xmm1; 1004 call 1100; 1009 loop 1000; 100b ret *)
Definition xp_loop : list zinst :=
  [ZS (SInst S_PADDQ (QX 128 0) (QX 128 1) QN 0x1000 4); xmk X_CALL (XOff 0xf7) 0x1004 5; xmk X_LOOP (XOff (-11)) 0x1009 2; xmk X_RET XNone 0x100b 1].
(** The call function returns to 1009 and pops the return address. *)
Definition xc_call : cenv := CEnv X86_64 None 0 None 0
  (fun _ u => Cpu (Some 0x1009) (fun r => if areg_eqb r (GP 4) then option_map (fun v => U 64 (v + 8)) (u_reg u r) else u_reg u r) (u_mem u)).
Definition xcfg_call : xcfg := XCfg (Some 7) (Some 8) true false false.
Definition xds_loop : dst zinst := xds xp_loop true 0x1000.
Definition xbs_loop : list (lblock zinst) :=
  match lift zinst (x_lf xc_call xcfg_call kz kz (fun _ => DNone)) true (f_ins _ xds_loop) with LFn (_, bs) => bs | _ => [] end.
Lemma xds_loop_decoded : decoded_all zinst z_len (x_cls xunk) true xds_loop.
Proof. eapply (decoded_all1 _ _ _ _ _ (xprog xp_loop) 20 0x1000); [apply decoded_all0|]. vm_compute. reflexivity. Qed.
Lemma zext_call : zext_ok xc_call.
Proof.
  intros f u g (A & B & [R Q]). exists (set_x g (set_ip (wr_reg (z_x g) 64 4 (y_r (z_x g) 4 + 8)) 0x1009)).
  split; [reflexivity|]. split; [apply trunc_range; lia|]. destruct R as [R1 R2 R3 R4 R5 R6 R7 R8]. split; [split|]; cbn [xc_call c_ext u_reg u_mem s_reg s_mem set_x z_x z_q] in *.
  - intros n N. cbn [set_ip wr_reg y_r areg_eqb]. destruct (n =? 4) eqn:E4.
    + assert (n = 4) by lia. subst n. cbn. rewrite (R1 4) by lia. reflexivity.
    + cbn. rewrite E4. apply R1, N.
  - intros n N. cbn. destruct (n =? 4); [apply trunc_range; lia|apply R2, N].
  - exact R3.
  - exact R4.
  - exact R5.
  - exact R6.
  - intros fl b E. specialize (R7 fl b E). destruct fl; cbn in *; exact R7.
  - exact R8.
  - exact Q.
Qed.
(** The whole-function theorem applies to this loop from every state. *)
Example ex_x86_function_simulates : forall s0 g0, zrel s0 g0 -> y_ip (z_x g0) = 0x1000 ->
  exists x0, enter zinst xds_loop 0x1000 xbs_loop s0 = Ok x0 /\ forall n, exists x, lsteps (H := fpu_ex) zinst xc_call xds_loop xbs_loop n x0 = Ok x /\
  match x with
  | COut _ s => exists k g, gsteps (zstep (H := fpu_ex) xc_call xcfg_call rel_ex (xprog xp_loop)) k g0 g /\ zrel s g /\ zpc_at xc_call s g
  | CRun _ _ _ s => exists k g, gsteps (zstep (H := fpu_ex) xc_call xcfg_call rel_ex (xprog xp_loop)) k g0 g /\ zrel s g /\ (n <= 2 * k + 1)%nat
  end.
Proof.
  intros s0 g0 R P.
  apply (x86_function_simulates (H := fpu_ex) xc_call xcfg_call rel_ex kz kz (fun _ => DNone) xunk (xprog xp_loop) xds_loop 0x1000 xbs_loop s0 g0).
  - reflexivity.
  - exact I.
  - exact zext_call.
  - exact fpu_ex_std.
  - exact (decoded_cf_decoded _ _ _ _ _ (decoded_all_cf _ _ _ _ _ xds_loop_decoded)).
  - intros d I0. vm_compute in I0. repeat (destruct I0 as [<-|I0]; [split; reflexivity|]). destruct I0.
  - reflexivity.
  - exact R.
  - rewrite P. reflexivity.
  - intros k g n d _ N _. apply nth_error_In in N.
    assert (IN : In (d_i _ d) xp_loop) by (vm_compute in N; repeat (destruct N as [<-|N]; [cbn; tauto|]); destruct N).
    assert (KS : forall x, xkc_sound (kz n) x) by (intros x r z _ Q; discriminate Q).
    assert (KK : forall x, xkc_sound (kz 0%nat) x) by (intros x r z _ Q; discriminate Q).
    destruct IN as [<-|IN].
    { cbn [z_good]. repeat (split; [reflexivity || apply KS || discriminate || idtac|]); try exact I; try discriminate. }
    repeat (destruct IN as [<-|IN]; [cbn [z_good xmk x_mn]; repeat (split; [reflexivity || apply KS || discriminate || exact I || idtac|]); try discriminate|]).
    destruct IN.
Qed.
(** Three iterations concretely: left with RCX = 0 and three times the addend. *)
Example ex_x86_loop_runs : let s0 := zst_of (zst_ex (fun n => if n =? 1 then 3 else 0x9000) (fun n => n + 5)) in
  match (do x <- enter zinst xds_loop 0x1000 xbs_loop s0; @lsteps xlang zinst fpu_ex xc_call xds_loop xbs_loop 40 x) with
  | Ok (COut _ s) => s_reg s (GP 1) = Some 0 /\ s_reg s (VEC 0) = Some (5 + 3 * 6) /\ s_ret s = true
  | _ => False
  end.
Proof. vm_compute. repeat split; reflexivity. Qed.
Example ex_x86_edges : block_edges zinst 0x1000 xbs_loop = 1%nat /\ e_preds (f_map _ xds_loop 0x1000) = 1%nat /\ block_edges zinst 0x1009 xbs_loop = 1%nat /\
  block_edges zinst 0x100b xbs_loop = 1%nat /\
  lift zinst (x_lf xc_call xcfg_call kz kz (fun _ => DNone)) true (f_ins _ xds_loop) = LFn (0x1000, xbs_loop) /\
  (forall d, In d (f_ins _ xds_loop) -> z_start (d_i _ d) = d_start _ d) /\ xl_syscall xcfg_call <> None.
Proof.
  split; [vm_compute; reflexivity|]. split; [vm_compute; reflexivity|]. split; [vm_compute; reflexivity|]. split; [vm_compute; reflexivity|]. split; [reflexivity|].
  split; [|discriminate]. intros d I0. vm_compute in I0. repeat (destruct I0 as [<-|I0]; [reflexivity|]). destruct I0.
Qed.
(** 1000 cld; 1001 rep stosb; 1003 an unsupported instruction; 1005 ret *)
Definition xp_uns : list zinst := [xmk X_CLD XNone 0x1000 1; ZG (XInst X_STOS XNone XNone XNone 2 8 true false false 0x1001 2); xmk X_OTHER XNone 0x1003 2; xmk X_RET XNone 0x1005 1].
Example ex_x86_unsupported :
  match lift zinst (x_lf c_x xcfg_ex kz kz (fun _ => DNone)) true (f_ins _ (xds xp_uns false 0x1000)) with
  | LFn (a0, bs) => match (do x <- enter zinst (xds xp_uns false 0x1000) a0 bs (zst_of (zst_ex (fun n => if n =? 1 then 5 else 0x9000) (fun _ => 0))); @lsteps xlang zinst fpu_ex c_x (xds xp_uns false 0x1000) bs 2 x) with
    | Ok (CRun _ ((_, d, _) :: _) _ s) => x_unsup (d_i _ d) = true /\ at_home c_x (z_start (d_i _ d)) /\ s_reg s (GP 7) = Some 0x900a /\ s_mem s 0x9009 = 0x90
    | _ => False
    end
  | _ => False
  end /\ lift zinst (x_lf c_x xcfg_ex kz kz (fun _ => DNone)) true (f_ins _ (xds xp_uns false 0x1003)) = LNull /\ length (f_ins _ (xds xp_uns false 0x1003)) = 2%nat.
Proof. split; [vm_compute; repeat split; reflexivity|]. split; reflexivity. Qed.
