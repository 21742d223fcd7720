(** C16, C17 and C41 for AArch64: whole functions. *)

From Coq Require Import ZArith Lia ZifyBool List Bool Arith.
From Verif Require Import Bits IR Facet Dsl Rv64Spec Rv64Sim X86Spec A64 A64Spec A64Sim A64Step Rv64Ex Decode DecodeOk LiftFn LiftSim LiftEdge LiftRv LiftA64.
Import ListNotations.
Open Scope Z_scope.

Definition a_lf (cfg : acfg) : nat -> ainst -> option (bool * list stm) := fun _ i => lift_a64 cfg i.
Notation alift cfg := (lift ainst (a_lf cfg)).

(** ** C17 *)
(** Provided no address is 0 and no assertion fails: a function is returned unless
    nothing was decoded, the architecture is unknown or the first instruction is
    unsupported. *)
Theorem a64_lift_null_iff : forall cfg unk known ds, decoded ainst a_len (a_cls unk) ds ->
  (forall d, In d (f_ins _ ds) -> d_start _ d <> 0 /\ lift_a64 cfg (d_i _ d) <> None) ->
  (alift cfg known (f_ins _ ds) = LNull <->
   (f_ins _ ds = [] \/ known = false \/ exists d, nth_error (f_ins _ ds) 0 = Some d /\ a_unsup (d_i _ d) = true)) /\
  (alift cfg known (f_ins _ ds) <> LNull -> exists a bs, alift cfg known (f_ins _ ds) = LFn (a, bs)).
Proof.
  intros cfg unk known ds D OK. pose proof (decoded_inv _ _ _ _ D) as V.
  destruct (lift_null ainst (a_lf cfg) known (f_ins _ ds)) as [X Y].
  - split; [intros d I0; apply OK, I0|]. intros i d LV N.
    unfold a_lf. destruct (lift_a64 cfg (d_i _ d)) as [[ok code]|] eqn:E.
    2: { exfalso. apply nth_error_In in N. apply (OK d N). exact E. }
    exists ok, code. split; [reflexivity|]. intros -> HR.
    destruct (nth_error (f_ins _ ds) (S i)) as [d'|] eqn:N'; [|exact I]. destruct (d_new _ d') eqn:NW; [reflexivity|]. exfalso.
    destruct (v_run _ _ _ _ V (S i) d' N' NW) as (j & d2 & Q & N2 & _ & KO & _). injection Q as <-. rewrite N in N2. injection N2 as <-.
    destruct (a64_other cfg unk _ _ _ KO E) as [(_ & l' & -> & F)|(Q & _)]; [|discriminate].
    cbn [cret plain_lang] in HR. unfold has_ret in HR. cbn [existsb is_ret orb] in HR. rewrite existsb_app in HR. pose proof (has_ret_nret _ F) as F'. unfold has_ret in F'.
    rewrite F' in HR. discriminate.
  - destruct (f_ins _ ds) as [|d l] eqn:FI; [exact I|]. destruct (d_new _ d) eqn:NW; [reflexivity|].
    destruct (v_run _ _ _ _ V 0%nat d) as (j & _ & Q & _); [rewrite FI; reflexivity|assumption|discriminate].
  - split; [|exact Y]. rewrite X. split; (intros [Q|[Q|Q]]; [auto|auto|right; right]).
    + destruct Q as (d & code & N & E). exists d. split; [assumption|].
      destruct (a_unsup (d_i _ d)) eqn:U; [reflexivity|]. pose proof (sup_lift _ _ _ _ U E). discriminate.
    + destruct Q as (d & N & E). exists d, (a_uncode (d_i _ d)). split; [assumption|]. apply unsup_lift, E.
Qed.
Print Assumptions a64_lift_null_iff.

(** An unsupported instruction inside the function: the function is left with all
    registers and memory as they are, and with the PC of that instruction. *)
Theorem a64_unsupported_exits : forall `{FpuOps} c cfg unk ds a0 bs s0 n x0 i d code segs e s,
  decoded ainst a_len (a_cls unk) ds -> alift cfg true (f_ins _ ds) = LFn (a0, bs) ->
  enter ainst ds a0 bs s0 = Ok x0 -> lsteps ainst c ds bs n x0 = Ok (CRun _ ((i, d, code) :: segs) e s) ->
  a_unsup (d_i _ d) = true -> at_home c (a_start (d_i _ d)) ->
  exists s', lsteps ainst c ds bs (n + 2)%nat x0 = Ok (COut _ s') /\
    (forall r, s_reg s' r = s_reg s r) /\ (forall a, s_mem s' a = s_mem s a) /\
    pc_value c (s_pc s') 0 = Ok (V (TInt 64) (addr_pc_base c (a_start (d_i _ d)))).
Proof.
  intros F c cfg unk ds a0 bs s0 n x0 i d code segs e s D L E0 RN US HM. pose proof (decoded_inv _ _ _ _ D) as V.
  destruct (reach_code ainst a_len (a_cls unk) _ c ds a0 bs V L n s0 x0 E0 _ _ _ RN) as [Q|[j BC]]; [discriminate|].
  pose proof (unsup_lift cfg _ US) as LU.
  assert (X : segs = [] /\ lift_a64 cfg (d_i _ d) = Some (false, code) /\ e = end_of ainst d code).
  { inversion BC; subst; unfold a_lf in *; try (split; [reflexivity|split; [assumption|reflexivity]]); congruence. }
  destruct X as (-> & L1 & ->). rewrite LU in L1. injection L1 as <-. unfold a_uncode in *.
  replace (n + 2)%nat with (S (S n)) by lia. rewrite !lsteps_snoc, RN. cbn [bind lstep run run1].
  unfold ev. cbn [eval cI bind].
  exists (with_pc (with_pc s (PcConst (a_start (d_i _ d)))) (PcVal (IR.V (TInt 64) (trunc 64 (a_start (d_i _ d)))))).
  split.
  { unfold end_of. cbn [has_ret existsb is_ret orb]. destruct (d_inh _ d); reflexivity. }
  split; [reflexivity|]. split; [reflexivity|]. cbn [with_pc s_pc pc_value]. change (0 =? 0) with true. cbv iota. rewrite HM. reflexivity.
Qed.
Print Assumptions a64_unsupported_exits.

(** ** C41 *)
(** Whole-function simulation, AArch64; compare [rv64_function_simulates]. *)
Theorem a64_function_simulates : forall `{FpuOps} c cfg unk fetch ds a0 bs s0 g0,
  c_arch c = AArch64 -> kext_ok c ->
  decoded ainst a_len (a_cls unk) ds ->
  (forall d, In d (f_ins _ ds) -> a_start (d_i _ d) = d_start _ d /\ fetch (addr_pc_base c (d_start _ d)) = Some (d_i _ d)) ->
  alift cfg true (f_ins _ ds) = LFn (a0, bs) ->
  krel s0 g0 -> k_pc g0 = addr_pc_base c a0 ->
  (forall k g i, gsteps (a64_step c cfg fetch) k g0 g -> fetch (k_pc g) = Some i -> a64_good c cfg i g) ->
  exists x0, enter ainst ds a0 bs s0 = Ok x0 /\ forall n, exists x, lsteps ainst c ds bs n x0 = Ok x /\
  match x with
  | COut _ s => exists k g, gsteps (a64_step c cfg fetch) k g0 g /\ krel s g /\ kpc_at c s g
  | CRun _ _ _ s => exists k g, gsteps (a64_step c cfg fetch) k g0 g /\ krel s g /\ (n <= 2 * k + 1)%nat
  end.
Proof.
  intros F c cfg unk fetch ds a0 bs s0 g0 HA EX D FE L R0 P0 GD.
  apply (sim ainst a_len (a_cls unk) (a_lf cfg) c ds kst k_pc (a64_step c cfg fetch) krel a0 bs (decoded_inv _ _ _ _ D) L s0 g0 R0 P0).
  intros i d s g k VI GS N R P ok code LF. pose proof (nth_error_In _ _ N) as I0. destruct (FE d I0) as [ST FD].
  rewrite <- P in FD.
  assert (P' : k_pc g = addr_pc_base c (a_start (d_i _ d))) by (rewrite ST; exact P).
  destruct (a64_one c HA EX cfg unk (d_i _ d) s g R P' fetch FD (GD k g _ GS FD) ok code LF) as (s' & RN & X).
  exists s'. split; [exact RN|]. destruct ok; [|exact X]. destruct X as (g' & X1 & X2 & X3 & X4). exists g'.
  split; [assumption|]. split; [assumption|]. split; [assumption|]. intro KO. rewrite (X4 KO). unfold d_end, add64, a_len. rewrite ST. reflexivity.
Qed.
Print Assumptions a64_function_simulates.

(** ** C16, lifting *)
(** On AArch64 lifting never creates more predecessors than were counted. *)
Theorem a64_edges_counted : forall cfg unk ds a0 bs t,
  decoded_all ainst a_len (a_cls unk) (a_has_call cfg) ds ->
  (forall d, In d (f_ins _ ds) -> a_start (d_i _ d) = d_start _ d) ->
  alift cfg true (f_ins _ ds) = LFn (a0, bs) -> t <> 0 ->
  (block_edges ainst t bs <= e_preds (f_map _ ds t))%nat.
Proof.
  intros cfg unk ds a0 bs t D W L T. rewrite (preds_exact _ _ _ _ _ D). unfold real.
  apply (lift_edges ainst (a_lf cfg) t _ _ a0 bs); [|exact L].
  intros n d ok code I0 LF. pose proof (decoded_inh _ _ _ _ _ D) as FI. rewrite Forall_forall in FI.
  apply (a64_hit cfg unk d ok code t T (W d I0) (FI d I0) LF).
Qed.
Print Assumptions a64_edges_counted.

(** ** Non-vacuity *)
Definition amk (op : aop) (rd rn : xr) (imm off a : Z) : ainst :=
  AInst op false false rd rn (RX 2) (RX 4) (RX 5) (RX 6) imm off SH_LSL 0 UXTX 0 0 1 0 0 0 AM_OFF_IMM UXTX FSZ_D 0 0 0 0 a.
Fixpoint aprog (l : list ainst) (a : Z) : option ainst :=
  match l with [] => None | i :: l' => if a_start i =? a then Some i else aprog l' a end.
(** 1000 sub x3,x3,#1; 1004 bl 1104; 1008 cbnz x3,1000; 100c ret x30 *)
Definition ap_loop : list ainst :=
  [amk A_SUB_IMM (RX 3) (RX 3) 1 0 0x1000; amk A_BL (RX 0) (RX 0) 0 0x100 0x1004;
   amk A_CBNZ (RX 3) (RX 0) 0 (-8) 0x1008; amk A_RET (RX 0) (RX 30) 0 0 0x100c].
Definition aunk : ainst -> bool := fun _ => false.
Definition ac_ret : cenv := CEnv AArch64 None 0 None 0 (fun _ u => Cpu (u_reg u (GP 30)) (u_reg u) (u_mem u)).
Definition acfg_call : acfg := ACfg (Some 7) (Some 8) true false.
Definition ads_loop : dst ainst :=
  match decode ainst a_len (a_cls aunk) (aprog ap_loop) MAll true 20 (dst0 _) 0x1000 with Some (Some s) => s | _ => dst0 _ end.
Definition abs_loop : list (lblock ainst) :=
  match alift acfg_call true (f_ins _ ads_loop) with LFn (_, bs) => bs | _ => [] end.
Lemma ads_loop_decoded : decoded_all ainst a_len (a_cls aunk) true ads_loop.
Proof. eapply (decoded_all1 _ _ _ _ _ (aprog ap_loop) 20 0x1000); [apply decoded_all0|]. vm_compute. reflexivity. Qed.
Lemma kext_ret : kext_ok ac_ret.
Proof.
  intros f u g (A & B & R). exists (wrpc g (k_x g 30)). pose proof (kr_x _ _ R 30 ltac:(lia)) as X. pose proof (kr_xr _ _ R 30 ltac:(lia)) as I0.
  cbn [s_reg] in X. split; [|split].
  - cbn [ac_ret c_ext u_pc wrpc k_pc]. rewrite X. f_equal. symmetry. unfold U. apply Z.mod_small. exact I0.
  - apply trunc_range. lia.
  - cbn [ac_ret c_ext u_reg u_mem]. apply krel_wrpc. exact R.
Qed.
(** The whole-function theorem applies to this loop from every state, as it reads no flags. *)
Example ex_a64_function_simulates : forall `{FpuOps} s0 g0, krel s0 g0 -> k_pc g0 = 0x1000 ->
  exists x0, enter ainst ads_loop 0x1000 abs_loop s0 = Ok x0 /\ forall n, exists x, lsteps ainst ac_ret ads_loop abs_loop n x0 = Ok x /\
  match x with
  | COut _ s => exists k g, gsteps (a64_step ac_ret acfg_call (aprog ap_loop)) k g0 g /\ krel s g /\ kpc_at ac_ret s g
  | CRun _ _ _ s => exists k g, gsteps (a64_step ac_ret acfg_call (aprog ap_loop)) k g0 g /\ krel s g /\ (n <= 2 * k + 1)%nat
  end.
Proof.
  intros F s0 g0 R P.
  apply (a64_function_simulates ac_ret acfg_call aunk (aprog ap_loop) ads_loop 0x1000 abs_loop s0 g0).
  - reflexivity.
  - exact kext_ret.
  - exact (decoded_cf_decoded _ _ _ _ _ (decoded_all_cf _ _ _ _ _ ads_loop_decoded)).
  - intros d I0. vm_compute in I0. repeat (destruct I0 as [<-|I0]; [split; reflexivity|]). destruct I0.
  - reflexivity.
  - exact R.
  - rewrite P. reflexivity.
  - intros k g i GS FE.
    assert (IN : In i ap_loop).
    { unfold ap_loop, aprog in FE. cbn [amk a_start] in FE.
      repeat match type of FE with (if ?b then _ else _) = _ => destruct b eqn:? end; try discriminate; injection FE as <-; cbn; auto. }
    repeat (destruct IN as [<-|IN]; [unfold a64_good; cbn [a_unsup a_op amk]; split; [discriminate|]; split; [reflexivity|]; split; [|split; [reflexivity|exact I]]; intros fg Q; destruct Q|]). destruct IN.
Qed.
(** Three iterations concretely: left with x3 = 0 and the PC in x30. *)
Example ex_a64_loop_runs : let s0 := kst_of (kex (fun n => if n =? 3 then 3 else 0x9000) true 0x1000) in
  match (do x <- enter ainst ads_loop 0x1000 abs_loop s0; @lsteps plain_lang ainst fpu0 ac_ret ads_loop abs_loop 40 x) with
  | Ok (COut _ s) => s_reg s (GP 3) = Some 0 /\ pc_value ac_ret (s_pc s) 0 = Ok (V (TInt 64) 0x1008)
  | _ => False
  end.
Proof. vm_compute. split; reflexivity. Qed.
Example ex_a64_edges : block_edges ainst 0x1000 abs_loop = 1%nat /\ e_preds (f_map _ ads_loop 0x1000) = 1%nat /\ block_edges ainst 0x1008 abs_loop = 1%nat /\
  alift acfg_call true (f_ins _ ads_loop) = LFn (0x1000, abs_loop) /\ forall d, In d (f_ins _ ads_loop) -> a_start (d_i _ d) = d_start _ d.
Proof.
  split; [vm_compute; reflexivity|]. split; [vm_compute; reflexivity|]. split; [vm_compute; reflexivity|]. split; [reflexivity|].
  intros d I0. vm_compute in I0. repeat (destruct I0 as [<-|I0]; [reflexivity|]). destruct I0.
Qed.
(** 1000 sub; 1004 mrs of an unhandled system register; 1008 ret *)
Definition ap_uns : list ainst := [amk A_SUB_IMM (RX 3) (RX 3) 1 0 0x1000; amk A_MRS (RX 3) (RX 0) 0xc001 0 0x1004; amk A_RET (RX 0) (RX 30) 0 0 0x1008].
Definition ads_uns (a : Z) : dst ainst :=
  match decode ainst a_len (a_cls aunk) (aprog ap_uns) MAll false 20 (dst0 _) a with Some (Some s) => s | _ => dst0 _ end.
Example ex_a64_unsupported :
  match alift acfg0 true (f_ins _ (ads_uns 0x1000)) with
  | LFn (a0, bs) => match (do x <- enter ainst (ads_uns 0x1000) a0 bs (kst_of (kex (fun _ => 5) true 0x1000)); @lsteps plain_lang ainst fpu0 c_a (ads_uns 0x1000) bs 1 x) with
    | Ok (CRun _ ((_, d, _) :: _) _ s) => a_unsup (d_i _ d) = true /\ at_home c_a (a_start (d_i _ d)) /\ s_reg s (GP 3) = Some 4
    | _ => False
    end
  | _ => False
  end /\ alift acfg0 true (f_ins _ (ads_uns 0x1004)) = LNull /\ length (f_ins _ (ads_uns 0x1004)) = 2%nat.
Proof. split; [vm_compute; repeat split; reflexivity|]. split; reflexivity. Qed.
