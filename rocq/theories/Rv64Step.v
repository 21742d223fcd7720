(** RV64 lifter: the combined one-instruction theorem, jumps with a call
    function configured, independence of x0's slot, and the instructions whose
    lifting deviates from the ISA. *)

From Coq Require Import ZArith Lia ZifyBool List Bool.
From Verif Require Import Bits IR Facet Dsl Rv64 Rv64Spec Rv64Sim Rv64Arith Rv64Int Rv64Bit Rv64Mem Rv64Fp.
Import ListNotations.
Open Scope Z_scope.
Ltac Zify.zify_post_hook ::= Z.div_mod_to_equations.

(** Exactly where the lifter is not known to deviate from the ISA (Rv64Spec):
    - DIV/DIVW: the divisor is not -1 unless the dividend is 0 or the minimum;
    - SLLI.UW: the immediate is a 6-bit value; CLMULR: bit 63 of rs2 is clear;
    - SC: rd is not one of the sources; AMO: the ordering field is 0..3;
    - JAL/JALR: as decoded, no call or return to be emulated, even target;
    - no single-precision result (not NaN-boxed) and no FCLASS. *)
Definition jump_pre (cfg : lcfg) (i : rvinst) (g : gst) : Prop :=
  jal_dec i /\ jal_kind cfg i = JJump /\
  (r_mn i = R_JALR -> (rx g (r_rs1 i) + r_imm i) mod 2 = 0).
Definition step_pre (cfg : lcfg) (i : rvinst) (g : gst) : Prop :=
  match r_mn i with
  | R_DIV => quot_ok 64 (rx g (r_rs1 i)) (rx g (r_rs2 i))
  | R_DIVW => quot_ok 32 (rx g (r_rs1 i)) (rx g (r_rs2 i))
  | R_SLLIUW => 0 <= r_imm i < 64
  | R_CLMULR => Z.testbit (rx g (r_rs2 i)) 63 = false
  | R_SCW | R_SCD => r_rd i = 0 \/ (r_rd i <> r_rs1 i /\ r_rd i <> r_rs2 i)
  | R_AMOSWAPW | R_AMOSWAPD | R_AMOADDW | R_AMOADDD | R_AMOANDW | R_AMOANDD | R_AMOORW | R_AMOORD
  | R_AMOXORW | R_AMOXORD | R_AMOMAXW | R_AMOMAXD | R_AMOMAXUW | R_AMOMAXUD | R_AMOMINW | R_AMOMIND
  | R_AMOMINUW | R_AMOMINUD => 0 <= r_imm i <= 3
  | R_JAL | R_JALR => jump_pre cfg i g
  | R_FLW | R_FMVWX | R_FSGNJS | R_FSGNJNS | R_FSGNJXS | R_FCLASSS | R_FCLASSD => False
  | _ => True
  end.

Section Step.
Context `{FpuOps}.
Variable c : cenv.
Hypothesis HA : c_arch c = RV64.
Hypothesis GB : gbase_ok c.
Variable cfg : lcfg.
Variable kc : areg -> konst.
Variable i : rvinst.
Variable s : st.
Variable g : gst.
Hypothesis R : rel s g.
Hypothesis KC : kc_sound kc s.
Hypothesis PC : g_pc g = addr_pc_base c (r_start i).

Lemma jump_state : forall g', isa_step i g = Some g' -> jal_dec i ->
  (r_mn i = R_JALR -> (rx g (r_rs1 i) + r_imm i) mod 2 = 0) ->
  g' = wpc (wx g (r_rd i) (g_pc g + r_len i)) (jal_target i g).
Proof.
  intros g' E D V. unfold isa_step, jal_target in *. destruct D as [[M Q]|[M Q]]; rewrite M in *;
  cbn [isa_int isa_bit isa_load isa_store isa_lr isa_sc isa_amo isa_branch] in E; injection E as <-.
  - rewrite Q. reflexivity.
  - destruct (r_rs1 i =? FRV_REG_INV) eqn:QQ; [lia|]. specialize (V eq_refl).
    f_equal. set (x := rx g (r_rs1 i) + r_imm i) in *. clearbody x. change (2 * (x / 2) = x). lia.
Qed.

Lemma jump_correct : forall g', isa_step i g = Some g' -> jump_pre cfg i g ->
  lifts_to c cfg kc i s g'
    (if r_rs1 i =? FRV_REG_INV then PcConst (trunc 64 (r_start i + r_imm i))
     else PcVal (V (TInt 64) (trunc 64 (rx g (r_rs1 i) + r_imm i)))).
Proof.
  intros g' E (D & K & V). rewrite (jump_state g' E D V).
  destruct (jal_body c cfg kc i s g R PC D) as (l & s1 & L & RN & R1 & P1 & X0 & RT & SP).
  rewrite K, app_nil_r in L. unfold lifts_to, lift_rv64. rewrite L.
  eexists _, s1. split; [reflexivity|]. split. { cbn [run run1 bind]. exact RN. }
  split; [assumption|]. split; [assumption|]. split; [assumption|]. split; assumption.
Qed.

(** A return: the state is the ISA's and the lifted function is left. *)
Lemma ret_correct : forall g', isa_step i g = Some g' -> jal_dec i -> jal_kind cfg i = JRet ->
  (r_mn i = R_JALR -> (rx g (r_rs1 i) + r_imm i) mod 2 = 0) ->
  exists l s', lift_rv64 c cfg kc None i = Some (true, l) /\ run c s l = Ok s' /\
    rel s' g' /\ pc_at c s' g' /\ s_reg s' (GP 0) = s_reg s (GP 0) /\ s_ret s' = true.
Proof.
  intros g' E D K V. rewrite (jump_state g' E D V).
  destruct (jal_body c cfg kc i s g R PC D) as (l & s1 & L & RN & R1 & P1 & X0 & RT & SP).
  rewrite K in L. unfold lift_rv64. rewrite L.
  eexists _, (with_ret s1 true). split; [reflexivity|].
  split. { cbn [run run1 bind]. fold (at_start i s). rewrite run_app, RN. reflexivity. }
  split. { destruct R1 as [A B C D' M]. split; assumption. }
  split. { exact P1. }
  split; [exact X0|reflexivity].
Qed.

(** A call: the external function gets a CPU that holds the ISA state after the
    jump (register file, PC, memory); what it returns becomes the new state, and
    continuing is conditional on the returned PC (PcCheck). *)
Definition cpu_of (u : cpu) (g : gst) : Prop :=
  u_pc u = Some (g_pc g) /\ (forall n, n <> 0 -> u_reg u (GP n) = Some (g_x g n)) /\
  (forall n, u_reg u (VEC n) = Some (g_f g n)) /\ (forall x, u_mem u x = g_mem g x).
Lemma call_correct : forall g' f, isa_step i g = Some g' -> jal_dec i -> jal_kind cfg i = JCall f ->
  (r_mn i = R_JALR -> (rx g (r_rs1 i) + r_imm i) mod 2 = 0) ->
  exists l u s', lift_rv64 c cfg kc None i = Some (true, l) /\ run c s l = Ok s' /\
    cpu_of u g' /\ u_reg u (GP 0) = s_reg s (GP 0) /\
    s_reg s' = u_reg (c_ext c f u) /\ s_mem s' = u_mem (c_ext c f u) /\ s_ret s' = s_ret s /\
    s_pc s' = PcCheck (match u_pc (c_ext c f u) with Some z => V (TInt 64) (trunc 64 z) | None => Poison (TInt 64) end)
                      (r_end i).
Proof.
  intros g' f E D K EV. rewrite (jump_state g' E D EV). set (gj := wpc _ _).
  destruct (jal_body c cfg kc i s g R PC D) as (l & s1 & L & RN & R1 & P1 & X0 & RT & SP).
  fold gj in R1, P1.
  rewrite K in L. unfold lift_rv64. rewrite L.
  eexists _, (to_cpu s1 (V (TInt 64) (g_pc gj))), _. split; [reflexivity|].
  split. { cbn [run run1 bind]. fold (at_start i s). rewrite run_app, RN. cbn [bind run run1].
    unfold pc_at in P1. rewrite P1. cbn [bind]. cbn [of_cpu s_pc pc_value]. change (0 =? 0) with true. cbn [bind]. reflexivity. }
  split. { split; [reflexivity|]. split; [apply R1|]. split; [apply R1|apply R1]. }
  split; [exact X0|]. split; [reflexivity|]. split; [reflexivity|]. split; [exact RT|reflexivity].
Qed.

(** Every specified instruction under [step_pre]. *)
Lemma step_correct : forall g', isa_step i g = Some g' -> step_pre cfg i g ->
  exists p, lifts_to c cfg kc i s g' p.
Proof.
  intros g' E P.
  destruct (isa_int (r_mn i) (rx g (r_rs1 i)) (rx g (r_rs2 i)) (r_imm i) (g_pc g)) as [v|] eqn:E1.
  { unfold isa_step in E. rewrite E1 in E. injection E as <-. eexists. apply int_correct; try assumption.
    unfold int_pre, step_pre in *. destruct (r_mn i); try exact I; assumption. }
  destruct (isa_bit (r_mn i) (rx g (r_rs1 i)) (rx g (r_rs2 i)) (r_imm i)) as [v|] eqn:E2.
  { unfold isa_step in E. rewrite E1, E2 in E. injection E as <-. eexists. apply bit_correct; try assumption.
    unfold bit_pre, step_pre in *. destruct (r_mn i); try exact I; assumption. }
  destruct (isa_load (r_mn i)) as [[n sg]|] eqn:E3.
  { unfold isa_step in E. rewrite E1, E2, E3 in E. injection E as <-. eexists. apply load_correct; assumption. }
  destruct (isa_store (r_mn i)) as [n|] eqn:E4.
  { unfold isa_step in E. rewrite E1, E2, E3, E4 in E. injection E as <-. eexists. apply store_correct; assumption. }
  destruct (isa_lr (r_mn i)) as [n|] eqn:E5.
  { unfold isa_step in E. rewrite E1, E2, E3, E4, E5 in E. injection E as <-. eexists. apply lr_correct; assumption. }
  destruct (isa_sc (r_mn i)) as [n|] eqn:E6.
  { unfold isa_step in E. rewrite E1, E2, E3, E4, E5, E6 in E. injection E as <-. eexists. apply sc_correct; try assumption.
    unfold sc_pre, step_pre in *. destruct (r_mn i); try discriminate E6; assumption. }
  destruct (isa_amo (r_mn i)) as [[n F]|] eqn:E7.
  { unfold isa_step in E. rewrite E1, E2, E3, E4, E5, E6, E7 in E. injection E as <-. eexists. apply amo_correct; try assumption.
    unfold step_pre in *. destruct (r_mn i); try discriminate E7; assumption. }
  destruct (isa_branch (r_mn i) (rx g (r_rs1 i)) (rx g (r_rs2 i))) as [t|] eqn:E8.
  { unfold isa_step in E. rewrite E1, E2, E3, E4, E5, E6, E7, E8 in E. injection E as <-. eexists. apply branch_correct; assumption. }
  destruct (isa_fpd i g) as [gf|] eqn:E9.
  { assert (X : g' = wpc gf (g_pc g + r_len i)).
    { unfold isa_step in E. rewrite E1, E2, E3, E4, E5, E6, E7, E8, E9 in E.
      unfold isa_fpd in E9. destruct (r_mn i); try discriminate E9; injection E as <-; reflexivity. }
    subst g'. eexists. apply fpd_correct; assumption. }
  assert (Q : r_mn i = R_JAL \/ r_mn i = R_JALR \/ r_mn i = R_FENCE).
  { unfold isa_step in E. rewrite E1, E2, E3, E4, E5, E6, E7, E8, E9 in E.
    unfold isa_fps, step_pre in *. destruct (r_mn i); try tauto; discriminate E. }
  destruct Q as [M|[M|M]].
  - eexists. apply jump_correct; [assumption|]. unfold step_pre in P. rewrite M in P. exact P.
  - eexists. apply jump_correct; [assumption|]. unfold step_pre in P. rewrite M in P. exact P.
  - unfold isa_step in E. rewrite E1, E2, E3, E4, E5, E6, E7, E8, M in E. injection E as <-.
    eexists. apply fence_correct; assumption.
Qed.
End Step.

(** ** x0 *)
(** No expression reads the x0 slot; no statement writes it. *)
Fixpoint noX0e (e : dexp) : bool :=
  match e with
  | ELeaf (DReg r _) => negb (areg_eqb r (GP 0))
  | ELeaf _ | EConst _ _ | EUndef _ => true
  | E1 _ a => noX0e a
  | E2 _ a b => noX0e a && noX0e b
  | E3 _ a b c | EIf a b c => noX0e a && noX0e b && noX0e c
  end.
Definition noX0 (i : stm) : bool :=
  match i with
  | SLet _ e | SLoad _ _ e | SPcVal e | SPcCond e _ _ => noX0e e
  | SStore a b | SRmw _ _ a b => noX0e a && noX0e b
  | SCas _ _ a b c | SMemset a b c => noX0e a && noX0e b && noX0e c
  | SSet r e | SMerge r e => negb (areg_eqb r (GP 0)) && noX0e e
  | SSetT r _ _ a b c => negb (areg_eqb r (GP 0)) && noX0e a && noX0e b && noX0e c
  | SPcConst _ | SPcCallret _ | SCall _ | SRet => true
  end.

Lemma noX0_LoadGp : forall r f, noX0e (LoadGp r f) = true.
Proof. intros. unfold LoadGp, rG. destruct (r =? 0) eqn:E; cbn [noX0e areg_eqb]; [reflexivity|rewrite E; reflexivity]. Qed.
Lemma noX0_LoadFp : forall r f, noX0e (LoadFp r f) = true.
Proof. reflexivity. Qed.
Lemma noX0_StoreGp : forall r e, noX0e e = true -> forallb noX0 (StoreGp r e) = true.
Proof.
  intros r e E. unfold StoreGp. destruct (r =? 0) eqn:Z0; cbn [forallb noX0 areg_eqb]; unfold eSExt; cbn [noX0e];
  rewrite E, ?Z0; reflexivity.
Qed.
Lemma noX0_AddrConst : forall c a, noX0e (AddrConst c a) = true.
Proof. intros. unfold AddrConst. destruct (trunc 64 a =? 0); [reflexivity|]. destruct (c_gbase c); reflexivity. Qed.
Lemma noX0_Addr : forall c kc i, noX0e (Addr c kc i) = true.
Proof.
  intros. unfold Addr. destruct (if r_rs1 i =? 0 then KInt 0 else kc (GP (r_rs1 i))).
  - destruct (r_imm i =? 0); cbn [noX0e cI]; rewrite ?noX0_LoadGp; reflexivity.
  - apply noX0_AddrConst.
  - unfold eAdd, eBin, cI. cbn [noX0e]. rewrite noX0_LoadGp. reflexivity.
Qed.
Lemma noX0_clmul : forall k n i r, noX0e r = true -> noX0e (clmul_loop k i n r) = true.
Proof.
  induction n; intros i r E; cbn [clmul_loop]; [assumption|]. apply IHn.
  unfold clmul_step, eXor, eSel, eBin, eCmp, eAnd, eBin, cI, vX. cbn [noX0e]. rewrite E.
  destruct k; reflexivity.
Qed.

Lemma some_pair_inj : forall (b b' : bool) (l l' : list stm), Some (b, l) = Some (b', l') -> l' = l.
Proof. intros. inversion H. reflexivity. Qed.
Lemma noX0_LiftCLMul : forall i k, forallb noX0 (LiftCLMul i k) = true.
Proof.
  intros. unfold LiftCLMul. cbn [app forallb noX0]. rewrite !noX0_LoadGp. cbn [andb].
  apply noX0_StoreGp, noX0_clmul. reflexivity.
Qed.
Lemma noX0_LiftJal : forall cfg i, forallb noX0 (LiftJal cfg i) = true.
Proof.
  intros. unfold LiftJal. rewrite !forallb_app. rewrite (noX0_StoreGp (r_rd i) (vX 0) eq_refl).
  destruct (negb (r_rs1 i =? FRV_REG_INV)); unfold eAdd, eBin, cI; cbn [forallb noX0 noX0e]; rewrite ?noX0_LoadGp; cbn [andb];
  (destruct (l_call cfg); [|reflexivity]);
  repeat match goal with |- context [if ?x then _ else _] => destruct x end; reflexivity.
Qed.
Ltac x0tac :=
  repeat match goal with
  | |- forallb noX0 (_ ++ _) = true => rewrite forallb_app; apply andb_true_intro; split
  | |- forallb noX0 (StoreGp _ _) = true => apply noX0_StoreGp
  | |- forallb noX0 (LiftCLMul _ _) = true => apply noX0_LiftCLMul
  | |- forallb noX0 (LiftJal _ _) = true => apply noX0_LiftJal
  | |- forallb noX0 (_ :: _) = true => cbn [forallb]; apply andb_true_intro; split
  | |- forallb noX0 [] = true => reflexivity
  | |- _ && _ = true => apply andb_true_intro; split
  | |- true = true => reflexivity
  | |- noX0e (LoadGp _ _) = true => apply noX0_LoadGp
  | |- noX0e (LoadFp _ _) = true => apply noX0_LoadFp
  | |- noX0e (Addr _ _ _) = true => apply noX0_Addr
  | |- noX0e (clmul_loop _ _ _ _) = true => apply noX0_clmul
  | |- noX0e (if ?b then _ else _) = true => destruct b
  | |- forallb noX0 (if ?b then _ else _) = true => destruct b
  | |- noX0 _ = true => cbn [noX0]
  | |- negb (areg_eqb (VEC _) (GP 0)) = true => reflexivity
  | |- noX0e (E1 _ _) = true => cbn [noX0e]
  | |- noX0e (E2 _ _ _) = true => cbn [noX0e]
  | |- noX0e (E3 _ _ _ _) = true => cbn [noX0e]
  | |- noX0e (EIf _ _ _) = true => cbn [noX0e]
  | |- noX0e (ELeaf _) = true => reflexivity
  | |- noX0e (EConst _ _) = true => reflexivity
  | |- noX0e _ = true => progress unfold eZExt, eSExt, eTrunc, eBitCast, eCast, eNot, eSel, eCmp, eAdd, eSub,
       eMul, eAnd, eOr, eXor, eShl, eLShr, eAShr, eBin, cI, vX, LoadUw
  end.

Lemma lift_noX0 : forall c cfg kc ov i b l, lift_rv64 c cfg kc ov i = Some (b, l) -> forallb noX0 l = true.
Proof.
  intros c cfg kc ov i b l E. unfold lift_rv64 in E. destruct ov as [f|].
  { injection E as _ <-. reflexivity. }
  destruct (lift_mnem c cfg kc i) as [[b' l']|] eqn:M; [|discriminate]. injection E as _ <-.
  cbn [forallb noX0]. cbn [andb].
  unfold lift_mnem, plain_opt, plain, unhandled in M.
  destruct (r_mn i).
  all: cbv zeta in M.
  all: unfold LiftAmo, LiftFpArith, LiftFcvtFToI in M.
  all: repeat match type of M with context [if ?x then _ else _] => destruct x end; try discriminate M.
  all: apply some_pair_inj in M; subst l'.
  all: unfold LiftBranch, LiftBinOpR, LiftBinOpI, LiftShift, LiftMulh, LiftLoad, LiftLoadFp, LiftStore, LiftStoreFp,
    LiftDivRem, LiftFcvtIToF, LiftFcmp, LiftFsgn, LiftFminmax, LiftFclass, LiftFmadd, LiftShNAdd, LiftIntr1, LiftIntr2,
    LiftRotate, LiftBitInstruction, LiftBitExtract, LiftOrcb, StoreFp.
  all: cbv zeta; cbn [negb andb].
  all: try match goal with |- context [l_syscall ?cf] => destruct (l_syscall cf) end.
  all: x0tac.
Qed.

(** Agreement except on x0's slot. *)
Definition eqx0 (s s' : st) : Prop :=
  (forall r, r <> GP 0 -> s_reg s r = s_reg s' r) /\ s_pc s = s_pc s' /\ s_mem s = s_mem s' /\
  s_var s = s_var s' /\ s_ret s = s_ret s'.
(** The external functions ignore and preserve x0's slot. *)
Definition ext_x0 (c : cenv) : Prop :=
  forall f u u', u_pc u = u_pc u' -> (forall r, r <> GP 0 -> u_reg u r = u_reg u' r) -> u_mem u = u_mem u' ->
  u_pc (c_ext c f u) = u_pc (c_ext c f u') /\
  (forall r, r <> GP 0 -> u_reg (c_ext c f u) r = u_reg (c_ext c f u') r) /\
  u_mem (c_ext c f u) = u_mem (c_ext c f u') /\ u_reg (c_ext c f u) (GP 0) = u_reg u (GP 0).

Section X0.
Context `{FpuOps}.
Variable c : cenv.

Lemma eval_noX0 : forall s s' e, eqx0 s s' -> noX0e e = true -> ev c s e = ev c s' e.
Proof.
  intros s s' e (A & P & M & V & T). unfold ev. induction e; cbn [noX0e eval]; intro N; try reflexivity.
  - destruct l; cbn [leaf_val]; [rewrite V; reflexivity| |rewrite P; reflexivity].
    rewrite A; [reflexivity|]. intro Q. rewrite Q, areg_eqb_refl in N. discriminate.
  - rewrite IHe by assumption. reflexivity.
  - apply andb_prop in N. destruct N as [N1 N2]. rewrite IHe1, IHe2 by assumption. reflexivity.
  - apply andb_prop in N. destruct N as [N1 N3]. apply andb_prop in N1. destruct N1 as [N1 N2].
    rewrite IHe1, IHe2, IHe3 by assumption. reflexivity.
  - apply andb_prop in N. destruct N as [N1 N3]. apply andb_prop in N1. destruct N1 as [N1 N2].
    rewrite IHe1, IHe2, IHe3 by assumption. reflexivity.
Qed.

Lemma noX0_transform : forall tr t a b d, noX0e a = true -> noX0e b = true -> noX0e d = true ->
  noX0e (transform_exp tr t a b d) = true.
Proof.
  intros tr t a b d A B D. destruct tr; cbn [transform_exp]; unfold eCmp, eAnd, eXor, eTrunc, eBin; cbn [noX0e]; rewrite ?A, ?B, ?D; reflexivity.
Qed.

Lemma eqx0_reg : forall s s' r v, eqx0 s s' -> eqx0 (with_reg s (upd_reg (s_reg s) r v)) (with_reg s' (upd_reg (s_reg s') r v)).
Proof.
  intros s s' r v (A & P & M & V & T). repeat split; try assumption. intros r' N. cbn [with_reg s_reg]. unfold upd_reg.
  destruct (areg_eqb r r'); [reflexivity|apply A; assumption].
Qed.

Lemma run1_noX0 : forall s s' i t, ext_x0 c -> eqx0 s s' -> noX0 i = true -> run1 c s i = Ok t ->
  exists t', run1 c s' i = Ok t' /\ eqx0 t t' /\ s_reg t (GP 0) = s_reg s (GP 0) /\ s_reg t' (GP 0) = s_reg s' (GP 0).
Proof.
  intros s s' i t X Q N E. pose proof Q as Q0. destruct Q as (A & P & M & V & T).
  assert (W : forall r v, negb (areg_eqb r (GP 0)) = true -> upd_reg (s_reg s) r v (GP 0) = s_reg s (GP 0)).
  { intros r v NN. unfold upd_reg. destruct (areg_eqb r (GP 0)); [discriminate|reflexivity]. }
  assert (W' : forall r v, negb (areg_eqb r (GP 0)) = true -> upd_reg (s_reg s') r v (GP 0) = s_reg s' (GP 0)).
  { intros r v NN. unfold upd_reg. destruct (areg_eqb r (GP 0)); [discriminate|reflexivity]. }
  assert (NE : forall r, negb (areg_eqb r (GP 0)) = true -> r <> GP 0).
  { intros r NN ->. rewrite areg_eqb_refl in NN. discriminate. }
  destruct i; cbn [noX0 run1] in *.
  - rewrite <- (eval_noX0 s s') by assumption. destruct (ev c s e); cbn [bind] in *; try discriminate. injection E as <-.
    eexists. split; [reflexivity|]. rewrite V. repeat split; assumption.
  - rewrite <- (eval_noX0 s s'), <- M by assumption. destruct (ev c s addr); cbn [bind] in *; try discriminate.
    destruct (load_rv (s_mem s) t0 a); cbn [bind] in *; try discriminate. injection E as <-.
    eexists. split; [reflexivity|]. rewrite V. repeat split; assumption.
  - apply andb_prop in N. destruct N as [N1 N2]. rewrite <- (eval_noX0 s s' v), <- (eval_noX0 s s' addr), <- M by assumption.
    destruct (ev c s v); cbn [bind] in *; try discriminate. destruct (ev c s addr); cbn [bind] in *; try discriminate.
    destruct (store_rv (s_mem s) a a0); cbn [bind] in *; try discriminate. injection E as <-.
    eexists. split; [reflexivity|]. repeat split; assumption.
  - apply andb_prop in N. destruct N as [N1 N2]. rewrite <- (eval_noX0 s s' v), <- (eval_noX0 s s' addr), <- M by assumption.
    destruct (ev c s addr); cbn [bind] in *; try discriminate. destruct (ev c s v); cbn [bind] in *; try discriminate.
    destruct a0 as [[] z|[]]; try discriminate.
    destruct (load_rv (s_mem s) (TInt w) a) as [[|]| |]; cbn [bind] in *; try discriminate.
    destruct (store_rv (s_mem s) _ a); cbn [bind] in *; try discriminate. injection E as <-.
    eexists. split; [reflexivity|]. rewrite V. repeat split; assumption.
  - apply andb_prop in N. destruct N as [N N3]. apply andb_prop in N. destruct N as [N1 N2].
    rewrite <- (eval_noX0 s s' addr), <- (eval_noX0 s s' k), <- (eval_noX0 s s' v), <- M by assumption.
    destruct (ev c s addr); cbn [bind] in *; try discriminate. destruct (ev c s k); cbn [bind] in *; try discriminate.
    destruct (ev c s v); cbn [bind] in *; try discriminate. destruct (ty_eqb (ty_of a0) (ty_of a1)); try discriminate.
    destruct a0 as [[] z|]; try discriminate. destruct a1 as [t1 z1|]; try discriminate.
    destruct (load_rv (s_mem s) (TInt w) a) as [[t2 z2|]| |]; cbn [bind] in *; try discriminate.
    destruct (if z2 =? z then store_rv (s_mem s) (IR.V (TInt w) z1) a else Ok (s_mem s)); cbn [bind] in *; try discriminate.
    injection E as <-. eexists. split; [reflexivity|]. rewrite V. repeat split; assumption.
  - apply andb_prop in N. destruct N as [N N3]. apply andb_prop in N. destruct N as [N1 N2].
    rewrite <- (eval_noX0 s s' addr), <- (eval_noX0 s s' v), <- (eval_noX0 s s' n), <- M by assumption.
    destruct (ev c s addr) as [p| |]; cbn [bind] in *; try discriminate. destruct (ev c s v) as [b| |]; cbn [bind] in *; try discriminate.
    destruct (ev c s n) as [kk| |]; cbn [bind] in *; try discriminate.
    destruct (ty_eqb (ty_of p) TPtr && ty_eqb (ty_of b) (TInt 8) && ty_eqb (ty_of kk) (TInt 64)); try discriminate.
    destruct p as [tp pz|]; try discriminate. destruct b as [tb bz|]; try discriminate. destruct kk as [tk kz|]; try discriminate.
    injection E as <-. eexists. split; [reflexivity|]. repeat split; assumption.
  - apply andb_prop in N. destruct N as [N1 N2]. rewrite <- (eval_noX0 s s') by assumption.
    destruct (ev c s v); cbn [bind] in *; try discriminate. injection E as <-.
    eexists. split; [reflexivity|]. split; [apply eqx0_reg; assumption|]. split; [apply W|apply W']; assumption.
  - apply andb_prop in N. destruct N as [N1 N2]. rewrite <- (eval_noX0 s s') by assumption.
    destruct (ev c s v); cbn [bind] in *; try discriminate. injection E as <-. rewrite <- (A r) by (apply NE; assumption).
    eexists. split; [reflexivity|]. split; [apply eqx0_reg; assumption|]. split; [apply W|apply W']; assumption.
  - apply andb_prop in N. destruct N as [N N4]. apply andb_prop in N. destruct N as [N N3]. apply andb_prop in N. destruct N as [N1 N2].
    rewrite <- (eval_noX0 s s') by (try assumption; apply noX0_transform; assumption).
    destruct (ev c s (transform_exp tr t0 v1 v2 v3)); cbn [bind] in *; try discriminate. injection E as <-.
    eexists. split; [reflexivity|]. split; [apply eqx0_reg; assumption|]. split; [apply W|apply W']; assumption.
  - injection E as <-. eexists. split; [reflexivity|]. repeat split; assumption.
  - rewrite <- (eval_noX0 s s') by assumption. destruct (ev c s v); cbn [bind] in *; try discriminate. injection E as <-.
    eexists. split; [reflexivity|]. repeat split; assumption.
  - rewrite <- (eval_noX0 s s') by assumption. destruct (ev c s c0); cbn [bind] in *; try discriminate. injection E as <-.
    eexists. split; [reflexivity|]. repeat split; assumption.
  - rewrite <- P. destruct (pc_value c (s_pc s) 0); cbn [bind] in *; try discriminate. injection E as <-.
    eexists. split; [reflexivity|]. repeat split; assumption.
  - rewrite <- P. destruct (pc_value c (s_pc s) 0) as [pv| |]; cbn [bind] in *; try discriminate. injection E as <-.
    eexists. split; [reflexivity|].
    destruct (X f (to_cpu s pv) (to_cpu s' pv)) as (X1 & X2 & X3 & X4); try (reflexivity || assumption).
    destruct (X f (to_cpu s' pv) (to_cpu s pv)) as (Y1 & Y2 & Y3 & Y4); try reflexivity.
    { intros r NN. symmetry. apply A. assumption. } { symmetry. assumption. }
    repeat split; cbn [of_cpu s_reg s_pc s_mem s_var s_ret]; try assumption. rewrite X1. reflexivity.
  - injection E as <-. eexists. split; [reflexivity|]. repeat split; assumption.
Qed.

Lemma run_noX0 : forall l s s' t, ext_x0 c -> eqx0 s s' -> forallb noX0 l = true -> run c s l = Ok t ->
  exists t', run c s' l = Ok t' /\ eqx0 t t' /\ s_reg t (GP 0) = s_reg s (GP 0) /\ s_reg t' (GP 0) = s_reg s' (GP 0).
Proof.
  induction l as [|i l IH]; intros s s' t X Q N E; cbn [run forallb] in *.
  - injection E as <-. eexists. split; [reflexivity|]. repeat split; try apply Q.
  - apply andb_prop in N. destruct N as [N1 N2].
    destruct (run1 c s i) as [s1| |] eqn:E1; cbn [bind] in E; try discriminate.
    destruct (run1_noX0 s s' i s1 X Q N1 E1) as (s1' & E1' & Q1 & Z1 & Z1').
    destruct (IH s1 s1' t X Q1 N2 E) as (t' & E2 & Q2 & Z2 & Z2').
    exists t'. rewrite E1'. cbn [bind]. split; [assumption|]. split; [assumption|]. split; congruence.
Qed.

Lemma x0_irrelevant : forall cfg kc ov i b l s s' t, ext_x0 c ->
  lift_rv64 c cfg kc ov i = Some (b, l) -> eqx0 s s' -> run c s l = Ok t ->
  exists t', run c s' l = Ok t' /\ eqx0 t t' /\ s_reg t (GP 0) = s_reg s (GP 0) /\ s_reg t' (GP 0) = s_reg s' (GP 0).
Proof. intros. eapply run_noX0; try eassumption. eapply lift_noX0. eassumption. Qed.
End X0.
