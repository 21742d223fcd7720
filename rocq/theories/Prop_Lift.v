(** C17, C41 and the lifting half of C16: whole functions. *)

From Coq Require Import ZArith Lia ZifyBool List Bool Arith.
From Verif Require Import Bits IR Facet Dsl Rv64 Rv64Spec Rv64Sim Rv64Mem Rv64Step Rv64Ex Decode DecodeOk DecodeRv LiftFn LiftSim LiftEdge LiftRv.
Import ListNotations.
Open Scope Z_scope.

Definition rv_lf (c : cenv) (cfg : lcfg) (kc : nat -> areg -> konst) : nat -> rvinst -> option (bool * list stm) :=
  fun n i => lift_rv64 c cfg (kc n) None i.
Notation rlift c cfg kc := (lift rvinst (rv_lf c cfg kc)).

(** ** C17 *)
(** For any architecture's instruction lifter and any decoded list without address
    0 for which no assertion fails: Lift returns null exactly if nothing was decoded,
    the architecture is unknown, or the first instruction is not supported; in all
    other cases it returns a function. *)
Theorem lift_null_iff : forall Ins lf known ins, lifts_clean Ins lf ins ->
  match ins with [] => True | d :: _ => d_new _ d = true end ->
  (lift Ins lf known ins = LNull <->
   (ins = [] \/ known = false \/ exists d code, nth_error ins 0 = Some d /\ lf 0%nat (d_i _ d) = Some (false, code))) /\
  (lift Ins lf known ins <> LNull -> exists a bs, lift Ins lf known ins = LFn (a, bs)).
Proof. intros. apply lift_null; assumption. Qed.
Print Assumptions lift_null_iff.

(** RV64: the unsupported instructions. *)
Definition rv_unsupported (i : rvinst) : Prop :=
  match r_mn i with
  | R_OTHER => True
  | R_ECALL => r_imm i <> 0
  | R_CSRRW | R_CSRRS | R_CSRRC | R_CSRRWI | R_CSRRSI | R_CSRRCI => r_imm i <> 1 /\ r_imm i <> 2 /\ r_imm i <> 3
  | _ => False
  end.
(** Operands on which the lifter asserts: AMO orderings that do not exist, static
    rounding modes other than those handled (finding; not reachable by integer code). *)
Definition rv_asserts (i : rvinst) : Prop := forall c cfg kc, lift_rv64 c cfg kc None i = None.
Lemma lift_none : forall c cfg kc i, lift_rv64 c cfg kc None i = None -> rv_asserts i.
Proof.
  intros c cfg kc i E c' cfg' kc'. revert E. unfold lift_rv64, lift_mnem. cbv zeta. unfold plain_opt, LiftAmo, LiftFpArith, LiftFcvtFToI, plain, unhandled.
  destruct (r_mn i); intro X; try discriminate X.
  all: repeat match goal with |- context [if ?b then _ else _] => destruct b end; try discriminate X; try reflexivity.
Qed.
Lemma unsupported_iff : forall c cfg kc i, (exists code, lift_rv64 c cfg kc None i = Some (false, code)) <-> rv_unsupported i.
Proof.
  intros c cfg kc i. unfold lift_rv64, rv_unsupported, lift_mnem. cbv zeta. unfold plain_opt, LiftAmo, LiftFpArith, LiftFcvtFToI, plain, unhandled. split.
  - intros [code E]. destruct (r_mn i); try exact I; try discriminate E.
    all: repeat match type of E with context [if ?b then _ else _] => destruct b eqn:? end; try discriminate E; lia.
  - destruct (r_mn i); try contradiction; intro X; try (eexists; reflexivity).
    all: repeat match goal with |- context [if ?b then _ else _] => destruct b eqn:? end; try (eexists; reflexivity); exfalso; lia.
Qed.

Theorem rv64_lift_null_iff : forall c cfg kc known ds, decoded rvinst r_len rv_cls ds ->
  (forall d, In d (f_ins _ ds) -> d_start _ d <> 0 /\ ~ rv_asserts (d_i _ d)) ->
  (rlift c cfg kc known (f_ins _ ds) = LNull <->
   (f_ins _ ds = [] \/ known = false \/ exists d, nth_error (f_ins _ ds) 0 = Some d /\ rv_unsupported (d_i _ d))) /\
  (rlift c cfg kc known (f_ins _ ds) <> LNull -> exists a bs, rlift c cfg kc known (f_ins _ ds) = LFn (a, bs)).
Proof.
  intros c cfg kc known ds D OK. pose proof (decoded_inv _ _ _ _ D) as V.
  destruct (lift_null rvinst (rv_lf c cfg kc) known (f_ins _ ds)) as [X Y].
  - split; [intros d I0; apply OK, I0|]. intros i d LV N.
    unfold rv_lf. destruct (lift_rv64 c cfg (kc i) None (d_i _ d)) as [[ok code]|] eqn:E.
    2: { exfalso. apply nth_error_In in N. apply (OK d N). apply (lift_none _ _ _ _ E). }
    exists ok, code. split; [reflexivity|]. intros -> HR.
    destruct (nth_error (f_ins _ ds) (S i)) as [d'|] eqn:N'; [|exact I]. destruct (d_new _ d') eqn:NW; [reflexivity|]. exfalso.
    destruct (v_run _ _ _ _ V (S i) d' N' NW) as (j & d2 & Q & N2 & _ & KO & _). injection Q as <-. rewrite N in N2. injection N2 as <-.
    unfold lift_rv64 in E. destruct (lift_mnem c cfg (kc i) (d_i _ d)) as [[b l]|] eqn:LM; [|discriminate]. injection E as -> <-.
    destruct (lift_other _ _ _ _ _ _ KO LM) as [(_ & l' & -> & F)|(Q & _)]; [|discriminate].
    cbn [cret plain_lang] in HR. unfold has_ret in HR. cbn [existsb is_ret orb] in HR. rewrite existsb_app in HR. pose proof (has_ret_nret _ F) as F'. unfold has_ret in F'.
    rewrite F' in HR. discriminate.
  - destruct (f_ins _ ds) as [|d l] eqn:FI; [exact I|]. destruct (d_new _ d) eqn:NW; [reflexivity|].
    destruct (v_run _ _ _ _ V 0%nat d) as (j & _ & Q & _); [rewrite FI; reflexivity|assumption|discriminate].
  - split; [|exact Y]. rewrite X. split; (intros [Q|[Q|Q]]; [auto|auto|right; right]).
    + destruct Q as (d & code & N & E). exists d. split; [assumption|]. apply (unsupported_iff c cfg (kc 0%nat)). exists code. exact E.
    + destruct Q as (d & N & E). apply (unsupported_iff c cfg (kc 0%nat)) in E. destruct E as [code E]. exists d, code. auto.
Qed.
Print Assumptions rv64_lift_null_iff.

(** An unsupported instruction inside the function: when control reaches it, the
    function is left with all registers and memory as they are, and with the PC of
    that instruction. *)
Theorem unsupported_exits : forall `{FpuOps} c cfg kc ds a0 bs s0 n x0 i d code segs e s,
  decoded rvinst r_len rv_cls ds -> rlift c cfg kc true (f_ins _ ds) = LFn (a0, bs) ->
  enter rvinst ds a0 bs s0 = Ok x0 -> lsteps rvinst c ds bs n x0 = Ok (CRun _ ((i, d, code) :: segs) e s) ->
  rv_unsupported (d_i _ d) -> at_home c (r_start (d_i _ d)) ->
  exists s', lsteps rvinst c ds bs (n + 2)%nat x0 = Ok (COut _ s') /\
    (forall r, s_reg s' r = s_reg s r) /\ (forall a, s_mem s' a = s_mem s a) /\
    pc_value c (s_pc s') 0 = Ok (V (TInt 64) (addr_pc_base c (r_start (d_i _ d)))).
Proof.
  intros F c cfg kc ds a0 bs s0 n x0 i d code segs e s D L E0 RN US HM. pose proof (decoded_inv _ _ _ _ D) as V.
  destruct (reach_code rvinst r_len rv_cls _ c ds a0 bs V L n s0 x0 E0 _ _ _ RN) as [Q|[j BC]]; [discriminate|].
  apply (unsupported_iff c cfg (kc j)) in US. destruct US as [cd US].
  assert (X : segs = [] /\ lift_rv64 c cfg (kc j) None (d_i _ d) = Some (false, code) /\ e = end_of rvinst d code).
  { inversion BC; subst; unfold rv_lf in *; try (split; [reflexivity|split; [assumption|reflexivity]]); congruence. }
  destruct X as (-> & L1 & ->). rewrite US in L1. injection L1 as <-.
  assert (CD : cd = [SPcConst (r_start (d_i _ d)); SPcVal (cI 64 (r_start (d_i _ d)))]).
  { clear - US. unfold lift_rv64, lift_mnem in US. cbv zeta in US. unfold plain_opt, LiftAmo, LiftFpArith, LiftFcvtFToI, plain, unhandled in US.
    destruct (r_mn (d_i _ d)); try discriminate US; try (injection US as <-; reflexivity).
    all: repeat match type of US with context [if ?b then _ else _] => destruct b end; try discriminate US; injection US as <-; reflexivity. }
  subst cd.
  replace (n + 2)%nat with (S (S n)) by lia. rewrite !lsteps_snoc, RN. cbn [bind lstep run run1]. 
  unfold ev. cbn [eval cI bind].
  exists (with_pc (with_pc s (PcConst (r_start (d_i _ d)))) (PcVal (IR.V (TInt 64) (trunc 64 (r_start (d_i _ d)))))).
  split.
  { unfold end_of. cbn [has_ret existsb is_ret orb]. destruct (d_inh _ d); reflexivity. }
  split; [reflexivity|]. split; [reflexivity|]. cbn [with_pc s_pc pc_value]. change (0 =? 0) with true. cbv iota. rewrite HM. reflexivity.
Qed.
Print Assumptions unsupported_exits.

(** Finding: lifting a function at address 0, or one with a block at address 0,
    is neither refused nor possible (null exit block, block initialised twice). *)
Theorem lift_address_zero_refuted : exists ds, decoded rvinst r_len rv_cls ds /\ length (f_ins _ ds) = 2%nat /\
  (forall d, In d (f_ins _ ds) -> ~ rv_unsupported (d_i _ d)) /\
  forall c cfg kc, rlift c cfg kc true (f_ins _ ds) = LBad.
Proof.
  eexists. split.
  { eapply (decoded1 _ _ _ _ (prog [insn R_ADDI 5 5 128 1 0; insn R_JAL 0 128 128 0x100 4]) MAll false 20 0); [apply decoded0|]. vm_compute. reflexivity. }
  split; [reflexivity|]. split; [|intros; reflexivity].
  intros d [<-|[<-|[]]]; exact (fun x => x).
Qed.
Print Assumptions lift_address_zero_refuted.

(** ** C41 *)
(** Whole-function simulation, RV64. [fetch] gives the guest's instruction at each
    run-time address (code is not modified). Every instruction the guest executes is
    one whose lifting does not deviate ([rv_good]) and what the register file knows
    to be constant is so. Then the lifted function never gets stuck or has undefined
    behaviour; when it is left, registers, memory and PC are those the guest has
    after some number of steps; and while it runs the guest makes progress, so it
    runs forever only if the guest does. *)
Theorem rv64_function_simulates : forall `{FpuOps} c cfg kc fetch ds a0 bs s0 g0,
  c_arch c = RV64 -> gbase_ok c -> ext_ok c ->
  decoded rvinst r_len rv_cls ds ->
  (forall d, In d (f_ins _ ds) -> r_start (d_i _ d) = d_start _ d /\ fetch (addr_pc_base c (d_start _ d)) = Some (d_i _ d)) ->
  rlift c cfg kc true (f_ins _ ds) = LFn (a0, bs) ->
  rel s0 g0 -> g_pc g0 = addr_pc_base c a0 ->
  (forall i s, visits rvinst c ds a0 bs s0 i s -> kc_sound (kc i) s) ->
  (forall k g i, gsteps (rv_step c cfg fetch) k g0 g -> fetch (g_pc g) = Some i -> rv_good c cfg i g) ->
  exists x0, enter rvinst ds a0 bs s0 = Ok x0 /\ forall n, exists x, lsteps rvinst c ds bs n x0 = Ok x /\
  match x with
  | COut _ s => exists k g, gsteps (rv_step c cfg fetch) k g0 g /\ rel s g /\ pc_at c s g
  | CRun _ _ _ s => exists k g, gsteps (rv_step c cfg fetch) k g0 g /\ rel s g /\ (n <= 2 * k + 1)%nat
  end.
Proof.
  intros F c cfg kc fetch ds a0 bs s0 g0 HA GB EX D FE L R0 P0 KC GD.
  apply (sim rvinst r_len rv_cls (rv_lf c cfg kc) c ds gst g_pc (rv_step c cfg fetch) rel a0 bs (decoded_inv _ _ _ _ D) L s0 g0 R0 P0).
  intros i d s g k VI GS N R P ok code LF. pose proof (nth_error_In _ _ N) as I0. destruct (FE d I0) as [ST FD].
  rewrite <- P in FD.
  assert (P' : g_pc g = addr_pc_base c (r_start (d_i _ d))) by (rewrite ST; exact P).
  destruct (rv_one c HA GB EX cfg (kc i) (d_i _ d) s g R (KC i s VI) P' fetch FD (GD k g _ GS FD) ok code LF) as (s' & RN & X).
  exists s'. split; [exact RN|]. destruct ok; [|exact X]. destruct X as (g' & X1 & X2 & X3 & X4). exists g'.
  split; [assumption|]. split; [assumption|]. split; [assumption|]. intro KO. rewrite (X4 KO). unfold d_end, add64. rewrite ST. reflexivity.
Qed.
Print Assumptions rv64_function_simulates.

(** ** C16, lifting *)
(** The blocks created by lifting after ll_func_decode_cfg calls have at most as many
    predecessors (other than the entry block) as were counted, unless a call function
    is configured and there is a JAL whose link register is neither x0, x1 nor x5. *)
Theorem lift_edges_counted_partial : forall c cfg kc ds a0 bs t,
  decoded_all rvinst r_len rv_cls (has_call cfg) ds ->
  (forall d, In d (f_ins _ ds) -> r_start (d_i _ d) = d_start _ d /\ rv_dec (d_i _ d) /\ (has_call cfg = true -> ~ odd_jal (d_i _ d))) ->
  rlift c cfg kc true (f_ins _ ds) = LFn (a0, bs) -> t <> 0 ->
  (block_edges rvinst t bs <= e_preds (f_map _ ds t))%nat.
Proof.
  intros c cfg kc ds a0 bs t D W L T. rewrite (preds_exact _ _ _ _ _ D). unfold real.
  apply (lift_edges rvinst (rv_lf c cfg kc) t _ _ a0 bs); [|exact L].
  intros n d ok code I0 LF. destruct (W d I0) as (W1 & W2 & W3). pose proof (decoded_inh _ _ _ _ _ D) as FI. rewrite Forall_forall in FI.
  apply (rv_hit c cfg (kc n) d ok code t T W2 W1 W3 (FI d I0) LF).
Qed.
Print Assumptions lift_edges_counted_partial.
(** Finding: such a JAL branches to a block without being counted: here a block that
    is entered from two predecessors but counted with one. *)
Definition p_odd : list rvinst :=
  [insn R_BEQ 128 5 0 0x100 0x1000; insn R_JAL 6 128 128 0xfc 0x1004; insn R_ECALL 128 128 128 0 0x1008; insn R_ECALL 128 128 128 0 0x1100].
Definition ds_odd : dst rvinst :=
  match rdecode (prog p_odd) MAll true 20 (dst0 _) 0x1000 with Some (Some s) => s | _ => dst0 _ end.
Definition bs_odd : list (lblock rvinst) :=
  match rlift c_ex cfg_call (fun _ => kc_ex) true (f_ins _ ds_odd) with LFn (_, bs) => bs | _ => [] end.
Theorem lift_edges_counted_refuted : exists c cfg kc ds a0 bs t, decoded_all rvinst r_len rv_cls (has_call cfg) ds /\
  (forall d, In d (f_ins _ ds) -> r_start (d_i _ d) = d_start _ d /\ rv_dec (d_i _ d)) /\
  rlift c cfg kc true (f_ins _ ds) = LFn (a0, bs) /\ t <> 0 /\ t <> a0 /\
  block_edges rvinst t bs = 2%nat /\ e_preds (f_map _ ds t) = 1%nat.
Proof.
  exists c_ex, cfg_call, (fun _ => kc_ex), ds_odd, 0x1000, bs_odd, 0x1100. split.
  { eapply (decoded_all1 _ _ _ _ _ (prog p_odd) 20 0x1000); [apply decoded_all0|]. vm_compute. reflexivity. }
  split.
  { intros d I0. vm_compute in I0. repeat (destruct I0 as [<-|I0]; [split; [reflexivity|]; unfold rv_dec, jal_dec; cbn; intuition congruence|]). destruct I0. }
  split; [reflexivity|]. split; [discriminate|]. split; [discriminate|]. split; vm_compute; reflexivity.
Qed.
Print Assumptions lift_edges_counted_refuted.

(** ** Non-vacuity *)
(** The call function returns to the link register x1. *)
Definition c_ret : cenv := CEnv RV64 None 0 None 0 (fun _ u => Cpu (u_reg u (GP 1)) (u_reg u) (u_mem u)).
Definition ds_loop : dst rvinst :=
  match rdecode (prog p_loop) MAll true 20 (dst0 _) 0x1000 with Some (Some s) => s | _ => dst0 _ end.
Definition bs_loop : list (lblock rvinst) :=
  match rlift c_ret cfg_call (fun _ => kc_ex) true (f_ins _ ds_loop) with LFn (_, bs) => bs | _ => [] end.
Definition g_loop : gst := g_ex 0x1000 (fun n => if n =? 5 then 3 else 0x9000).
Lemma ds_loop_decoded : decoded_all rvinst r_len rv_cls true ds_loop.
Proof. eapply (decoded_all1 _ _ _ _ _ (prog p_loop) 20 0x1000); [apply decoded_all0|]. vm_compute. reflexivity. Qed.
Lemma ext_ret : ext_ok c_ret.
Proof.
  intros f u g ((A1 & A2 & A3 & A4) & B1 & B2 & B3). exists (Gst (g_x g) (g_f g) (g_x g 1) (g_mem g)).
  split; [split; [cbn; apply A2; lia|split; [exact A2|split; [exact A3|exact A4]]]|]. split; [apply B2; lia|split; assumption].
Qed.
Lemma p_loop_good : forall `{FpuOps} g0, (g_x g0 1) mod 2 = 0 ->
  forall k g i, gsteps (rv_step c_ret cfg_call (prog p_loop)) k g0 g -> prog p_loop (g_pc g) = Some i -> rv_good c_ret cfg_call i g.
Proof.
  intros F g0 X1.
  assert (INV : forall k g, gsteps (rv_step c_ret cfg_call (prog p_loop)) k g0 g -> (g_x g 1) mod 2 = 0).
    { intros k g GS. induction GS as [g0|k g0 g1 g2 GS IH ST]; [assumption|]. specialize (IH X1).
      assert (PR : forall a i, prog p_loop a = Some i -> r_start i = a /\ In i p_loop).
      { intros a i Q. unfold p_loop, prog in Q. cbn [insn r_start] in Q.
        repeat match type of Q with (if ?b then _ else _) = _ => destruct b eqn:? end; try discriminate;
        injection Q as <-; split; cbn [insn r_start In p_loop]; auto; lia. }
      inversion ST as [i FE IS NC|i f gj FE M K IS XR|i f FE M]; destruct (PR _ _ FE) as [SA IN].
      - repeat (destruct IN as [<-|IN]; [|]); try destruct IN; cbn in IS; injection IS as <-; try exact IH; try reflexivity.
        exfalso. eapply NC; [left; reflexivity|reflexivity].
      - assert (Q : gj = wpc (wx g1 1 (g_pc g1 + 4)) (g_pc g1 + 0x100) \/ g_x gj 1 = g_x g1 1).
        { repeat (destruct IN as [<-|IN]; [|]); try destruct IN; cbn in IS; injection IS as <-; auto. }
        destruct XR as (u & ((_ & H1 & _) & _) & ((_ & H2 & _) & _)). cbn in H2. specialize (H1 1 ltac:(lia)). specialize (H2 1 ltac:(lia)).
        assert (EQ : g_x g2 1 = g_x gj 1) by congruence. rewrite EQ. clear EQ H1 H2.
        repeat (destruct IN as [<-|IN]; [|]); try destruct IN; cbn in IS; injection IS as <-; try exact IH.
        cbn [insn r_start] in SA. rewrite <- SA. reflexivity.
      - exfalso. repeat (destruct IN as [<-|IN]; [discriminate M|]). destruct IN. }
    intros k g i GS FE. specialize (INV k g GS).
    assert (IN : In i p_loop).
    { unfold p_loop, prog in FE. cbn [insn r_start] in FE.
      repeat match type of FE with (if ?b then _ else _) = _ => destruct b eqn:? end; try discriminate; injection FE as <-; cbn; auto. }
    repeat (destruct IN as [<-|IN]; [cbn|]); try destruct IN.
    + split; [discriminate|exact I].
    + split; [left; split; reflexivity|discriminate].
    + split; [discriminate|exact I].
    + split; [right; split; [reflexivity|discriminate]|]. intros _. rewrite Z.add_0_r. exact INV.
Qed.
(** The whole-function theorem applies to a loop that calls a function in each
    iteration, for every guest state satisfying [rel] with an even x1. *)
Example ex_function_simulates : forall `{FpuOps} s0 g0, rel s0 g0 -> g_pc g0 = 0x1000 -> (g_x g0 1) mod 2 = 0 ->
  exists x0, enter rvinst ds_loop 0x1000 bs_loop s0 = Ok x0 /\ forall n, exists x, lsteps rvinst c_ret ds_loop bs_loop n x0 = Ok x /\
  match x with
  | COut _ s => exists k g, gsteps (rv_step c_ret cfg_call (prog p_loop)) k g0 g /\ rel s g /\ pc_at c_ret s g
  | CRun _ _ _ s => exists k g, gsteps (rv_step c_ret cfg_call (prog p_loop)) k g0 g /\ rel s g /\ (n <= 2 * k + 1)%nat
  end.
Proof.
  intros F s0 g0 R P X1.
  apply (rv64_function_simulates c_ret cfg_call (fun _ => kc_ex) (prog p_loop) ds_loop 0x1000 bs_loop s0 g0).
  - reflexivity.
  - exact I.
  - exact ext_ret.
  - exact (decoded_cf_decoded _ _ _ _ _ (decoded_all_cf _ _ _ _ _ ds_loop_decoded)).
  - intros d I0. vm_compute in I0. repeat (destruct I0 as [<-|I0]; [split; reflexivity|]). destruct I0.
  - reflexivity.
  - exact R.
  - rewrite P. reflexivity.
  - intros i s _ r z Q. discriminate.
  - apply p_loop_good. exact X1.
Qed.
(** And concretely: three iterations, leaving with x5 = 0 and the PC in x1. *)
Example ex_loop_runs : let s0 := st_of g_loop in
  match (do x <- enter rvinst ds_loop 0x1000 bs_loop s0; @lsteps plain_lang rvinst fpu0 c_ret ds_loop bs_loop 40 x) with
  | Ok (COut _ s) => s_reg s (GP 5) = Some 0 /\ pc_value c_ret (s_pc s) 0 = Ok (V (TInt 64) 0x1008)
  | _ => False
  end.
Proof. vm_compute. split; reflexivity. Qed.
(** 1000 addi x5,x5,1; 1004 unsupported. *)
Definition p_uns : list rvinst := [insn R_ADDI 5 5 128 1 0x1000; insn R_OTHER 0 0 0 0 0x1004; insn R_ECALL 128 128 128 0 0x1008].
Definition ds_uns : dst rvinst :=
  match rdecode (prog p_uns) MAll false 20 (dst0 _) 0x1000 with Some (Some s) => s | _ => dst0 _ end.
Example ex_unsupported_exits :
  match rlift c_ex cfg_ex (fun _ => kc_ex) true (f_ins _ ds_uns) with
  | LFn (a0, bs) => match (do x <- enter rvinst ds_uns a0 bs (st_of g_loop); @lsteps plain_lang rvinst fpu0 c_ex ds_uns bs 1 x) with
    | Ok (CRun _ ((_, d, _) :: _) _ s) => rv_unsupported (d_i _ d) /\ at_home c_ex (r_start (d_i _ d)) /\ s_reg s (GP 5) = Some 4
    | _ => False
    end
  | _ => False
  end.
Proof. vm_compute. repeat split; reflexivity. Qed.
Example ex_lift_null : rlift c_ex cfg_ex (fun _ => kc_ex) true (skipn 1 (f_ins _ ds_uns)) = LBad /\
  match rdecode (prog p_uns) MAll false 20 (dst0 _) 0x1004 with
  | Some (Some s) => rlift c_ex cfg_ex (fun _ => kc_ex) true (f_ins _ s) = LNull /\ length (f_ins _ s) = 2%nat
  | _ => False
  end.
Proof. split; [reflexivity|]. split; reflexivity. Qed.
Example ex_edges : block_edges rvinst 0x1000 bs_loop = 1%nat /\ e_preds (f_map _ ds_loop 0x1000) = 1%nat /\
  block_edges rvinst 0x1008 bs_loop = 1%nat /\
  forall d, In d (f_ins _ ds_loop) -> r_start (d_i _ d) = d_start _ d /\ rv_dec (d_i _ d) /\ (has_call cfg_call = true -> ~ odd_jal (d_i _ d)).
Proof.
  split; [vm_compute; reflexivity|]. split; [vm_compute; reflexivity|]. split; [vm_compute; reflexivity|].
  intros d I0. vm_compute in I0. unfold rv_dec, jal_dec, odd_jal, FRV_REG_INV.
  destruct I0 as [<-|[<-|[<-|[<-|[]]]]]; cbn; (split; [reflexivity|]); (split; [intros [Q|Q]; try discriminate Q|intros _ (A & B & C); discriminate]).
  - left. split; reflexivity.
  - right. split; [reflexivity|discriminate].
Qed.
