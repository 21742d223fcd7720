(** Property C66: a lifted function is left only where it has to be, RV64. *)

From Coq Require Import ZArith Lia ZifyBool List Bool Arith.
From Verif Require Import Bits IR Facet Dsl Rv64 Rv64Spec Rv64Sim Rv64Mem Rv64FpArith Rv64Ex Decode DecodeOk DecodeRv LiftFn LiftSim LiftEdge LiftRv LiftExit Prop_Lift.
Import ListNotations.
Open Scope Z_scope.

(** ** Specification *)
Definition rv_jump (i : rvinst) : Prop := r_mn i = R_JAL \/ r_mn i = R_JALR.
Definition rv_cond (i : rvinst) : bool := match r_mn i with R_BEQ | R_BNE | R_BLT | R_BGE | R_BLTU | R_BGEU => true | _ => false end.
(** The addresses (in the memory passed to ll_func_decode_cfg) at which control
    continues after [i], as far as the instruction itself tells. *)
Definition rv_next (i : rvinst) (t : Z) : Prop :=
  match r_mn i with
  | R_JAL => if r_rd i =? 0 then t = (r_start i + r_imm i) mod 2^64 else t = (r_start i + r_len i) mod 2^64
  | R_JALR => r_rd i <> 0 /\ t = (r_start i + r_len i) mod 2^64
  | R_ECALL => False
  | _ => t = (r_start i + r_len i) mod 2^64 \/ (rv_cond i = true /\ t = (r_start i + r_imm i) mod 2^64)
  end.
(** Why a function is left after executing [i] with the resulting state [g]. [at_ a] is
    the run-time address of [a], [dec] what can be decoded. *)
Inductive rv_leaves (cfg : lcfg) (at_ : Z -> Z) (dec : Z -> option rvinst) (i : rvinst) (g : gst) : Prop :=
| rl_return : forall f, l_call cfg = Some f -> rv_jump i -> link (r_rd i) = false -> link (r_rs1 i) = true -> rv_leaves cfg at_ dec i g
| rl_call : l_call cfg = None -> rv_jump i -> r_rd i <> 0 -> rv_leaves cfg at_ dec i g
| rl_callret : forall f, l_call cfg = Some f -> rv_jump i -> link (r_rd i) = true -> g_pc g <> at_ ((r_start i + r_len i) mod 2^64) -> rv_leaves cfg at_ dec i g
| rl_indirect : r_mn i = R_JALR -> rv_leaves cfg at_ dec i g
| rl_syscall : r_mn i = R_ECALL -> rv_leaves cfg at_ dec i g
| rl_odd : l_call cfg <> None -> odd_jal i -> rv_leaves cfg at_ dec i g
| rl_zero : g_pc g = at_ 0 -> rv_leaves cfg at_ dec i g
| rl_undecoded : forall t, rv_next i t -> dec t = None -> g_pc g = at_ t -> rv_leaves cfg at_ dec i g.

(** ** What the code of each instruction does *)
Lemma jal_code : forall c cfg kc i ok code, rv_jump i -> lift_rv64 c cfg kc None i = Some (ok, code) -> code = SPcConst (r_start i) :: LiftJal cfg i.
Proof.
  intros c cfg kc i ok code M L. unfold lift_rv64 in L. destruct (lift_mnem c cfg kc i) as [[b l]|] eqn:LM; [|discriminate]. injection L as <- <-.
  unfold lift_mnem in LM. destruct M as [M|M]; rewrite M in LM; injection LM as _ <-; reflexivity.
Qed.
Lemma StoreGp_ret : forall r e, has_ret (StoreGp r e) = false /\ existsb is_callret (StoreGp r e) = false.
Proof. intros r e. unfold StoreGp. destruct (r =? 0); split; reflexivity. Qed.
Lemma jal_ret : forall cfg i, jal_dec i -> has_ret (SPcConst (r_start i) :: LiftJal cfg i) = match jal_kind cfg i with JRet => true | _ => false end.
Proof.
  intros cfg i JD. unfold LiftJal, jal_kind. fold (link (r_rd i)) (link (r_rs1 i)). unfold has_ret. cbn [existsb is_ret orb app]. rewrite !existsb_app.
  pose proof (proj1 (StoreGp_ret (r_rd i) (vX 0))) as X. unfold has_ret in X. rewrite X.
  destruct (negb (r_rs1 i =? FRV_REG_INV)); cbn [existsb is_ret orb]; (destruct (l_call cfg); [|reflexivity]);
  (destruct (negb (link (r_rd i)) && link (r_rs1 i)); [reflexivity|]); destruct (link (r_rd i) && _); reflexivity.
Qed.
Lemma jal_callret : forall cfg i, (forall f, jal_kind cfg i <> JCall f) -> existsb is_callret (LiftJal cfg i) = false.
Proof.
  intros cfg i NC. unfold LiftJal, jal_kind in *. fold (link (r_rd i)) (link (r_rs1 i)). cbn [existsb is_callret orb app]. rewrite !existsb_app.
  rewrite (proj2 (StoreGp_ret (r_rd i) (vX 0))).
  destruct (negb (r_rs1 i =? FRV_REG_INV)); cbn [existsb is_callret orb]; (destruct (l_call cfg) as [f|]; [|reflexivity]);
  (destruct (negb (link (r_rd i)) && link (r_rs1 i)); [reflexivity|]); (destruct (link (r_rd i) && _); [exfalso; exact (NC f eq_refl)|reflexivity]).
Qed.
Lemma jal_dyn : forall cfg i, jal_dec i -> r_mn i = R_JAL -> pc_of (SPcConst (r_start i) :: LiftJal cfg i) [] <> [].
Proof.
  intros cfg i [[_ Q]|[Q _]] M; [|congruence]. unfold LiftJal. rewrite Q. change (negb (FRV_REG_INV =? FRV_REG_INV)) with false. cbv iota.
  cbn [pc_of app]. rewrite pc_of_app, pc_of_StoreGp. destruct (l_call cfg); [|discriminate].
  destruct (negb _ && _); [discriminate|]. destruct (((r_rd i =? 1) || (r_rd i =? 5)) && _); discriminate.
Qed.
Lemma cond_code : forall c cfg kc i ok code, rv_cond i = true -> lift_rv64 c cfg kc None i = Some (ok, code) ->
  exists p, code = SPcConst (r_start i) :: LiftBranch i p.
Proof.
  intros c cfg kc i ok code M L. unfold lift_rv64 in L. destruct (lift_mnem c cfg kc i) as [[b l]|] eqn:LM; [|discriminate]. injection L as <- <-.
  unfold lift_mnem in LM. unfold rv_cond in M. destruct (r_mn i); try discriminate M; cbv iota in LM; injection LM as _ <-; eexists; reflexivity.
Qed.
Lemma rv_kinds : forall i, fst (rv_cls i) = KOther \/ rv_cond i = true \/ rv_jump i \/ r_mn i = R_ECALL.
Proof. intros i. unfold rv_cls, rv_cond, rv_jump. destruct (r_mn i); cbn; auto. Qed.

(** Return instructions, in call-return mode (rv64/lifter.cc:400-405). *)
Definition rv_returns (cfg : lcfg) (i : rvinst) : Prop := l_call cfg <> None /\ rv_jump i /\ link (r_rd i) = false /\ link (r_rs1 i) = true.
Lemma rv_ret_code : forall c cfg kc i ok code, rv_dec i -> lift_rv64 c cfg kc None i = Some (ok, code) -> (has_ret code = true <-> rv_returns cfg i).
Proof.
  intros c cfg kc i ok code RD LF. unfold rv_returns. destruct (rv_kinds i) as [K|[K|[K|K]]].
  - assert (NJ : ~ rv_jump i) by (unfold rv_cls in K; intros [Q|Q]; rewrite Q in K; destruct (r_rd i =? 0); discriminate K).
    unfold lift_rv64 in LF. destruct (lift_mnem c cfg kc i) as [[b l]|] eqn:LM; [|discriminate]. injection LF as -> <-.
    assert (F' : has_ret (SPcConst (r_start i) :: l) = false).
    { destruct (lift_other _ _ _ _ _ _ K LM) as [(_ & l' & -> & NR)|(_ & ->)]; [|reflexivity].
      unfold has_ret. cbn [existsb is_ret orb]. rewrite existsb_app. pose proof (has_ret_nret _ NR) as F'. unfold has_ret in F'. rewrite F'. reflexivity. }
    rewrite F'. split; [discriminate|tauto].
  - destruct (cond_code _ _ _ _ _ _ K LF) as (p & ->). split; [discriminate|]. intros (_ & [Q|Q] & _); unfold rv_cond in K; rewrite Q in K; discriminate K.
  - rewrite (jal_code _ _ _ _ _ _ K LF), (jal_ret cfg i (RD K)). unfold jal_kind. destruct (l_call cfg) as [f|]; [|split; [discriminate|intros (Q & _); destruct (Q eq_refl)]].
    destruct (link (r_rd i)), (link (r_rs1 i)); cbn [negb andb orb]; try destruct (_ =? _); split; try discriminate; try (intros (_ & _ & Q1 & Q2); discriminate); intros _; split; try discriminate; auto.
  - unfold lift_rv64, lift_mnem in LF. rewrite K in LF. assert (Q : has_ret code = false) by (destruct (r_imm i =? 0); injection LF as _ <-; [destruct (l_syscall cfg)|]; reflexivity).
    rewrite Q. split; [discriminate|]. intros (_ & [X|X] & _); congruence.
Qed.

(** ** C66 *)
(** How the lifted function is left; see [rv64_function_left_partial] below. Control leaves a
    block by a return if and only if the last instruction is one. *)
Lemma rv64_left_how : forall `{FpuOps} c cfg kc fetch dec E ds a0 bs s0 g0,
  c_arch c = RV64 -> gbase_ok c -> ext_ok c ->
  rcalls dec (has_call cfg) E ds ->
  (forall a i, dec a = Some i -> r_start i = a /\ rv_dec i /\ fetch (addr_pc_base c a) = Some i) ->
  rlift c cfg kc true (f_ins _ ds) = LFn (a0, bs) ->
  rel s0 g0 -> g_pc g0 = addr_pc_base c a0 ->
  (forall i s, visits rvinst c ds a0 bs s0 i s -> kc_sound (kc i) s) ->
  (forall k g i, gsteps (rv_step c cfg fetch) k g0 g -> fetch (g_pc g) = Some i -> rv_good c cfg i g) ->
  forall x0 n e s, enter rvinst ds a0 bs s0 = Ok x0 -> lsteps rvinst c ds bs n x0 = Ok (CRun _ [] e s) -> lstep rvinst c ds bs (CRun _ [] e s) = Ok (COut _ s) ->
  exists k g, gsteps (rv_step c cfg fetch) k g0 g /\ rel s g /\ pc_at c s g /\
  ((e <> BRet /\ exists i, fetch (g_pc g) = Some i /\ rv_unsupported i) \/
   (exists k' g' i, gsteps (rv_step c cfg fetch) k' g0 g' /\ fetch (g_pc g') = Some i /\ rv_step c cfg fetch g' g /\
      rv_leaves cfg (addr_pc_base c) dec i g /\ (e = BRet <-> rv_returns cfg i))).
Proof.
  intros F c cfg kc fetch dec E ds a0 bs s0 g0 HA GB EX DC DE L R0 P0 KC GD x0 n e s E0 EN LST.
  assert (DA : decoded_all rvinst r_len rv_cls (has_call cfg) ds).
  { clear - DC. induction DC as [|E0 s0 n0 a s' D IH X]; [constructor|]. econstructor; eassumption. }
  pose proof (decoded_cf_decoded _ _ _ _ _ (decoded_all_cf _ _ _ _ _ DA)) as D.
  pose proof (decoded_inh _ _ _ _ _ DA) as FI. rewrite Forall_forall in FI.
  assert (FE : forall d, In d (f_ins _ ds) -> dec (d_start _ d) = Some (d_i _ d)).
  { intros d I0. destruct (calls_cinv _ _ _ _ _ _ _ DC) as [C _]. apply In_nth_error in I0. destruct I0 as [j N]. apply (c_ins _ _ _ _ _ _ _ C j d N). }
  assert (ONE : forall i d s g k, visits rvinst c ds a0 bs s0 i s -> gsteps (rv_step c cfg fetch) k g0 g -> nth_error (f_ins _ ds) i = Some d ->
    rel s g -> g_pc g = addr_pc_base c (d_start _ d) -> one_ok rvinst r_len rv_cls (rv_lf c cfg kc) c gst g_pc (rv_step c cfg fetch) rel i d s g).
  { intros i d s1 g k VI GS N R P ok code LF. pose proof (nth_error_In _ _ N) as I0. destruct (DE _ _ (FE d I0)) as (ST & _ & FD).
    rewrite <- P in FD. assert (P' : g_pc g = addr_pc_base c (r_start (d_i _ d))) by (rewrite ST; exact P).
    destruct (rv_one c HA GB EX cfg (kc i) (d_i _ d) s1 g R (KC i s1 VI) P' fetch FD (GD k g _ GS FD) ok code LF) as (s' & RN & X).
    exists s'. split; [exact RN|]. destruct ok; [|exact X]. destruct X as (g' & X1 & X2 & X3 & X4). exists g'.
    split; [assumption|]. split; [assumption|]. split; [assumption|]. intro KO. rewrite (X4 KO). unfold d_end, add64. rewrite ST. reflexivity. }
  destruct (left_reason rvinst r_len rv_cls (rv_lf c cfg kc) c ds gst g_pc (rv_step c cfg fetch) rel a0 bs (decoded_inv _ _ _ _ D) L s0 g0 R0 P0 ONE
    dec (has_call cfg) E DC (fun i => l_call cfg <> None /\ odd_jal i)
    (fun _ _ code s s' _ _ X => pc_of_run c code s s' X)) with (m := n) (x0 := x0) (e := e) (s := s) as (k & g & GS & RG & PG & W); try assumption.
  { intros m d ok code I0 LF. destruct (DE _ _ (FE d I0)) as (ST & RD & _).
    assert (OJ : (l_call cfg <> None /\ odd_jal (d_i _ d)) \/ (has_call cfg = true -> ~ odd_jal (d_i _ d))).
    { unfold has_call. destruct (l_call cfg) as [f|]; [|right; discriminate].
      unfold odd_jal. destruct (r_mn (d_i _ d)); try (right; intros _ (Q & _); discriminate Q).
      destruct (Z.eq_dec (r_rd (d_i _ d)) 0) as [Q|Q]; [right; intros _ (_ & Q' & _); contradiction|].
      destruct (link (r_rd (d_i _ d))) eqn:LK; [right; intros _ (_ & _ & Q'); discriminate Q'|left; split; [discriminate|auto]]. }
    destruct OJ as [OJ|OJ]; [left; exact OJ|right]. intros t T0. apply (rv_hit c cfg (kc m) d ok code t T0 RD ST OJ (FI d I0) LF). }
  exists k, g. split; [assumption|]. split; [assumption|]. split; [exact PG|].
  destruct W as [m d code I0 LF PC EE|m d code s1 k' g' I0 LF RN GS' PC GST KO EE RE].
  - left. destruct (DE _ _ (FE d I0)) as (_ & RD & FD).
    assert (US : rv_unsupported (d_i _ d)) by (apply (unsupported_iff c cfg (kc m)); exists code; exact LF).
    split. { rewrite EE. intro Q. apply end_ret in Q. apply (rv_ret_code c cfg (kc m) _ _ _ RD LF) in Q. destruct Q as (_ & QJ & _).
             pose proof (jal_code _ _ _ _ _ _ QJ LF) as JC. unfold rv_lf, lift_rv64, lift_mnem in LF. destruct QJ as [QJ|QJ]; rewrite QJ in LF; discriminate LF. }
    exists (d_i _ d). rewrite PC. split; [exact FD|]. apply (unsupported_iff c cfg (kc m)). exists code. exact LF.
  - right. destruct (DE _ _ (FE d I0)) as (ST & RD & FD). exists k', g', (d_i _ d). split; [assumption|]. split; [rewrite PC; exact FD|]. split; [assumption|].
    split; [|rewrite EE; etransitivity; [apply end_ret|exact (rv_ret_code c cfg (kc m) _ _ _ RD LF)]].
    assert (EN' : d_end rvinst r_len d = r_end (d_i _ d)) by (unfold d_end, add64, r_end; rewrite ST; reflexivity).
    specialize (FI d I0). unfold rv_lf in LF. set (i := d_i _ d) in *.
    destruct RE as [CR|DI|XC|CR DI DY|v a Q1 Q2 Q3|t T IT PT].
    + (* return *)
      destruct (rv_kinds i) as [K|[K|[K|K]]].
      * unfold lift_rv64 in LF. destruct (lift_mnem c cfg (kc m) i) as [[b l]|] eqn:LM; [|discriminate]. injection LF as -> <-.
        destruct (lift_other _ _ _ _ _ _ K LM) as [(_ & l' & -> & NR)|(Q & _)]; [|discriminate].
        cbn [cret plain_lang] in CR. unfold has_ret in CR. cbn [existsb is_ret orb] in CR. rewrite existsb_app in CR. pose proof (has_ret_nret _ NR) as F'. unfold has_ret in F'.
        rewrite F' in CR. discriminate CR.
      * destruct (cond_code _ _ _ _ _ _ K LF) as (p & ->). discriminate CR.
      * rewrite (jal_code _ _ _ _ _ _ K LF) in CR. cbn [cret plain_lang] in CR. rewrite (jal_ret cfg i (RD K)) in CR. unfold jal_kind in CR.
        destruct (l_call cfg) as [f|] eqn:LC; [|discriminate CR].
        destruct (negb (link (r_rd i)) && link (r_rs1 i)) eqn:LK; [|destruct (link (r_rd i) && _); discriminate CR].
        apply andb_prop in LK. destruct LK as [L1 L2]. eapply rl_return; try eassumption. destruct (link (r_rd i)); [discriminate L1|reflexivity].
      * unfold lift_rv64, lift_mnem in LF. rewrite K in LF. destruct (r_imm i =? 0); [|discriminate LF]. injection LF as <-.
        destruct (l_syscall cfg); discriminate CR.
    + (* call, no call function *)
      rewrite FI in DI. unfold rv_cls in DI. destruct (l_call cfg) as [f|] eqn:LC; [unfold has_call in DI; rewrite LC in DI; destruct (r_mn i); try discriminate DI; destruct (r_rd i =? 0); discriminate DI|].
      destruct (r_mn i) eqn:M; try discriminate DI; (apply rl_call; [assumption|unfold rv_jump; auto|]); destruct (Z.eqb_spec (r_rd i) 0); [discriminate DI|assumption|discriminate DI|assumption].
    + destruct XC. apply rl_odd; assumption.
    + (* computed *)
      destruct (rv_kinds i) as [K|[K|[K|K]]].
      * unfold lift_rv64 in LF. destruct (lift_mnem c cfg (kc m) i) as [[b l]|] eqn:LM; [|discriminate]. injection LF as -> <-.
        destruct (lift_other _ _ _ _ _ _ K LM) as [(_ & l' & -> & _)|(Q & _)]; [|discriminate].
        cbn [cpc plain_lang pc_of] in DY. rewrite pc_of_app in DY. discriminate DY.
      * destruct (cond_code _ _ _ _ _ _ K LF) as (p & ->). discriminate DY.
      * rewrite (jal_code _ _ _ _ _ _ K LF) in DY. destruct K as [M|M]; [|apply rl_indirect; exact M].
        exfalso. exact (jal_dyn cfg i (RD (or_introl M)) M DY).
      * apply rl_syscall. exact K.
    + (* the callee returned elsewhere *)
      destruct (rv_kinds i) as [K|[K|[K|K]]].
      * exfalso. specialize (KO K). unfold lift_rv64 in LF. destruct (lift_mnem c cfg (kc m) i) as [[b l]|] eqn:LM; [|discriminate]. injection LF as -> <-.
        destruct (lift_other _ _ _ _ _ _ K LM) as [(_ & l' & -> & _)|(Q & _)]; [|discriminate].
        cbn [cpc plain_lang pc_of] in Q2. rewrite pc_of_app in Q2. cbn [pc_of] in Q2. injection Q2 as <-. rewrite EN' in KO. congruence.
      * destruct (cond_code _ _ _ _ _ _ K LF) as (p & ->). discriminate Q2.
      * rewrite (jal_code _ _ _ _ _ _ K LF) in Q2, RN.
        assert (JC : (exists f, jal_kind cfg i = JCall f) \/ forall f, jal_kind cfg i <> JCall f).
        { destruct (jal_kind cfg i) as [| |f]; [right; discriminate|right; discriminate|left; exists f; reflexivity]. }
        destruct JC as [[f JC]|JC]; [|exfalso; exact (run_ncheck_const c _ _ _ _ _ _ RN (jal_callret cfg i JC) Q1)].
        assert (AE : a = r_end i).
        { clear - Q2 JC. unfold jal_kind in JC. unfold LiftJal in Q2. fold (link (r_rd i)) (link (r_rs1 i)) in Q2. destruct (l_call cfg) as [f'|]; [|discriminate JC].
          destruct (negb (link (r_rd i)) && link (r_rs1 i)); [discriminate JC|]. destruct (link (r_rd i) && _); [|discriminate JC].
          cbn [cpc plain_lang pc_of app] in Q2. rewrite !pc_of_app in Q2. cbn [pc_of] in Q2. injection Q2 as <-. reflexivity. }
        unfold jal_kind in JC. destruct (l_call cfg) as [f'|] eqn:LC; [|discriminate JC].
        destruct (negb (link (r_rd i)) && link (r_rs1 i)); [discriminate JC|]. destruct (link (r_rd i)) eqn:LK; [|discriminate JC].
        eapply rl_callret; try eassumption. intro Q. apply Q3. rewrite AE, Q. reflexivity.
      * apply rl_syscall. exact K.
    + (* no instruction there *)
      destruct T as [->|[SS DT]]; [apply rl_zero; symmetry; exact PT|].
      destruct (Z.eq_dec t 0) as [->|T0]; [apply rl_zero; symmetry; exact PT|].
      apply (rl_undecoded _ _ _ _ _ t); [|exact DT|symmetry; exact PT].
      unfold static_succ, d_to, d_kind in SS. rewrite EN' in SS. fold i in SS. unfold rv_cls in SS. unfold rv_next, rv_cond.
      change (r_end i) with (trunc 64 (r_start i + r_len i)) in SS. unfold trunc in SS.
      destruct (r_mn i); cbn [fst snd follows negb] in SS;
        try (destruct SS as [Q|[Q1 Q2]]; [congruence || (right; split; [reflexivity|congruence])|left; congruence]).
      * destruct (r_rd i =? 0); cbn [fst snd follows negb] in SS; destruct SS as [Q|[Q1 Q2]]; congruence.
      * destruct (Z.eqb_spec (r_rd i) 0); cbn [fst snd follows negb] in SS; destruct SS as [Q|[Q1 Q2]]; try congruence. split; congruence.
      * destruct SS as [Q|[Q1 Q2]]; [congruence|discriminate Q1].
Qed.
(** RV64. Under the hypotheses of [rv64_function_simulates], for a function decoded by
    ll_func_decode_cfg: whenever the lifted function is left, the guest either is
    about to execute an instruction that is not supported, or has just executed an
    instruction after which control leaves the function. Missing: with a call function a JAL
    with another link register than x0, x1 and x5 is a reason of its own ([rv_leaves]). *)
Theorem rv64_function_left_partial : forall `{FpuOps} c cfg kc fetch dec E ds a0 bs s0 g0,
  c_arch c = RV64 -> gbase_ok c -> ext_ok c ->
  rcalls dec (has_call cfg) E ds ->
  (forall a i, dec a = Some i -> r_start i = a /\ rv_dec i /\ fetch (addr_pc_base c a) = Some i) ->
  rlift c cfg kc true (f_ins _ ds) = LFn (a0, bs) ->
  rel s0 g0 -> g_pc g0 = addr_pc_base c a0 ->
  (forall i s, visits rvinst c ds a0 bs s0 i s -> kc_sound (kc i) s) ->
  (forall k g i, gsteps (rv_step c cfg fetch) k g0 g -> fetch (g_pc g) = Some i -> rv_good c cfg i g) ->
  forall x0 n s, enter rvinst ds a0 bs s0 = Ok x0 -> lsteps rvinst c ds bs n x0 = Ok (COut _ s) ->
  exists k g, gsteps (rv_step c cfg fetch) k g0 g /\ rel s g /\ pc_at c s g /\
  ((exists i, fetch (g_pc g) = Some i /\ rv_unsupported i) \/
   (exists k' g' i, gsteps (rv_step c cfg fetch) k' g0 g' /\ fetch (g_pc g') = Some i /\ rv_step c cfg fetch g' g /\ rv_leaves cfg (addr_pc_base c) dec i g)).
Proof.
  intros F c cfg kc fetch dec E ds a0 bs s0 g0 HA GB EX DC DE L R0 P0 KC GD x0 n s E0 EN.
  assert (DA : decoded_all rvinst r_len rv_cls (has_call cfg) ds).
  { clear - DC. induction DC as [|E0 s0 n0 a s' D IH X]; [constructor|]. econstructor; eassumption. }
  pose proof (decoded_inv _ _ _ _ (decoded_cf_decoded _ _ _ _ _ (decoded_all_cf _ _ _ _ _ DA))) as IV.
  destruct (out_from rvinst r_len rv_cls (rv_lf c cfg kc) c ds a0 bs IV L s0 n x0 s E0 EN) as (m & e & _ & EM & ST).
  destruct (rv64_left_how c cfg kc fetch dec E ds a0 bs s0 g0 HA GB EX DC DE L R0 P0 KC GD x0 m e s E0 EM ST) as (k & g & X1 & X2 & X3 & X4).
  exists k, g. split; [assumption|]. split; [assumption|]. split; [assumption|].
  destruct X4 as [[_ X4]|(k' & g' & i & Y1 & Y2 & Y3 & Y4 & _)]; [left; exact X4|right; exists k', g', i; auto].
Qed.
Print Assumptions rv64_function_left_partial.

(** ** Examples *)
(** The theorem applies to the loop of [ex_function_simulates], for every guest state
    satisfying [rel] with an even x1; with a call function the loop is left by its
    return instruction. *)
Lemma ds_loop_calls : rcalls (prog p_loop) (has_call cfg_call) [0x1000] ds_loop.
Proof. eapply (calls1 _ _ _ _ _ [] (dst0 _) 20%nat 0x1000); [apply calls0|]. vm_compute. reflexivity. Qed.
Example ex_function_left : forall `{FpuOps} s0 g0, rel s0 g0 -> g_pc g0 = 0x1000 -> (g_x g0 1) mod 2 = 0 ->
  forall x0 n s, enter rvinst ds_loop 0x1000 bs_loop s0 = Ok x0 -> lsteps rvinst c_ret ds_loop bs_loop n x0 = Ok (COut _ s) ->
  exists k g, gsteps (rv_step c_ret cfg_call (prog p_loop)) k g0 g /\ rel s g /\ pc_at c_ret s g /\
  ((exists i, prog p_loop (g_pc g) = Some i /\ rv_unsupported i) \/
   (exists k' g' i, gsteps (rv_step c_ret cfg_call (prog p_loop)) k' g0 g' /\ prog p_loop (g_pc g') = Some i /\
      rv_step c_ret cfg_call (prog p_loop) g' g /\ rv_leaves cfg_call (addr_pc_base c_ret) (prog p_loop) i g)).
Proof.
  intros F s0 g0 R P X1.
  apply (rv64_function_left_partial c_ret cfg_call (fun _ => kc_ex) (prog p_loop) (prog p_loop) [0x1000] ds_loop 0x1000 bs_loop s0 g0).
  - reflexivity.
  - exact I.
  - exact ext_ret.
  - exact ds_loop_calls.
  - intros a i Q.
    assert (IN : In a [0x1000; 0x1004; 0x1008; 0x100c]).
    { unfold p_loop in Q. cbn [prog r_start insn] in Q. cbn [In].
      repeat match type of Q with (if ?x =? ?y then _ else _) = _ => destruct (Z.eqb_spec x y); [tauto|] end. discriminate Q. }
    cbn [In] in IN. destruct IN as [<-|[<-|[<-|[<-|[]]]]]; vm_compute in Q; injection Q as <-; (split; [reflexivity|]); (split; [|reflexivity]);
      unfold rv_dec, jal_dec, FRV_REG_INV; cbn; intros [Q|Q]; try discriminate Q; [left|right]; split; (reflexivity || discriminate).
  - reflexivity.
  - exact R.
  - rewrite P. reflexivity.
  - intros i s _ r z Q. discriminate.
  - apply p_loop_good. exact X1.
Qed.
(** It is left by the return, and not before: [ex_loop_runs]. *)
Example ex_left_return : forall g, rv_leaves cfg_call (addr_pc_base c_ret) (prog p_loop) (insn R_JALR 0 1 128 0 0x100c) g.
Proof. intros g. eapply rl_return; try reflexivity. right. reflexivity. Qed.
(** The conditional branch of the loop does not leave: both successors are decoded. *)
Example ex_not_left : forall g, g_pc g = 0x1000 -> ~ rv_leaves cfg_call (addr_pc_base c_ret) (prog p_loop) (insn R_BNE 128 5 0 (-8) 0x1008) g.
Proof.
  intros g P L. destruct L as [f A B C D|A B C|f A B C D|A|A|A B|A|t A B C]; try discriminate; try (destruct B; discriminate).
  - rewrite P in A. discriminate.
  - cbn in A. destruct A as [->|[_ ->]]; discriminate B.
Qed.
