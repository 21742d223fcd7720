(** RV64 instance of the driver (LiftFn.v): guest semantics of whole functions, the
    code of one instruction, the edges lifting creates. *)

From Coq Require Import ZArith Lia ZifyBool List Bool Arith.
From Verif Require Import Bits IR Facet Dsl Rv64 Rv64Spec Rv64Sim Rv64Mem Rv64Step Rv64FpSpec Rv64FpArith Decode DecodeOk DecodeRv LiftFn LiftSim LiftEdge.
Import ListNotations.
Open Scope Z_scope.
Ltac Zify.zify_post_hook ::= Z.div_mod_to_equations.

(** ** Guest semantics *)
(** A CPU struct holding a guest state, with values in range. *)
Definition cpu_holds (u : cpu) (g : gst) : Prop :=
  cpu_of u g /\ inr 64 (g_pc g) /\ (forall n, n <> 0 -> inr 64 (g_x g n)) /\ (forall n, inr 64 (g_f g n)).
(** Calling external function [f] with a guest state (x0's slot is not observed). *)
Definition ext_rel (c : cenv) (f : Z) (g g' : gst) : Prop := exists u, cpu_holds u g /\ cpu_holds (c_ext c f u) g'.
(** Given a complete CPU struct, external functions leave a complete one. *)
Definition ext_ok (c : cenv) : Prop := forall f u g, cpu_holds u g -> exists g', cpu_holds (c_ext c f u) g'.

(** One guest step: an instruction of the ISA; or a call together with everything
    the call function does; or a system call by the configured function. *)
Inductive rv_step `{FpuOps} (c : cenv) (cfg : lcfg) (fetch : Z -> option rvinst) (g g' : gst) : Prop :=
| rv_isa : forall i, fetch (g_pc g) = Some i -> isa_all i g = Some g' ->
    ((r_mn i = R_JAL \/ r_mn i = R_JALR) -> forall f, jal_kind cfg i <> JCall f) -> rv_step c cfg fetch g g'
| rv_call : forall i f g1, fetch (g_pc g) = Some i -> (r_mn i = R_JAL \/ r_mn i = R_JALR) -> jal_kind cfg i = JCall f ->
    isa_step i g = Some g1 -> ext_rel c f g1 g' -> rv_step c cfg fetch g g'
| rv_sys : forall i f, fetch (g_pc g) = Some i -> r_mn i = R_ECALL -> r_imm i = 0 -> l_syscall cfg = Some f ->
    ext_rel c f (wpc g (g_pc g + r_len i)) g' -> rv_step c cfg fetch g g'.

(** The guest address is the lift-time address. *)
Definition at_home (c : cenv) (a : Z) : Prop := addr_pc_base c a = trunc 64 a.
(** The instruction is not one whose lifting is known to deviate (Rv64FpArith.all_pre)
    or is not specified (CSR accesses). *)
Definition rv_good `{FpuOps} (c : cenv) (cfg : lcfg) (i : rvinst) (g : gst) : Prop :=
  match r_mn i with
  | R_OTHER => at_home c (r_start i)
  | R_ECALL => if r_imm i =? 0 then l_syscall cfg <> None /\ at_home c (r_end i) else at_home c (r_start i)
  | R_JAL | R_JALR => jal_dec i /\ (r_mn i = R_JALR -> (rx g (r_rs1 i) + r_imm i) mod 2 = 0)
  | _ => isa_all i g <> None /\ all_pre cfg i g
  end.

Lemma isa_next : forall i g g', fst (rv_cls i) = KOther -> isa_step i g = Some g' -> g_pc g' = U 64 (g_pc g + r_len i).
Proof.
  intros i g g' K E. unfold isa_step in E.
  assert (NB : isa_branch (r_mn i) (rx g (r_rs1 i)) (rx g (r_rs2 i)) = None).
  { unfold rv_cls in K. destruct (r_mn i); try reflexivity; discriminate K. }
  assert (NJ : r_mn i <> R_JAL /\ r_mn i <> R_JALR).
  { unfold rv_cls in K. split; intro Q; rewrite Q in K; destruct (r_rd i =? 0); discriminate K. }
  clear K. cbv zeta in E. rewrite NB in E. destruct NJ as [J1 J2].
  assert (W : forall x g1, Some (wpc x (g_pc g + r_len i)) = Some g1 -> g_pc g1 = U 64 (g_pc g + r_len i)).
  { intros x g1 Q. assert (Q' : wpc x (g_pc g + r_len i) = g1) by congruence. subst g1. reflexivity. }
  destruct (isa_int _ _ _ _ _); [exact (W _ _ E)|]. destruct (isa_bit _ _ _ _); [exact (W _ _ E)|].
  destruct (isa_load _) as [[? ?]|]; [exact (W _ _ E)|]. destruct (isa_store _); [exact (W _ _ E)|].
  destruct (isa_lr _); [exact (W _ _ E)|]. destruct (isa_sc _); [exact (W _ _ E)|].
  destruct (isa_amo _) as [[? ?]|]; [exact (W _ _ E)|].
  destruct (isa_fpd i g); [|destruct (isa_fps i _ _ _)];
  destruct (r_mn i); try (exact (W _ _ E)); try congruence; try discriminate E.
Qed.

Lemma all_next : forall `{FpuOps} i g g', fst (rv_cls i) = KOther -> isa_all i g = Some g' -> g_pc g' = U 64 (g_pc g + r_len i).
Proof.
  intros F i g g' K E. unfold isa_all in E. destruct (isa_step i g) as [g1|] eqn:S.
  - injection E as <-. apply (isa_next i g g1 K S).
  - apply (fpa_next i g g' E).
Qed.
Lemma rel_of_cpu : forall s u g, cpu_holds u g -> rel (of_cpu s u) g.
Proof. intros s u g ((A & B & C & D) & E & F & G). split; assumption. Qed.
Lemma cpu_of_cpu : forall s g, rel s g -> inr 64 (g_pc g) -> forall pc, pc = g_pc g -> cpu_holds (to_cpu s (V (TInt 64) pc)) g.
Proof. intros s g [A B C D M] I0 pc ->. split; [split; [reflexivity|split; [assumption|split; assumption]]|]. split; [assumption|split; assumption]. Qed.
Lemma wx_inr : forall s g r v, rel s g -> (forall n, n <> 0 -> inr 64 (g_x (wx g r v) n)) /\ (forall n, inr 64 (g_f (wx g r v) n)).
Proof.
  intros s g r v [A B C D M]. unfold wx. destruct (r =? 0); [split; assumption|]. cbn [g_x g_f]. split; [|assumption].
  intros n N. destruct (n =? r); [apply trunc_range; lia|auto].
Qed.

Section One.
Context `{FpuOps}.
Variable c : cenv.
Hypothesis HA : c_arch c = RV64.
Hypothesis GB : gbase_ok c.
Hypothesis EX : ext_ok c.
Variable cfg : lcfg.
Variable kc : areg -> konst.
Variable i : rvinst.
Variable s : st.
Variable g : gst.
Hypothesis R : rel s g.
Hypothesis KC : kc_sound kc s.
Hypothesis PC : g_pc g = addr_pc_base c (r_start i).
Variable fetch : Z -> option rvinst.
Hypothesis FE : fetch (g_pc g) = Some i.
Hypothesis GD : rv_good c cfg i g.

Lemma home_val : forall a, at_home c a -> trunc 64 a = addr_pc_base c a.
Proof. intros a E. symmetry. exact E. Qed.

Lemma rv_one : forall ok code, lift_rv64 c cfg kc None i = Some (ok, code) ->
  exists s', run c s code = Ok s' /\
    if ok then exists g', rv_step c cfg fetch g g' /\ rel s' g' /\ pc_at c s' g' /\
                 (fst (rv_cls i) = KOther -> g_pc g' = addr_pc_base c (trunc 64 (r_start i + r_len i)))
    else rel s' g /\ pc_at c s' g /\ exists v, s_pc s' = PcVal v.
Proof.
  intros ok code L.
  assert (NXT : U 64 (g_pc g + r_len i) = addr_pc_base c (trunc 64 (r_start i + r_len i))).
  { rewrite addr_pc_base_trunc, addr_pc_base_add, <- PC. reflexivity. }
  assert (JS : (r_mn i = R_JAL \/ r_mn i = R_JALR) -> jal_dec i /\ (r_mn i = R_JALR -> (rx g (r_rs1 i) + r_imm i) mod 2 = 0)).
  { intro M. unfold rv_good in GD. destruct M as [M|M]; rewrite M in GD; rewrite M; exact GD. }
  assert (CS : (r_mn i = R_JAL \/ r_mn i = R_JALR) \/ r_mn i = R_ECALL \/ r_mn i = R_OTHER \/
               (r_mn i <> R_JAL /\ r_mn i <> R_JALR /\ isa_all i g <> None /\ all_pre cfg i g)).
  { clear - GD. unfold rv_good in GD. destruct (r_mn i); try tauto; do 3 right; (split; [discriminate|]); (split; [discriminate|]); exact GD. }
  destruct CS as [M|[M|[M|(M1 & M2 & GD1 & GD2)]]].
  - (* JAL, JALR *)
    destruct (JS M) as [D EV].
    assert (E : exists g1, isa_step i g = Some g1).
    { unfold isa_step. destruct M as [M|M]; rewrite M; eexists; reflexivity. }
    destruct E as [g1 E].
    assert (EA : isa_all i g = Some g1) by (unfold isa_all; rewrite E; reflexivity).
    assert (NK : fst (rv_cls i) <> KOther).
    { unfold rv_cls. destruct M as [M|M]; rewrite M; destruct (r_rd i =? 0); discriminate. }
    destruct (jal_kind cfg i) as [| |f] eqn:K.
    + destruct (jump_correct c cfg kc i s g R PC g1 E (conj D (conj K EV))) as (l & s' & L1 & RN & R1 & P1 & _).
      rewrite L1 in L. injection L as <- <-. exists s'. split; [exact RN|]. exists g1.
      split; [apply (rv_isa c cfg fetch g g1 i FE EA); congruence|]. split; [exact R1|]. split; [exact P1|contradiction].
    + destruct (ret_correct c cfg kc i s g R PC g1 E D K EV) as (l & s' & L1 & RN & R1 & P1 & _).
      rewrite L1 in L. injection L as <- <-. exists s'. split; [exact RN|]. exists g1.
      split; [apply (rv_isa c cfg fetch g g1 i FE EA); congruence|]. split; [exact R1|]. split; [exact P1|contradiction].
    + destruct (call_correct c cfg kc i s g R PC g1 f E D K EV) as (l & u & s' & L1 & RN & CU & _ & SR & SM & _ & SP).
      rewrite L1 in L. injection L as <- <-. exists s'. split; [exact RN|].
      assert (HU : cpu_holds u g1).
      { split; [assumption|]. rewrite (jump_state i g g1 E D EV). split; [apply trunc_range; lia|]. apply (wx_inr s g _ _ R). }
      destruct (EX f u g1 HU) as [g' HG]. exists g'.
      split; [apply (rv_call c cfg fetch g g' i f g1 FE M K E); exists u; split; assumption|].
      destruct HG as ((A1 & A2 & A3 & A4) & B1 & B2 & B3).
      split; [split; [rewrite SR; assumption|assumption|rewrite SR; assumption|assumption|rewrite SM; assumption]|].
      split; [|contradiction]. unfold pc_at. rewrite SP, A1. cbn [pc_value]. change (0 =? 0) with true. cbv iota.
      rewrite trunc_small by assumption. reflexivity.
  - (* ECALL *)
    unfold rv_good in GD. rewrite M in GD. unfold lift_rv64, lift_mnem in L. rewrite M in L.
    destruct (Z.eqb_spec (r_imm i) 0) as [I0|I0].
    + destruct GD as [SY HM]. destruct (l_syscall cfg) as [f|] eqn:LS; [|congruence]. injection L as <- <-.
      set (g1 := wpc g (g_pc g + r_len i)).
      set (s1 := with_pc (with_pc s (PcConst (r_start i))) (PcVal (V (TInt 64) (trunc 64 (r_end i))))).
      assert (R1 : rel s1 g1) by (apply rel_with_pc, rel_with_pc, rel_wpc, R).
      assert (P1 : trunc 64 (r_end i) = g_pc g1).
      { rewrite (home_val _ HM). unfold g1, r_end. cbn [wpc g_pc]. symmetry. exact NXT. }
      pose proof (cpu_of_cpu s1 g1 R1 (trunc_range 64 _ ltac:(lia)) _ P1) as CU.
      destruct (EX f _ g1 CU) as [g' HG].
      exists (of_cpu s1 (c_ext c f (to_cpu s1 (V (TInt 64) (trunc 64 (r_end i)))))).
      split; [reflexivity|]. exists g'.
      split; [apply (rv_sys c cfg fetch g g' i f FE M I0 LS); eexists; split; [exact CU|exact HG]|].
      split; [apply rel_of_cpu, HG|]. split.
      * destruct HG as ((A1 & _) & B1 & _). unfold pc_at. cbn [of_cpu s_pc]. rewrite A1. cbn [pc_value].
        change (0 =? 0) with true. cbv iota. rewrite trunc_small by assumption. reflexivity.
      * unfold rv_cls. rewrite M. discriminate.
    + injection L as <- <-. eexists. split; [reflexivity|]. split; [apply rel_with_pc, rel_with_pc, R|].
      split; [|eexists; reflexivity]. unfold pc_at. cbn [with_pc s_pc pc_value]. change (0 =? 0) with true. cbv iota.
      rewrite PC. f_equal. f_equal. rewrite <- (home_val _ GD). reflexivity.
  - (* OTHER *)
    unfold rv_good in GD. rewrite M in GD. unfold lift_rv64, lift_mnem in L. rewrite M in L. injection L as <- <-.
    eexists. split; [reflexivity|]. split; [apply rel_with_pc, rel_with_pc, R|].
    split; [|eexists; reflexivity]. unfold pc_at. cbn [with_pc s_pc pc_value]. change (0 =? 0) with true. cbv iota.
    rewrite PC. f_equal. f_equal. rewrite <- (home_val _ GD). reflexivity.
  - destruct (isa_all i g) as [g'|] eqn:E; [|congruence].
    destruct (all_correct c cfg kc i s g g' HA GB R KC PC E GD2) as (p & l & s' & L1 & RN & R1 & P1 & _).
    rewrite L1 in L; injection L as <- <-; exists s'; split; [exact RN|]; exists g'.
    split; [apply (rv_isa c cfg fetch g g' i FE E); intros [Q|Q]; congruence|].
    split; [exact R1|]. split; [exact P1|]. intro KO; rewrite (all_next i g g' KO E); exact NXT.
Qed.
End One.

(** ** Shape of the code of one instruction *)
(** Statements other than ForceReturn. *)
Definition nret (x : stm) : bool := negb (is_ret x).
Lemma nret_StoreGp : forall r e, forallb nret (StoreGp r e) = true.
Proof. intros. unfold StoreGp. destruct (r =? 0); reflexivity. Qed.
Lemma has_ret_nret : forall l, forallb nret l = true -> has_ret l = false.
Proof. induction l as [|x l IH]; cbn [forallb]; intro E; [reflexivity|]. apply andb_prop in E. destruct E as [E1 E2]. unfold has_ret. cbn [existsb]. unfold nret in E1. destruct (is_ret x); [discriminate|]. apply IH, E2. Qed.
Definition plain_shape (i : rvinst) (ok : bool) (l : list stm) : Prop :=
  (ok = true /\ exists l', l = l' ++ [SPcConst (r_end i)] /\ forallb nret l' = true) \/ (ok = false /\ l = [SPcVal (cI 64 (r_start i))]).
Ltac head x := match x with ?f _ => head f | _ => x end.
Ltac nrtac :=
  repeat match goal with
  | |- forallb nret (_ ++ _) = true => rewrite forallb_app; apply andb_true_intro; split
  | |- forallb nret (StoreGp _ _) = true => apply nret_StoreGp
  | |- forallb nret [] = true => reflexivity
  | |- forallb nret (_ :: _) = true => cbn [forallb nret is_ret negb andb]
  | |- forallb nret (if ?b then _ else _) = true => destruct b
  | |- forallb nret (match ?b with _ => _ end) = true => destruct b
  end.
Lemma lift_other : forall c cfg kc i ok l, fst (rv_cls i) = KOther -> lift_mnem c cfg kc i = Some (ok, l) -> plain_shape i ok l.
Proof.
  intros c cfg kc i ok l K E.
  assert (P : forall m, plain m i = Some (ok, l) -> forallb nret m = true -> plain_shape i ok l).
  { intros m Q F. unfold plain in Q. injection Q as <- <-. left. split; [reflexivity|]. exists m. auto. }
  assert (U : unhandled i = Some (ok, l) -> plain_shape i ok l).
  { intros Q. unfold unhandled in Q. injection Q as <- <-. right. auto. }
  unfold lift_mnem in E. unfold rv_cls in K. cbv zeta in E.
  unfold plain_opt, LiftAmo, LiftFpArith, LiftFcvtFToI in E.
  destruct (r_mn i); try discriminate K; try (destruct (r_rd i =? 0); discriminate K).
  all: try exact (U E).
  all: repeat match type of E with (if ?b then _ else _) = _ => destruct b | match (if ?b then _ else _) with _ => _ end = _ => destruct b end.
  all: try discriminate E; try exact (U E).
  all: apply (P _ E); clear.
  all: try reflexivity; try apply nret_StoreGp.
  all: match goal with |- forallb nret (_ ++ _) = true => idtac | |- forallb nret ?x = true => let h := head x in unfold h end.
  all: cbv zeta; nrtac; reflexivity.
Qed.

(** ** Edges *)
Definition has_call (cfg : lcfg) : bool := match l_call cfg with Some _ => true | None => false end.
(** As decoded: the rs1 field of jumps. *)
Definition rv_dec (i : rvinst) : Prop := (r_mn i = R_JAL \/ r_mn i = R_JALR) -> jal_dec i.
(** A JAL with a link register other than x1 and x5 is not lifted as a call. *)
Definition odd_jal (i : rvinst) : Prop := r_mn i = R_JAL /\ r_rd i <> 0 /\ link (r_rd i) = false.

Lemma hit_one : forall t l a, pc_of l [] = [a] -> hit t l = if t =? a then 1%nat else 0%nat.
Proof. intros t l a E. unfold hit, hits. cbn [cpc plain_lang]. rewrite E. cbn [existsb]. rewrite orb_false_r. reflexivity. Qed.
Lemma hit_none : forall t l, pc_of l [] = [] -> hit t l = 0%nat.
Proof. intros t l E. unfold hit, hits. cbn [cpc plain_lang]. rewrite E. reflexivity. Qed.
Lemma sets_first : forall a l, sets_pc (SPcConst a :: l).
Proof. intros a l p p'. reflexivity. Qed.
Lemma pc_of_StoreGp : forall r e p, pc_of (StoreGp r e) p = p.
Proof. intros. unfold StoreGp. destruct (r =? 0); reflexivity. Qed.

Lemma rv_hit : forall c cfg kc d ok code t, t <> 0 -> rv_dec (d_i _ d) -> r_start (d_i _ d) = d_start _ d ->
  (has_call cfg = true -> ~ odd_jal (d_i _ d)) ->
  d_inh _ d = (match fst (rv_cls (d_i _ d)) with KCall => negb (has_call cfg) | _ => false end) ->
  lift_rv64 c cfg kc None (d_i _ d) = Some (ok, code) ->
  sets_pc code /\ (end_of rvinst d code = BBranch -> (hit t code <= real1 rvinst r_len rv_cls (has_call cfg) t d)%nat).
Proof.
  intros c cfg kc d ok code t T0 RD SD OJ IN L. unfold lift_rv64 in L.
  destruct (lift_mnem c cfg kc (d_i _ d)) as [[b l]|] eqn:LM; [|discriminate]. injection L as <- <-.
  split; [apply sets_first|]. intro EO. set (i := d_i _ d) in *.
  assert (EN : d_end rvinst r_len d = r_end i) by (unfold d_end, add64, r_end; fold i; rewrite SD; reflexivity).
  unfold real1. rewrite EN. unfold d_to, d_kind. fold i.
  assert (T0' : (t =? 0) = false) by lia. rewrite T0'. cbn [negb andb].
  assert (H1 : forall a, pc_of (SPcConst (r_start i) :: l) [] = [a] -> (t = a -> (1 <= (if (snd (rv_cls i) =? t)%Z then 1 else 0) +
     (if follows (has_call cfg) (fst (rv_cls i)) && (r_end i =? t)%Z then 1 else 0))%nat) ->
     (hit t (SPcConst (r_start i) :: l) <= (if (snd (rv_cls i) =? t)%Z then 1 else 0) +
     (if follows (has_call cfg) (fst (rv_cls i)) && (r_end i =? t)%Z then 1 else 0))%nat).
  { intros a P Q. rewrite (hit_one t _ a P). destruct (Z.eqb_spec t a); [auto|lia]. }
  assert (H0 : pc_of (SPcConst (r_start i) :: l) [] = [] -> (hit t (SPcConst (r_start i) :: l) <= (if (snd (rv_cls i) =? t)%Z then 1 else 0) +
     (if follows (has_call cfg) (fst (rv_cls i)) && (r_end i =? t)%Z then 1 else 0))%nat).
  { intros P. rewrite (hit_none t _ P). lia. }
  destruct (fst (rv_cls i)) eqn:K.
  5: { destruct (lift_other c cfg kc i b l K LM) as [(_ & l' & -> & _)|(_ & ->)]; [|apply H0; reflexivity].
       apply (H1 (r_end i)); [cbn [pc_of]; rewrite pc_of_app; reflexivity|]. intros ->. rewrite Z.eqb_refl. cbn [follows andb]. lia. }
  - (* branch *)
    assert (M : (r_mn i = R_JAL \/ r_mn i = R_JALR) /\ r_rd i = 0).
    { unfold rv_cls in K. destruct (r_mn i); try discriminate K; (split; [auto|]); destruct (Z.eqb_spec (r_rd i) 0); [assumption|discriminate K|assumption|discriminate K]. }
    destruct M as [M RD0]. specialize (RD M). unfold lift_mnem in LM.
    assert (E : l = LiftJal cfg i) by (destruct M as [M|M]; rewrite M in LM; injection LM as _ <-; reflexivity). subst l. clear LM.
    unfold LiftJal in *. rewrite RD0 in *. change ((0 =? 1) || (0 =? 5)) with false in *. cbn [negb andb] in *.
    destruct RD as [[MM Q]|[MM Q]].
    + rewrite Q in *. change (128 =? FRV_REG_INV) with true in *. cbn [negb] in *.
      replace (negb (FRV_REG_INV =? FRV_REG_INV)) with false in * by reflexivity.
      apply (H1 (trunc 64 (r_start i + r_imm i))).
      * cbn [pc_of app]. rewrite pc_of_app, pc_of_StoreGp. destruct (l_call cfg); reflexivity.
      * intros ->. unfold rv_cls. rewrite MM, RD0. change (negb (0 =? 0)) with false. cbn [snd]. rewrite Z.eqb_refl. lia.
    + apply H0. destruct (Z.eqb_spec (r_rs1 i) FRV_REG_INV); [contradiction|]. cbn [negb].
      cbn [pc_of app]. rewrite pc_of_app, pc_of_StoreGp. destruct (l_call cfg); [|reflexivity].
      destruct ((r_rs1 i =? 1) || (r_rs1 i =? 5)); reflexivity.
  - (* conditional *)
    assert (M : l = LiftBranch i EQ \/ l = LiftBranch i NE \/ l = LiftBranch i SLT \/ l = LiftBranch i ULT \/ l = LiftBranch i SGE \/ l = LiftBranch i UGE).
    { unfold lift_mnem in LM. unfold rv_cls in K. destruct (r_mn i); try discriminate K; try (destruct (r_rd i =? 0); discriminate K);
      cbv iota in LM; injection LM as _ <-; tauto. }
    assert (TG : snd (rv_cls i) = trunc 64 (r_start i + r_imm i)).
    { unfold rv_cls in *. destruct (r_mn i); try discriminate K; try (destruct (r_rd i =? 0); discriminate K); reflexivity. }
    assert (P : pc_of (SPcConst (r_start i) :: l) [] = [trunc 64 (r_start i + r_imm i); r_end i]).
    { destruct M as [->|[->|[->|[->|[->| ->]]]]]; reflexivity. }
    unfold hit, hits. cbn [cpc plain_lang]. rewrite P, TG. cbn [existsb follows andb].
    rewrite (Z.eqb_sym t), (Z.eqb_sym t). destruct (trunc 64 (r_start i + r_imm i) =? t); destruct (r_end i =? t); cbn [orb]; lia.
  - (* call *)
    assert (M : (r_mn i = R_JAL \/ r_mn i = R_JALR) /\ r_rd i <> 0).
    { unfold rv_cls in K. destruct (r_mn i); try discriminate K; (split; [auto|]); destruct (Z.eqb_spec (r_rd i) 0); [discriminate K|assumption|discriminate K|assumption]. }
    destruct M as [M RD0]. specialize (RD M). unfold lift_mnem in LM.
    assert (E : l = LiftJal cfg i) by (destruct M as [M|M]; rewrite M in LM; injection LM as _ <-; reflexivity). subst l. clear LM.
    unfold end_of in EO. rewrite IN in EO. destruct (cret _); [discriminate|].
    destruct (has_call cfg) eqn:HC; [|discriminate]. specialize (OJ eq_refl). unfold has_call in HC. destruct (l_call cfg) as [f|] eqn:LC; [|discriminate].
    unfold LiftJal in *. rewrite LC in *.
    assert (CE : (1 <= (if (snd (rv_cls i) =? r_end i)%Z then 1 else 0) + (if follows true KCall && (r_end i =? r_end i)%Z then 1 else 0))%nat)
      by (rewrite Z.eqb_refl; cbn [follows andb]; lia).
    fold (link (r_rd i)) (link (r_rs1 i)) in *.
    destruct RD as [[MM Q]|[MM Q]].
    + assert (LK : link (r_rd i) = true) by (destruct (link (r_rd i)) eqn:LL; [reflexivity|exfalso; apply OJ; split; [assumption|split; assumption]]).
      rewrite LK, Q in *. change (link FRV_REG_INV) with false in *. cbn [negb andb orb] in *.
      apply (H1 (r_end i)); [|intros ->; exact CE].
      replace (FRV_REG_INV =? FRV_REG_INV) with true by reflexivity. cbn [pc_of app negb]. rewrite pc_of_app. reflexivity.
    + destruct (Z.eqb_spec (r_rs1 i) FRV_REG_INV); [contradiction|]. cbn [negb] in *.
      destruct (negb (link (r_rd i)) && link (r_rs1 i)).
      * apply H0. cbn [pc_of app]. rewrite pc_of_app, pc_of_StoreGp. reflexivity.
      * destruct (link (r_rd i) && (negb (link (r_rs1 i)) || (r_rs1 i =? r_rd i))).
        -- apply (H1 (r_end i)); [|intros ->; exact CE]. cbn [pc_of app]. rewrite pc_of_app. reflexivity.
        -- apply H0. cbn [pc_of app]. rewrite pc_of_app, pc_of_StoreGp. reflexivity.
  - (* unknown *)
    assert (M : r_mn i = R_ECALL).
    { unfold rv_cls in K. destruct (r_mn i); try discriminate K; try (destruct (r_rd i =? 0); discriminate K); reflexivity. }
    unfold lift_mnem in LM. rewrite M in LM. apply H0.
    destruct (r_imm i =? 0); injection LM as _ <-; [|reflexivity]. cbn [pc_of]. destruct (l_syscall cfg); reflexivity.
Qed.

Lemma decoded_inh : forall Ins ilen icls cf s, decoded_all Ins ilen icls cf s ->
  Forall (fun d => d_inh _ d = match fst (icls (d_i _ d)) with KCall => negb cf | _ => false end) (f_ins _ s).
Proof.
  intros Ins ilen icls cf s D. induction D as [|s dec n a s' D IH X]; [constructor|].
  eapply decode_forall; [| |exact IH|exact X]; [intros d Q; exact Q|].
  intros i cur nb. unfold newd. destruct (icls i) as [k t] eqn:IC. cbn [d_i d_inh]. rewrite IC. reflexivity.
Qed.
