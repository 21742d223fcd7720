(** Why a lifted function is left, for any architecture. *)

From Coq Require Import ZArith Lia ZifyBool List Bool Arith.
From Verif Require Import Bits IR Facet Dsl Decode DecodeOk LiftFn LiftSim LiftEdge.
Import ListNotations.
Open Scope Z_scope.

Section Exit.
Context {LA : lang}.
Variable Ins : Type.
Variable ilen : Ins -> Z.
Variable icls : Ins -> kind * Z.
Variable lf : nat -> Ins -> option (bool * Code LA).
Context `{FpuOps}.
Variable c : cenv.
Variable ds : dst Ins.
Variable G : Type.
Variable gpc : G -> Z.
Variable gstep : G -> G -> Prop.
Variable R : st -> G -> Prop.
Variable a0 : Z.
Variable bs : list (lblock Ins).
Hypothesis V : inv Ins ilen icls ds.
Hypothesis L : lift Ins lf true (f_ins _ ds) = LFn (a0, bs).
Variable s0 : st.
Variable g0 : G.
Hypothesis R0 : R s0 g0.
Hypothesis P0 : gpc g0 = addr_pc_base c a0.
Hypothesis ONE : forall i d s g k, visits Ins c ds a0 bs s0 i s -> gsteps gstep k g0 g -> nth_error (f_ins _ ds) i = Some d ->
  R s g -> gpc g = addr_pc_base c (d_start _ d) -> one_ok Ins ilen icls lf c G gpc gstep R i d s g.

(** The PC [s_pc s] does not lead to a block: it is a computed value, it is that of a
    call which did not return behind itself, or no block starts at its address. *)
Definition left_pc (s : st) (g : G) : Prop :=
  pc_addrs (s_pc s) = [] \/
  (exists v a, s_pc s = PcCheck v a /\ addr_pc_base c a <> gpc g) \/
  (exists t, In t (pc_addrs (s_pc s)) /\ addr_pc_base c t = gpc g /\ resolve Ins ds t = false).

(** The function is left in [s], corresponding to the guest state [g]: either [g] is
    about to execute an instruction that is not supported, or the guest has just
    executed an instruction after which control leaves the function. *)
Inductive why (e : bend) (s : st) (g : G) : Prop :=
| why_unsupported : forall i d code, nth_error (f_ins _ ds) i = Some d -> lf i (d_i _ d) = Some (false, code) ->
    gpc g = addr_pc_base c (d_start _ d) -> e = end_of Ins d code -> why e s g
| why_after : forall i d code s1 k g', nth_error (f_ins _ ds) i = Some d -> lf i (d_i _ d) = Some (true, code) ->
    crun c s1 code = Ok s -> gsteps gstep k g0 g' -> gpc g' = addr_pc_base c (d_start _ d) -> gstep g' g ->
    (d_kind _ icls d = KOther -> gpc g = addr_pc_base c (d_end _ ilen d)) ->
    match nth_error (f_ins _ ds) (S i) with Some d' => d_new _ d' = true | None => True end ->
    e = end_of Ins d code -> (e = BBranch -> left_pc s g) -> why e s g.

Lemma branch_left : forall s g t k a1 a2, pc_is c G gpc s g -> pc_branch c (s_pc s) = Ok (k, a1, a2) -> target k a1 a2 = Ok t ->
  resolve Ins ds t = false -> left_pc s g.
Proof.
  intros s g t k a1 a2 PC PB TG RT. unfold pc_is in PC. unfold left_pc. destruct (s_pc s) as [v|a|kk b1 b2|v a]; cbn [pc_addrs]; [left; reflexivity|..].
  - right. right. cbn [pc_branch] in PB. injection PB as <- <- <-. cbn [target] in TG. injection TG as <-. cbn [pc_value] in PC. injection PC as PC.
    rewrite Z.add_0_r in PC. exists a. split; [left; reflexivity|]. split; [exact PC|]. change (1 =? 0) with false in RT. exact RT.
  - right. right. cbn [pc_branch] in PB. injection PB as -> -> ->. destruct k as [u z|]; [|discriminate]. cbn [target] in TG. injection TG as TG.
    exists t. split; [subst t; destruct (z =? 0); cbn [In]; auto|]. split; [|exact RT].
    cbn [pc_value] in PC. rewrite !Z.add_0_r in PC. unfold sel_sem in PC. cbn [ty_of ty_eqb] in PC. change (64 =? 64) with true in PC. cbv iota in PC.
    assert (Q : (if z =? 0 then IR.V (TInt 64) (addr_pc_base c a2) else IR.V (TInt 64) (addr_pc_base c a1)) = IR.V (TInt 64) (gpc g)).
    { destruct u as [w| | | |n [u| | | |]]; try discriminate; try (repeat (destruct w as [|w|w]; try discriminate)); try (repeat (destruct u as [|u|u]; try discriminate)).
      injection PC as PC. destruct (z =? 0); congruence. }
    destruct (z =? 0); subst; injection Q as Q; exact Q.
  - right. cbn [pc_value] in PC. change (0 =? 0) with true in PC. injection PC as ->.
    cbn [pc_branch] in PB. unfold cmp_sem in PB. cbn [ty_of ty_eqb] in PB. change (64 =? 64) with true in PB. cbn [icmp_sem bind andb] in PB.
    injection PB as <- <- <-. cbn [target] in TG. injection TG as <-.
    destruct (Z.eqb_spec (gpc g) (addr_pc_base c a)) as [Q|Q]; cbn [b2z] in RT.
    + right. exists a. split; [left; reflexivity|]. split; [symmetry; exact Q|exact RT].
    + left. exists (IR.V (TInt 64) (gpc g)), a. split; [reflexivity|]. congruence.
Qed.

(** At the end of a block's code, when the next step leaves the function. *)
Lemma left_why : forall m x0 e s, enter Ins ds a0 bs s0 = Ok x0 -> lsteps Ins c ds bs m x0 = Ok (CRun _ [] e s) ->
  lstep Ins c ds bs (CRun _ [] e s) = Ok (COut _ s) ->
  exists k g, gsteps gstep k g0 g /\ R s g /\ pc_is c G gpc s g /\ why e s g.
Proof.
  intros m x0 e s E0 EM ST. destruct m as [|m].
  { injection EM as ->. destruct (enter_ok Ins ilen icls lf ds a0 bs V L s0) as (b & i & d & E & _ & _ & _ & BC). rewrite E in E0. injection E0 as E1 E2 E3. rewrite E1 in BC. inversion BC. }
  rewrite lsteps_snoc in EM. destruct (sim_steps Ins ilen icls lf c ds G gpc gstep R a0 bs V L s0 g0 R0 P0 ONE m x0 E0) as (x & EX & IN). rewrite EX in EM. cbn [bind] in EM.
  destruct x as [segs e1 s1|s1]; [|discriminate]. destruct segs as [|[[i d] code] segs].
  { (* blocks are not empty *)
    exfalso. destruct e1; cbn [lstep] in EM; try discriminate.
    destruct (pc_branch c (s_pc s1)) as [[[kk a1] a2]| |]; cbn [bind] in EM; try discriminate. destruct (target kk a1 a2) as [t| |]; cbn [bind] in EM; try discriminate.
    destruct (goto_code Ins ilen icls lf ds a0 bs V L _ _ _ _ _ EM) as (i & BC). inversion BC. }
  destruct IN as (k & g' & GS & RS & [(i' & d' & BC & N & PC & CN)|[(Q & _)|(Q & _)]]); [|discriminate..].
  cbn [lstep] in EM. destruct (crun c s1 code) as [s'| |] eqn:RN; cbn [bind] in EM; try discriminate. injection EM as -> -> ->.
  assert (VI : visits Ins c ds a0 bs s0 i s1) by (exists m, x0, d, code, [], e; auto).
  inversion BC as [j dj cj N' LF X1 X2 X3|j dj cj N' LF NX X1 X2 X3|j dj cj d2 sg e' N' LF HR NX NN BC' X1 X2 X3]; subst.
  - rewrite N in N'. injection N' as <-. destruct (ONE i d' s1 g' k VI GS N RS PC _ _ LF) as (s2 & RN2 & X). rewrite RN in RN2. injection RN2 as <-.
    destruct X as (X1 & X2 & _). exists k, g'. split; [assumption|]. split; [assumption|]. split; [assumption|]. eapply why_unsupported; eauto.
  - rewrite N in N'. injection N' as <-. destruct (ONE i d' s1 g' k VI GS N RS PC _ _ LF) as (s2 & RN2 & X). rewrite RN in RN2. injection RN2 as <-.
    destruct X as (g & X1 & X2 & X3 & X4). exists (S k), g. split; [econstructor; eassumption|]. split; [assumption|]. split; [assumption|].
    eapply why_after; try eassumption; [reflexivity|]. intro EB. rewrite EB in ST. cbn [lstep] in ST.
    destruct (pc_branch c (s_pc s)) as [[[kk a1] a2]| |] eqn:PB; cbn [bind] in ST; try discriminate. destruct (target kk a1 a2) as [t| |] eqn:TG; cbn [bind] in ST; try discriminate.
    eapply branch_left; try eassumption. unfold goto in ST. destruct (resolve Ins ds t); [|reflexivity]. destruct (block_at Ins bs t); discriminate.
  - inversion BC'.
Qed.

(** A step that leaves the function starts at the end of a block's code. *)
Lemma out_from : forall n x0 s, enter Ins ds a0 bs s0 = Ok x0 -> lsteps Ins c ds bs n x0 = Ok (COut _ s) ->
  exists m e, (m < n)%nat /\ lsteps Ins c ds bs m x0 = Ok (CRun _ [] e s) /\ lstep Ins c ds bs (CRun _ [] e s) = Ok (COut _ s).
Proof using V L.
  clear ONE R0 P0 g0 R gstep gpc G. intros n x0 s E0. induction n as [|n IH]; intro E.
  - injection E as ->. destruct (enter_ok Ins ilen icls lf ds a0 bs V L s0) as (b & i & d & EE & _). rewrite EE in E0. discriminate.
  - rewrite lsteps_snoc in E. destruct (lsteps Ins c ds bs n x0) as [x| |] eqn:EN; cbn [bind] in E; try discriminate.
    destruct x as [segs e s1|s1].
    + destruct segs as [|[[i d] code] segs].
      * assert (s1 = s) as ->.
        { destruct e; cbn [lstep] in E; [congruence..|]. destruct (pc_branch c (s_pc s1)) as [[[kk a1] a2]| |]; cbn [bind] in E; try discriminate.
          destruct (target kk a1 a2) as [t| |]; cbn [bind] in E; try discriminate. unfold goto in E. destruct (resolve Ins ds t); [destruct (block_at Ins bs t); discriminate|congruence]. }
        exists n, e. auto.
      * cbn [lstep] in E. destruct (crun c s1 code); discriminate.
    + injection E as ->. destruct (IH eq_refl) as (m & e & LT & X). exists m, e. split; [lia|exact X].
Qed.

(** ** Functions decoded by ll_func_decode_cfg *)
Variable dec : Z -> option Ins.
Variable cf : bool.
Variable E : list Z.
Hypothesis DC : calls Ins ilen icls dec cf E ds.
(** A static successor of [d]: the target of a direct branch, or the next instruction. *)
Definition static_succ (d : dinst Ins) (t : Z) : Prop :=
  d_to _ icls d = t \/ (follows cf (d_kind _ icls d) = true /\ d_end _ ilen d = t).

(** A static successor has a block unless there is no instruction. *)
Lemma unresolved : forall i d t, nth_error (f_ins _ ds) i = Some d ->
  match nth_error (f_ins _ ds) (S i) with Some d' => d_new _ d' = true | None => True end ->
  t <> 0 -> static_succ d t -> resolve Ins ds t = false -> dec t = None.
Proof.
  intros i d t N NX T0 ST RT. destruct (dec t) as [j|] eqn:DT; [|reflexivity]. exfalso.
  destruct (calls_cinv _ _ _ _ _ _ _ DC) as [C _]. destruct (c_ins _ _ _ _ _ _ _ C i d N) as [RD DD].
  assert (RT' : reach Ins ilen icls dec cf E t).
  { eapply reachS; [exact RD|exact DD|]. destruct ST as [Q|[Q1 Q2]]; [left; split; [exact Q|assumption]|right; split; [exact Q1|symmetry; exact Q2]]. }
  destruct (proj2 (calls_exact _ _ _ _ _ _ _ DC t)) as (d' & I' & S'); [split; [assumption|congruence]|].
  assert (NW : d_new _ d' = true).
  { destruct ST as [Q|[Q1 Q2]].
    - eapply (calls_blocks _ _ _ _ _ _ _ DC i d t d' N I' S'). left. auto.
    - destruct (nth_error (f_ins _ ds) (S i)) as [y|] eqn:NY.
      + destruct (d_new _ d') eqn:W; [reflexivity|]. rewrite <- W.
        eapply (calls_blocks _ _ _ _ _ _ _ DC i d t d' N I' S'). right. split; [assumption|]. split; [assumption|]. right. rewrite NY. intro Q. injection Q as ->. congruence.
      + eapply (calls_blocks _ _ _ _ _ _ _ DC i d t d' N I' S'). right. split; [assumption|]. split; [assumption|]. right. rewrite NY. discriminate. }
  destruct (In_nth_error _ _ I') as [j' NJ]. pose proof (v_ins _ _ _ _ V j' d' NJ) as [X1 X2]. rewrite S' in X1, X2.
  unfold resolve in RT. rewrite X1, X2, NJ, NW in RT. assert (t =? 0 = false) as Q by lia. rewrite Q in RT. discriminate RT.
Qed.

(** What is needed about the code of the instructions: the block addresses it leaves
    in the PC are static successors. [exc]: instructions for which that is not so. *)
Variable exc : Ins -> Prop.
Hypothesis CPC : forall n d code s s', In d (f_ins _ ds) -> lf n (d_i _ d) = Some (true, code) -> crun c s code = Ok s' ->
  pc_addrs (s_pc s') = cpc code (pc_addrs (s_pc s)).
Hypothesis HIT : forall n d ok code, In d (f_ins _ ds) -> lf n (d_i _ d) = Some (ok, code) -> exc (d_i _ d) \/
  (forall t, t <> 0 -> sets_pc code /\ (end_of Ins d code = BBranch -> (hit t code <= real1 Ins ilen icls cf t d)%nat)).

(** Reasons to leave after an instruction [d] with the given code: it is a return; a
    call that is not followed; its successor is computed; a call that returned
    elsewhere; or a static successor at which there is no instruction. *)
Inductive reason (s : st) (g : G) (d : dinst Ins) (code : Code LA) : Prop :=
| re_ret : cret code = true -> reason s g d code
| re_inh : d_inh _ d = true -> reason s g d code
| re_exc : exc (d_i _ d) -> reason s g d code
| re_dyn : cret code = false -> d_inh _ d = false -> cpc code [] = [] -> reason s g d code
| re_check : forall v a, s_pc s = PcCheck v a -> cpc code [] = [a] -> addr_pc_base c a <> gpc g -> reason s g d code
| re_static : forall t, (t = 0 \/ (static_succ d t /\ dec t = None)) -> In t (cpc code []) -> addr_pc_base c t = gpc g -> reason s g d code.
Inductive whyc (e : bend) (s : st) (g : G) : Prop :=
| whyc_unsupported : forall i d code, In d (f_ins _ ds) -> lf i (d_i _ d) = Some (false, code) ->
    gpc g = addr_pc_base c (d_start _ d) -> e = end_of Ins d code -> whyc e s g
| whyc_after : forall i d code s1 k g', In d (f_ins _ ds) -> lf i (d_i _ d) = Some (true, code) -> crun c s1 code = Ok s ->
    gsteps gstep k g0 g' -> gpc g' = addr_pc_base c (d_start _ d) -> gstep g' g ->
    (d_kind _ icls d = KOther -> gpc g = addr_pc_base c (d_end _ ilen d)) -> e = end_of Ins d code -> reason s g d code -> whyc e s g.

Lemma left_reason : forall m x0 e s, enter Ins ds a0 bs s0 = Ok x0 -> lsteps Ins c ds bs m x0 = Ok (CRun _ [] e s) ->
  lstep Ins c ds bs (CRun _ [] e s) = Ok (COut _ s) ->
  exists k g, gsteps gstep k g0 g /\ R s g /\ pc_is c G gpc s g /\ whyc e s g.
Proof.
  intros m x0 e s E0 EM ST. destruct (left_why m x0 e s E0 EM ST) as (k & g & GS & RG & PG & W). exists k, g. split; [assumption|]. split; [assumption|]. split; [assumption|].
  destruct W as [i d code N LF PC EE|i d code s1 k' g' N LF RN GS' PC GST KO NX EE LP].
  - eapply whyc_unsupported; eauto using nth_error_In.
  - pose proof (nth_error_In _ _ N) as I0. eapply whyc_after; try eassumption.
    destruct (HIT i d true code I0 LF) as [X|HT]; [apply re_exc; exact X|]. destruct (HT 1 ltac:(lia)) as [SP _].
    unfold end_of in EE. destruct (cret code) eqn:CR; [apply re_ret; assumption|]. destruct (d_inh _ d) eqn:DI; [apply re_inh; assumption|].
    assert (PA : pc_addrs (s_pc s) = cpc code []) by (rewrite (CPC _ _ _ _ _ I0 LF RN); apply SP).
    destruct (LP EE) as [Q|[(v & a & Q1 & Q2)|(t & Q1 & Q2 & Q3)]].
    + apply re_dyn; congruence.
    + eapply re_check; [exact Q1| |exact Q2]. rewrite <- PA, Q1. reflexivity.
    + apply (re_static _ _ _ _ t); [|rewrite <- PA; exact Q1|exact Q2]. destruct (Z.eq_dec t 0) as [|T0]; [left; assumption|right].
      assert (SS : static_succ d t).
      { assert (EO : end_of Ins d code = BBranch) by (unfold end_of; rewrite CR, DI; reflexivity). destruct (HT t T0) as [_ HT']. specialize (HT' EO).
        unfold hit, hits in HT'. rewrite <- PA in HT'.
        assert (EX : existsb (Z.eqb t) (pc_addrs (s_pc s)) = true) by (apply existsb_exists; exists t; split; [exact Q1|apply Z.eqb_refl]).
        rewrite EX in HT'. unfold real1 in HT'. unfold static_succ.
        destruct (d_to _ icls d =? t) eqn:X1; [left; lia|]. rewrite andb_false_r in HT'.
        destruct (follows cf (d_kind _ icls d)) eqn:X2; [|cbn [andb] in HT'; lia]. destruct (d_end _ ilen d =? t) eqn:X3; [right; split; [reflexivity|lia]|cbn [andb] in HT'; lia]. }
      split; [exact SS|]. eapply unresolved; eassumption.
Qed.
End Exit.
(** The end of a block's code is a return if its last instruction has one. *)
Lemma end_ret : forall {LA : lang} Ins (d : dinst Ins) (code : Code LA), end_of Ins d code = BRet <-> cret code = true.
Proof. intros LA Ins d code. unfold end_of. destruct (cret code); [tauto|]. destruct (d_inh _ d); split; discriminate. Qed.

(** Only SetIP with a call-return check (SPcCallret) makes the PC a checked one. *)
Definition ncheck (p : pcreg) : Prop := match p with PcCheck _ _ => False | _ => True end.
Definition is_callret (x : stm) : bool := match x with SPcCallret _ => true | _ => false end.
Lemma run_ncheck : forall `{FpuOps} c l s s', run c s l = Ok s' -> existsb is_callret l = false -> ncheck (s_pc s) -> ncheck (s_pc s').
Proof.
  intros F c. induction l as [|x l IH]; intros s s' E NC NK; cbn [run] in E; [injection E as <-; exact NK|].
  cbn [existsb] in NC. apply orb_false_elim in NC. destruct NC as [NX NC].
  destruct (run1 c s x) as [s1| |] eqn:E1; cbn [bind] in E; try discriminate E. apply (IH _ _ E NC). clear E IH.
  destruct x; try discriminate NX; cbn [run1] in E1; unfold bind in E1;
    repeat match type of E1 with
    | match ?e with _ => _ end = Ok _ => destruct e; try discriminate E1
    | (if ?e then _ else _) = Ok _ => destruct e; try discriminate E1
    end; try (injection E1 as <-); try exact NK; exact I.
Qed.
Lemma run_ncheck_const : forall `{FpuOps} c l a s s' v b, run c s (SPcConst a :: l) = Ok s' -> existsb is_callret l = false -> s_pc s' = PcCheck v b -> False.
Proof.
  intros F c l a s s' v b E NC Q. cbn [run run1 bind] in E. pose proof (run_ncheck c l _ s' E NC I) as X. rewrite Q in X. exact X.
Qed.
