(** Property C66: a lifted function is left only where it has to be, AArch64. *)

From Coq Require Import ZArith Lia ZifyBool List Bool Arith.
From Verif Require Import Bits IR Facet Dsl Rv64Spec Rv64Sim X86Spec A64 A64Spec A64Sim A64Step Rv64Ex Decode DecodeOk LiftFn LiftSim LiftEdge LiftRv LiftA64 LiftExit Prop_LiftA64.
Import ListNotations.
Open Scope Z_scope.

(** ** Specification *)
Definition a_condbr (i : ainst) : bool := match a_op i with A_BCOND | A_CBZ | A_CBNZ | A_TBZ | A_TBNZ => true | _ => false end.
Definition a_callop (i : ainst) : Prop := a_op i = A_BL \/ a_op i = A_BLR.
(** The addresses at which control continues after [i], as far as the instruction tells. *)
Definition a_next (i : ainst) (t : Z) : Prop :=
  match a_op i with
  | A_B => t = (a_start i + a_off i) mod 2^64
  | A_BR | A_RET | A_SVC => False
  | _ => t = (a_start i + 4) mod 2^64 \/ (a_condbr i = true /\ t = (a_start i + a_off i) mod 2^64)
  end.
(** Why a function is left after [i] with the resulting state [g]; see Prop_Exit.v. *)
Inductive a_leaves (cfg : acfg) (at_ : Z -> Z) (dec : Z -> option ainst) (i : ainst) (g : kst) : Prop :=
| al_return : a_op i = A_RET -> a_leaves cfg at_ dec i g
| al_nocall : al_call cfg = None -> a_callop i -> a_leaves cfg at_ dec i g
| al_callret : forall f, al_call cfg = Some f -> a_callop i -> k_pc g <> at_ ((a_start i + 4) mod 2^64) -> a_leaves cfg at_ dec i g
| al_indirect : a_op i = A_BR -> a_leaves cfg at_ dec i g
| al_svc : a_op i = A_SVC -> a_leaves cfg at_ dec i g
| al_zero : k_pc g = at_ 0 -> a_leaves cfg at_ dec i g
| al_undecoded : forall t, a_next i t -> dec t = None -> k_pc g = at_ t -> a_leaves cfg at_ dec i g.

Lemma undef_quiet : forall cfg, has_ret (undef_flags cfg) = false /\ existsb is_callret (undef_flags cfg) = false.
Proof. intros cfg. unfold undef_flags. destruct (al_clobber cfg); split; reflexivity. Qed.
Lemma a_condcode : forall cfg i ok code, a_condbr i = true -> lift_a64 cfg i = Some (ok, code) ->
  exists k, code = [SPcConst (a_start i); SPcCond k (trunc 64 (a_start i + a_off i)) (a_end i)].
Proof.
  intros cfg i ok code M L. unfold lift_a64, lift_op in L; cbv zeta in L. unfold a_condbr in M. destruct (a_op i); try discriminate M.
  1: destruct (IsTrue (a_cond i)) as [k|]; [|discriminate L].
  4-5: destruct (negb _); [discriminate L|].
  all: cbn [jump] in L; injection L as _ <-; eexists; reflexivity.
Qed.
Lemma a_callcode : forall cfg i ok code f, a_callop i -> al_call cfg = Some f -> lift_a64 cfg i = Some (ok, code) ->
  has_ret code = false /\ pc_of code [] = [a_end i].
Proof.
  intros cfg i ok code f M AC L. unfold lift_a64, lift_op in L; cbv zeta in L. rewrite AC in L. pose proof (proj1 (undef_quiet cfg)) as U1. unfold has_ret in *.
  destruct M as [M|M]; rewrite M in *; cbn [jump] in L; injection L as _ <-; cbn [existsb is_ret orb pc_of]; rewrite existsb_app, U1, pc_of_app; split; reflexivity.
Qed.
Lemma a_kinds : forall unk i, fst (a_cls unk i) = KOther \/ a_condbr i = true \/ a_op i = A_B \/ a_op i = A_BR \/ a_callop i \/ a_op i = A_RET \/ a_op i = A_SVC \/ a_op i = A_OTHER.
Proof. intros unk i. unfold a_cls, a_condbr, a_callop. destruct (a_op i); cbn; auto 10. Qed.

(** Return instructions, in call-return mode (a64/main.cc:382-391). *)
Definition a_returns (cfg : acfg) (i : ainst) : Prop := al_call cfg <> None /\ a_op i = A_RET.
Lemma a_ret_code : forall cfg (unk : ainst -> bool) i ok code, lift_a64 cfg i = Some (ok, code) -> (has_ret code = true <-> a_returns cfg i).
Proof.
  intros cfg unk i ok code LF. unfold a_returns.
  assert (U1 : existsb is_ret (undef_flags cfg) = false) by (exact (proj1 (undef_quiet cfg))).
  destruct (a_kinds unk i) as [K|[K|[K|[K|[K|[K|[K|K]]]]]]].
  - assert (NJ : a_op i <> A_RET) by (unfold a_cls in K; intros Q; rewrite Q in K; discriminate K).
    assert (F' : has_ret code = false).
    { destruct (a64_other cfg unk i _ code K LF) as [(_ & l & -> & NR)|(_ & ->)]; [|reflexivity].
      unfold has_ret. cbn [existsb is_ret orb]. rewrite existsb_app. pose proof (has_ret_nret _ NR) as F'. unfold has_ret in F'. rewrite F'. reflexivity. }
    rewrite F'. split; [discriminate|tauto].
  - destruct (a_condcode _ _ _ _ K LF) as (kk & ->). split; [discriminate|]. intros (_ & Q). unfold a_condbr in K. rewrite Q in K. discriminate K.
  - unfold lift_a64, lift_op in LF. rewrite K in LF. injection LF as _ <-. split; [discriminate|]. intros (_ & Q). congruence.
  - unfold lift_a64, lift_op in LF. rewrite K in LF. injection LF as _ <-. split; [discriminate|]. intros (_ & Q). congruence.
  - assert (Q : has_ret code = false).
    { unfold lift_a64, lift_op in LF. destruct K as [K|K]; rewrite K in LF; cbn [jump] in LF; injection LF as _ <-; unfold has_ret; cbn [existsb is_ret orb];
        rewrite !existsb_app, U1; destruct (al_call cfg); reflexivity. }
    rewrite Q. split; [discriminate|]. intros (_ & X). destruct K; congruence.
  - unfold lift_a64, lift_op in LF. rewrite K in LF. cbn [jump] in LF. injection LF as _ <-. unfold has_ret. cbn [existsb is_ret orb]. rewrite !existsb_app, U1. cbn [existsb is_ret orb].
    destruct (al_call cfg); cbn; split; try discriminate; intros X; try reflexivity; try (destruct X as (Q & _); destruct (Q eq_refl)). split; [discriminate|assumption].
  - assert (Q : has_ret code = false) by (unfold lift_a64, lift_op in LF; rewrite K in LF; injection LF as _ <-; destruct (al_syscall cfg); reflexivity).
    rewrite Q. split; [discriminate|]. intros (_ & X). congruence.
  - unfold lift_a64, lift_op in LF. rewrite K in LF. injection LF as _ <-. split; [discriminate|]. intros (_ & Q). congruence.
Qed.

(** ** C66 *)
(** How the lifted function is left; see [a64_function_left] below. *)
Lemma a64_left_how : forall `{FpuOps} c cfg unk fetch dec E ds a0 bs s0 g0,
  c_arch c = AArch64 -> kext_ok c ->
  calls ainst a_len (a_cls unk) dec (a_has_call cfg) E ds ->
  (forall a i, dec a = Some i -> a_start i = a /\ fetch (addr_pc_base c a) = Some i) ->
  alift cfg true (f_ins _ ds) = LFn (a0, bs) ->
  krel s0 g0 -> k_pc g0 = addr_pc_base c a0 ->
  (forall k g i, gsteps (a64_step c cfg fetch) k g0 g -> fetch (k_pc g) = Some i -> a64_good c cfg i g) ->
  forall x0 n e s, enter ainst ds a0 bs s0 = Ok x0 -> lsteps ainst c ds bs n x0 = Ok (CRun _ [] e s) -> lstep ainst c ds bs (CRun _ [] e s) = Ok (COut _ s) ->
  exists k g, gsteps (a64_step c cfg fetch) k g0 g /\ krel s g /\ kpc_at c s g /\
  ((e <> BRet /\ exists i, fetch (k_pc g) = Some i /\ a_unsup i = true) \/
   (exists k' g' i, gsteps (a64_step c cfg fetch) k' g0 g' /\ fetch (k_pc g') = Some i /\ a64_step c cfg fetch g' g /\ a_leaves cfg (addr_pc_base c) dec i g /\ (e = BRet <-> a_returns cfg i))).
Proof.
  intros F c cfg unk fetch dec E ds a0 bs s0 g0 HA EX DC DE L R0 P0 GD x0 n e s E0 EN LST.
  assert (DA : decoded_all ainst a_len (a_cls unk) (a_has_call cfg) ds).
  { clear - DC. induction DC as [|E0 s0 n0 a s' D IH X]; [constructor|]. econstructor; eassumption. }
  pose proof (decoded_cf_decoded _ _ _ _ _ (decoded_all_cf _ _ _ _ _ DA)) as D.
  pose proof (decoded_inh _ _ _ _ _ DA) as FI. rewrite Forall_forall in FI.
  assert (FE : forall d, In d (f_ins _ ds) -> dec (d_start _ d) = Some (d_i _ d)).
  { intros d I0. destruct (calls_cinv _ _ _ _ _ _ _ DC) as [C _]. apply In_nth_error in I0. destruct I0 as [j N]. apply (c_ins _ _ _ _ _ _ _ C j d N). }
  assert (ONE : forall i d s g k, visits ainst c ds a0 bs s0 i s -> gsteps (a64_step c cfg fetch) k g0 g -> nth_error (f_ins _ ds) i = Some d ->
    krel s g -> k_pc g = addr_pc_base c (d_start _ d) -> one_ok ainst a_len (a_cls unk) (a_lf cfg) c kst k_pc (a64_step c cfg fetch) krel i d s g).
  { intros i d s1 g k VI GS N R P ok code LF. pose proof (nth_error_In _ _ N) as I0. destruct (DE _ _ (FE d I0)) as (ST & FD).
    rewrite <- P in FD. assert (P' : k_pc g = addr_pc_base c (a_start (d_i _ d))) by (rewrite ST; exact P).
    destruct (a64_one c HA EX cfg unk (d_i _ d) s1 g R P' fetch FD (GD k g _ GS FD) ok code LF) as (s' & RN & X).
    exists s'. split; [exact RN|]. destruct ok; [|exact X]. destruct X as (g' & X1 & X2 & X3 & X4). exists g'.
    split; [assumption|]. split; [assumption|]. split; [assumption|]. intro KO. rewrite (X4 KO). unfold d_end, add64, a_len. rewrite ST. reflexivity. }
  destruct (left_reason ainst a_len (a_cls unk) (a_lf cfg) c ds kst k_pc (a64_step c cfg fetch) krel a0 bs (decoded_inv _ _ _ _ D) L s0 g0 R0 P0 ONE
    dec (a_has_call cfg) E DC (fun _ => False)
    (fun _ _ code s s' _ _ X => pc_of_run c code s s' X)) with (m := n) (x0 := x0) (e := e) (s := s) as (k & g & GS & RG & PG & W); try assumption.
  { intros m d ok code I0 LF. destruct (DE _ _ (FE d I0)) as (ST & _). right. intros t T0. apply (a64_hit cfg unk d ok code t T0 ST (FI d I0) LF). }
  exists k, g. split; [assumption|]. split; [assumption|]. split; [exact PG|].
  destruct W as [m d code I0 LF PC EE|m d code s1 k' g' I0 LF RN GS' PC GST KO EE RE].
  - left. destruct (DE _ _ (FE d I0)) as (_ & FD).
    split. { rewrite EE. intro Q. apply end_ret in Q. apply (a_ret_code cfg unk _ _ _ LF) in Q. destruct Q as [_ Q].
             unfold a_lf, lift_a64, lift_op in LF. rewrite Q in LF. discriminate LF. }
    exists (d_i _ d). rewrite PC. split; [exact FD|].
    destruct (a_unsup (d_i _ d)) eqn:U; [reflexivity|]. pose proof (sup_lift _ _ _ _ U LF). discriminate.
  - right. destruct (DE _ _ (FE d I0)) as (ST & FD). exists k', g', (d_i _ d). split; [assumption|]. split; [rewrite PC; exact FD|]. split; [assumption|].
    split; [|rewrite EE; etransitivity; [apply end_ret|exact (a_ret_code cfg unk _ _ _ LF)]].
    assert (EN' : d_end ainst a_len d = a_end (d_i _ d)) by (unfold d_end, add64, a_end, a_len; rewrite ST; reflexivity).
    specialize (FI d I0). unfold a_lf in LF. set (i := d_i _ d) in *.
    assert (NO : a_op i <> A_OTHER) by (intro Q; unfold lift_a64, lift_op in LF; rewrite Q in LF; discriminate LF).
    destruct (a_kinds unk i) as [K|[K|[K|[K|[K|[K|[K|K]]]]]]]; [| | |apply al_indirect; exact K| |apply al_return; exact K|apply al_svc; exact K|contradiction].
    + (* no control flow *)
      destruct (a64_other cfg unk i _ code K LF) as [(_ & l & -> & NR)|(Q & _)]; [|discriminate Q].
      assert (P : pc_of (SPcConst (a_start i) :: l ++ [SPcConst (a_end i)]) [] = [a_end i]) by (cbn [pc_of]; rewrite pc_of_app; reflexivity).
      destruct RE as [CR|DI|[]|CR DI DY|v a Q1 Q2 Q3|t T IT PT].
      * exfalso. cbn [cret plain_lang] in CR. unfold has_ret in CR. cbn [existsb is_ret orb] in CR. rewrite existsb_app in CR. pose proof (has_ret_nret _ NR) as F'. unfold has_ret in F'.
        rewrite F' in CR. discriminate CR.
      * rewrite K in FI. congruence.
      * cbn [cpc plain_lang] in DY. rewrite P in DY. discriminate DY.
      * cbn [cpc plain_lang] in Q2. rewrite P in Q2. injection Q2 as <-. specialize (KO K). rewrite EN' in KO. congruence.
      * destruct T as [->|[SS DT]]; [apply al_zero; symmetry; exact PT|].
        destruct (Z.eq_dec t 0) as [->|T0]; [apply al_zero; symmetry; exact PT|].
        apply (al_undecoded _ _ _ _ _ t); [|exact DT|symmetry; exact PT].
        cbn [cpc plain_lang] in IT. rewrite P in IT. destruct IT as [<-|[]]. unfold a_next. clear - K. unfold a_cls in K.
        destruct (a_op i); try discriminate K; left; reflexivity.
    + (* conditional *)
      destruct (a_condcode _ _ _ _ K LF) as (kk & ->).
      destruct RE as [CR|DI|[]|CR DI DY|v a Q1 Q2 Q3|t T IT PT]; try discriminate.
      * rewrite FI in DI. unfold a_cls, a_condbr in *. destruct (a_op i); try discriminate K; discriminate DI.
      * destruct T as [->|[SS DT]]; [apply al_zero; symmetry; exact PT|].
        apply (al_undecoded _ _ _ _ _ t); [|exact DT|symmetry; exact PT].
        cbn [cpc plain_lang pc_of In] in IT. unfold a_next, a_condbr in *. destruct IT as [<-|[<-|[]]]; destruct (a_op i); try discriminate K;
          first [left; reflexivity|right; split; reflexivity].
    + (* B *)
      assert (CE : code = [SPcConst (a_start i); SPcConst (trunc 64 (a_start i + a_off i))]).
      { unfold lift_a64, lift_op in LF; cbv zeta in LF. rewrite K in LF. cbn [jump] in LF. injection LF as <-. reflexivity. }
      subst code. destruct RE as [CR|DI|[]|CR DI DY|v a Q1 Q2 Q3|t T IT PT]; try discriminate.
      * rewrite FI in DI. unfold a_cls in DI. rewrite K in DI. discriminate DI.
      * exfalso. eapply run_ncheck_const; [exact RN|reflexivity|exact Q1].
      * destruct T as [->|[SS DT]]; [apply al_zero; symmetry; exact PT|].
        apply (al_undecoded _ _ _ _ _ t); [|exact DT|symmetry; exact PT].
        cbn [cpc plain_lang pc_of In] in IT. destruct IT as [<-|[]]. unfold a_next. rewrite K. reflexivity.
    + (* call *)
      destruct (al_call cfg) as [f|] eqn:AC; [|apply al_nocall; assumption].
      destruct (a_callcode _ _ _ _ _ K AC LF) as [HR P].
      assert (KC : fst (a_cls unk i) = KCall) by (unfold a_cls; destruct K as [K|K]; rewrite K; reflexivity).
      destruct RE as [CR|DI|[]|CR DI DY|v a Q1 Q2 Q3|t T IT PT].
      * cbn [cret plain_lang] in CR. congruence.
      * rewrite FI, KC in DI. unfold a_has_call in DI. rewrite AC in DI. discriminate DI.
      * cbn [cpc plain_lang] in DY. rewrite P in DY. discriminate DY.
      * cbn [cpc plain_lang] in Q2. rewrite P in Q2. injection Q2 as <-. apply (al_callret _ _ _ _ _ f); [exact AC|exact K|]. intro Q. apply Q3. symmetry. exact Q.
      * destruct T as [->|[SS DT]]; [apply al_zero; symmetry; exact PT|].
        apply (al_undecoded _ _ _ _ _ t); [|exact DT|symmetry; exact PT].
        cbn [cpc plain_lang] in IT. rewrite P in IT. destruct IT as [<-|[]]. unfold a_next. destruct K as [K|K]; rewrite K; left; reflexivity.
Qed.
(** AArch64; compare [rv64_function_left_partial]. *)
Theorem a64_function_left : forall `{FpuOps} c cfg unk fetch dec E ds a0 bs s0 g0,
  c_arch c = AArch64 -> kext_ok c ->
  calls ainst a_len (a_cls unk) dec (a_has_call cfg) E ds ->
  (forall a i, dec a = Some i -> a_start i = a /\ fetch (addr_pc_base c a) = Some i) ->
  alift cfg true (f_ins _ ds) = LFn (a0, bs) ->
  krel s0 g0 -> k_pc g0 = addr_pc_base c a0 ->
  (forall k g i, gsteps (a64_step c cfg fetch) k g0 g -> fetch (k_pc g) = Some i -> a64_good c cfg i g) ->
  forall x0 n s, enter ainst ds a0 bs s0 = Ok x0 -> lsteps ainst c ds bs n x0 = Ok (COut _ s) ->
  exists k g, gsteps (a64_step c cfg fetch) k g0 g /\ krel s g /\ kpc_at c s g /\
  ((exists i, fetch (k_pc g) = Some i /\ a_unsup i = true) \/
   (exists k' g' i, gsteps (a64_step c cfg fetch) k' g0 g' /\ fetch (k_pc g') = Some i /\ a64_step c cfg fetch g' g /\ a_leaves cfg (addr_pc_base c) dec i g)).
Proof.
  intros F c cfg unk fetch dec E ds a0 bs s0 g0 HA EX DC DE L R0 P0 GD x0 n s E0 EN.
  assert (DA : decoded_all ainst a_len (a_cls unk) (a_has_call cfg) ds).
  { clear - DC. induction DC as [|E0 s0 n0 a s' D IH X]; [constructor|]. econstructor; eassumption. }
  pose proof (decoded_inv _ _ _ _ (decoded_cf_decoded _ _ _ _ _ (decoded_all_cf _ _ _ _ _ DA))) as IV.
  destruct (out_from ainst a_len (a_cls unk) (a_lf cfg) c ds a0 bs IV L s0 n x0 s E0 EN) as (m & e & _ & EM & ST).
  destruct (a64_left_how c cfg unk fetch dec E ds a0 bs s0 g0 HA EX DC DE L R0 P0 GD x0 m e s E0 EM ST) as (k & g & X1 & X2 & X3 & X4).
  exists k, g. split; [assumption|]. split; [assumption|]. split; [assumption|].
  destruct X4 as [[_ X4]|(k' & g' & i & Y1 & Y2 & Y3 & Y4 & _)]; [left; exact X4|right; exists k', g', i; auto].
Qed.
Print Assumptions a64_function_left.

(** ** Examples *)
Lemma ads_loop_calls : calls ainst a_len (a_cls aunk) (aprog ap_loop) (a_has_call acfg_call) [0x1000] ads_loop.
Proof. eapply (calls1 _ _ _ _ _ [] (dst0 _) 20%nat 0x1000); [apply calls0|]. vm_compute. reflexivity. Qed.
Example ex_a64_function_left : forall `{FpuOps} s0 g0, krel s0 g0 -> k_pc g0 = 0x1000 ->
  forall x0 n s, enter ainst ads_loop 0x1000 abs_loop s0 = Ok x0 -> lsteps ainst ac_ret ads_loop abs_loop n x0 = Ok (COut _ s) ->
  exists k g, gsteps (a64_step ac_ret acfg_call (aprog ap_loop)) k g0 g /\ krel s g /\ kpc_at ac_ret s g /\
  ((exists i, aprog ap_loop (k_pc g) = Some i /\ a_unsup i = true) \/
   (exists k' g' i, gsteps (a64_step ac_ret acfg_call (aprog ap_loop)) k' g0 g' /\ aprog ap_loop (k_pc g') = Some i /\
      a64_step ac_ret acfg_call (aprog ap_loop) g' g /\ a_leaves acfg_call (addr_pc_base ac_ret) (aprog ap_loop) i g)).
Proof.
  intros F s0 g0 R P.
  apply (a64_function_left ac_ret acfg_call aunk (aprog ap_loop) (aprog ap_loop) [0x1000] ads_loop 0x1000 abs_loop s0 g0).
  - reflexivity.
  - exact kext_ret.
  - exact ads_loop_calls.
  - intros a i Q.
    assert (IN : In a [0x1000; 0x1004; 0x1008; 0x100c]).
    { unfold ap_loop in Q. cbn [aprog a_start amk] in Q. cbn [In].
      repeat match type of Q with (if ?x =? ?y then _ else _) = _ => destruct (Z.eqb_spec x y); [tauto|] end. discriminate Q. }
    cbn [In] in IN. destruct IN as [<-|[<-|[<-|[<-|[]]]]]; vm_compute in Q; injection Q as <-; split; reflexivity.
  - reflexivity.
  - exact R.
  - rewrite P. reflexivity.
  - intros k g i GS FE.
    assert (IN : In i ap_loop).
    { unfold ap_loop, aprog in FE. cbn [amk a_start] in FE.
      repeat match type of FE with (if ?b then _ else _) = _ => destruct b eqn:? end; try discriminate; injection FE as <-; cbn; auto. }
    repeat (destruct IN as [<-|IN]; [unfold a64_good; cbn [a_unsup a_op amk]; split; [discriminate|]; split; [reflexivity|]; split; [|split; [reflexivity|exact I]]; intros fg Q; destruct Q|]). destruct IN.
Qed.
(** The conditional branch of the loop does not leave it. *)
Example ex_a64_not_left : forall g, k_pc g = 0x1000 -> ~ a_leaves acfg_call (addr_pc_base ac_ret) (aprog ap_loop) (amk A_CBNZ (RX 3) (RX 0) 0 (-8) 0x1008) g.
Proof.
  intros g P L. destruct L as [A|A B|f A B C|A|A|A|t A B C]; try discriminate; try (destruct B; discriminate).
  - rewrite P in A. discriminate.
  - cbn in A. destruct A as [->|[_ ->]]; discriminate B.
Qed.
