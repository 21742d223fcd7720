(** AArch64 SIMD and floating-point instructions as one step of the whole lifter. *)

From Coq Require Import ZArith Lia ZifyBool List Bool.
From Verif Require Import Bits IR Facet Dsl Rv64Spec Rv64FpSpec Rv64Sim Rv64Arith X86Spec X86Arith X86SseVec.
From Verif Require Import A64Base A64Simd A64SimdMem A64SimdFp A64 A64Spec A64Arith A64Sim A64Dp A64Br A64Mem A64Sys A64SimdSpec A64SimdMemSpec A64SimdFpSpec
  A64SimdVec A64SimdEval A64SimdInt A64SimdMemOk A64SimdFpOk A64SimdFpEq.
Import A64Simd(fop, sop). Import A64Base(fsz).
Import ListNotations.
Open Scope Z_scope.
Ltac Zify.zify_post_hook ::= Z.div_mod_to_equations.

(** ** Specification *)
Definition kvec `{FpuOps} (v : vinst) (g : kst) : option kst :=
  match v_op v with
  | VI o => kint v g o
  | VM o => kmemv v g o
  | VF o => kfp v g o
  | VS o => ksfp v g o
  end.
(** FCCMP and FCCMPE. *)
Definition kfccmp (i : ainst) (g : kst) : option (kflag -> option bool) :=
  match a_op i, sfmt (a_fsz i) with
  | A_FCCMP, Some z =>
    Some (if cond_holds (a_cond i) g then fpcompare (frel z (U (fwid z) (k_q g (a_vn i))) (U (fwid z) (k_q g (a_vm i))))
          else nzcv (Z.testbit (a_nzcv i) 3) (Z.testbit (a_nzcv i) 2) (Z.testbit (a_nzcv i) 1) (Z.testbit (a_nzcv i) 0))
  | _, _ => None
  end.
Definition ksimd `{FpuOps} (i : ainst) (g : kst) : option kst :=
  match a_op i with
  | A_VEC v => kvec v g
  | A_FCCMP => match kfccmp i g with Some f => Some (wrf g f) | None => None end
  | _ => None
  end.

(** Encodings covered. *)
Definition wf_vec (v : vinst) : bool :=
  match v_op v with VI o => wf_int v o | VM o => wf_memv v o | VF o => wf_fp v o | VS o => wf_sfp v o end.
Definition wf_simd (i : ainst) : bool :=
  match a_op i with
  | A_VEC v => wf_vec v
  | A_FCCMP => okq (a_vn i) && okq (a_vm i) && cond_ok i
  | _ => false
  end.
(** Operands outside the corner cases of Prop_A64Simd.v in which the lifted code is wrong. *)
Definition vdef `{FpuOps} (v : vinst) (g : kst) : Prop :=
  match v_op v with
  | VI o => idef v g o
  | VM _ => True
  | VF o => fpu_ieee /\ forall z, vfmt (v_va v) = Some z -> fdef v g z o
  | VS o => fpu_ieee /\ forall z, sfmt (v_fsz v) = Some z -> sdef v g z o
  end.
Definition simd_def `{FpuOps} (i : ainst) (g : kst) : Prop :=
  match a_op i with A_VEC v => vdef v g | A_FCCMP => fpu_ieee | _ => True end.

Lemma kvec_ok : forall `{FpuOps} c v g g', c_arch c = AArch64 -> wf_vec v = true -> vdef v g -> kvec v g = Some g' -> vok c (lift_vec v) g g'.
Proof.
  intros F c v g g' HA WF D S. unfold wf_vec, vdef, kvec, lift_vec in *. destruct (v_op v) as [o|o|o|o].
  - destruct (int_ok c v g o HA WF D) as (g1 & K1 & K2). rewrite K1 in S. injection S as <-. exact K2.
  - destruct (memv_ok c HA v g o WF) as (g1 & K1 & K2). rewrite K1 in S. injection S as <-. exact K2.
  - destruct D as [D1 D2]. apply (fp_ok D1 c v g o g' HA WF S D2).
  - destruct D as [D1 D2]. apply (sfp_ok D1 c v g o g' HA WF S D2).
Qed.

Lemma wrx_pc : forall g r w z, k_pc (wrx g r w z) = k_pc g.
Proof. intros g [] w z; reflexivity. Qed.
Lemma fold_wrq_pc : forall {A} (l : list A) f r g, k_pc (fold_left (fun g j => wrq g (r j) (f j)) l g) = k_pc g.
Proof. intros A l f r. induction l as [|a l IH]; intro g; [reflexivity|]. cbn [fold_left]. rewrite IH. reflexivity. Qed.
Lemma kvec_pc : forall `{FpuOps} v g g', kvec v g = Some g' -> k_pc g' = k_pc g.
Proof.
  intros F v g g' S. unfold kvec in S. destruct (v_op v) as [o|o|o|o].
  - unfold kint in S. repeat match type of S with
      | (match ?x with _ => _ end) = _ => destruct x end; try discriminate S; injection S as <-; try apply wrx_pc; reflexivity.
  - unfold kmemv in S. destruct (kbase v g o) as [g1|] eqn:B; [|discriminate S].
    assert (P1 : k_pc g1 = k_pc g) by (unfold kbase in B; destruct (v_am v); try discriminate B; injection B as <-; try reflexivity; apply wrx_pc).
    destruct (is_store o); injection S as <-; [exact P1|]. rewrite fold_wrq_pc. exact P1.
  - unfold kfp in S. apply ob_some in S. destruct S as (z & _ & S). apply ob_some in S. destruct S as (x & _ & S). injection S as <-. reflexivity.
  - unfold ksfp in S. apply ob_some in S. destruct S as (z & _ & S). unfold ksfp_z in S.
    destruct o; repeat match type of S with
      | ob _ _ = Some _ => let y := fresh "y" in let q := fresh "q" in apply ob_some in S; destruct S as (y & q & S)
      | (match ?x with _ => _ end) = _ => destruct x end; try discriminate S; injection S as <-; try apply wrx_pc; reflexivity.
Qed.

Section Step.
Context `{FpuOps}.
Variable c : cenv.
Hypothesis HA : c_arch c = AArch64.
Variable cfg : acfg.
Notation kv := (kv c).
Notation kvals := (kvals c).
Notation lifts := (lifts c cfg).
Variable i : ainst.
Variable g : kst.
Hypothesis PC : k_pc g = addr_pc_base c (a_start i).
Let p := PcConst (a_start i).

Lemma kle_sel : forall F cond b3 b2 b1 b0, (forall f, exists b, F f = Some b) ->
  kle (setf (setf (setf (setf (wrf g F) fN (if cond : bool then fl (wrf g F) fN else b3)) fZ (if cond then fl (wrf g F) fZ else b2)) fC (if cond then fl (wrf g F) fC else b1)) fV (if cond then fl (wrf g F) fV else b0))
    (wrf g (if cond then F else nzcv b3 b2 b1 b0)).
Proof.
  intros F cond b3 b2 b1 b0 FD. split; [reflexivity|]. split; [reflexivity|]. split; [|auto].
  intros f b. cbn [setf wrf k_f]. unfold fl. cbn [wrf k_f setf]. destruct f; cbn [kflag_eqb]; destruct cond; auto; intro Q; rewrite Q; reflexivity.
Qed.
Lemma fccmp_step : forall f, fpu_ieee -> okq (a_vn i) = true -> okq (a_vm i) = true -> cond_ok i = true -> flags_known i g -> kfccmp i g = Some f ->
  lifts i g (wrpc (wrf g f) (k_pc g + 4)).
Proof.
  intros f FI ON OM CO FK S. unfold kfccmp in S. unfold flags_known, reads in FK. destruct (a_op i) eqn:O; try discriminate S.
  destruct (sfmt (a_fsz i)) as [z|] eqn:SZ; [|discriminate S]. injection S as <-.
  assert (LO : lift_op cfg i = go (LiftFCCmp i)) by (unfold lift_op; rewrite O; reflexivity).
  unfold cond_ok in CO. unfold LiftFCCmp in LO.
  destruct (IsTrue (a_cond i)) as [k|] eqn:IT; [|destruct (kv_IsTrue c g p vs0 (a_cond i) ltac:(lia) FK) as (k & K1 & _); congruence].
  assert (VK : forall vs, kv g p vs k 1 (b2z (cond_holds (a_cond i) g))).
  { intro vs. destruct (kv_IsTrue c g p vs (a_cond i) ltac:(lia) FK) as (k' & K1 & K2). rewrite IT in K1. injection K1 as <-. exact K2. }
  set (cond := cond_holds (a_cond i) g) in *.
  set (x := U (fwid z) (k_q g (a_vn i))) in *. set (y := U (fwid z) (k_q g (a_vm i))) in *.
  assert (TF : facet_type (sc_facet (a_fsz i) true) = fty z) by (destruct (a_fsz i); try discriminate SZ; injection SZ as <-; reflexivity).
  assert (GX : forall r, get_facet (Some (k_q g r)) (sc_facet (a_fsz i) true) = V (fty z) (U (fwid z) (k_q g r)))
    by (intro r; destruct (a_fsz i); try discriminate SZ; injection SZ as <-; reflexivity).
  assert (IX : inr (fwid z) x) by (apply trunc_inr; destruct z; cbn; lia).
  assert (IY : inr (fwid z) y) by (apply trunc_inr; destruct z; cbn; lia).
  eapply lifts_go; [exact LO|]. intro rt. rewrite <- !app_assoc. cbn [app]. rewrite TF. unfold FlagCalcFP. cbn [app].
  eapply K_let with (v := V (fty z) x). { unfold GetScalar, x. rewrite <- GX. apply (kvals_rd c); exact ON. }
  eapply K_let with (v := V (fty z) y). { unfold GetScalar, y. rewrite <- GX. apply (kvals_rd c); exact OM. }
  eapply K_let; [apply kv_vals, VK|].
  assert (KC : forall pr b vs g0, fpu_op (FCmp pr) (fty z) (TInt 1) [x; y] = Some (b2z b) -> vs 0%nat = Some (V (fty z) x) -> vs 1%nat = Some (V (fty z) y) ->
    kvals g0 p vs (X86Sse.eFCmp pr (fty z) (vX 0) (vX 1)) (V (TInt 1) (b2z b))).
  { intros pr b vs g0 EB V0 V1 s rt0 (_ & _ & VS & _).
    assert (P0 : psh c (Dsl.s_var s) (vX 0) Sc (fty z) (fun _ => x)).
    { replace x with (trunc (tsize (fty z) * 1) x) in V0 by (rewrite Z.mul_1_r; apply trunc_small; destruct z; exact IX).
      pose proof (psh_var c (Dsl.s_var s) 0 Sc (fty z) x (VS _ _ V0) ltac:(destruct z; cbn; lia) ltac:(cbn; lia)) as P.
      eapply psh_ext; [exact P|cbn; lia|]. intros j J. cbn in J. replace j with 0 by lia. rewrite Ln0. apply trunc_small. destruct z; exact IX. }
    assert (P1 : psh c (Dsl.s_var s) (vX 1) Sc (fty z) (fun _ => y)).
    { replace y with (trunc (tsize (fty z) * 1) y) in V1 by (rewrite Z.mul_1_r; apply trunc_small; destruct z; exact IY).
      pose proof (psh_var c (Dsl.s_var s) 1 Sc (fty z) y (VS _ _ V1) ltac:(destruct z; cbn; lia) ltac:(cbn; lia)) as P.
      eapply psh_ext; [exact P|cbn; lia|]. intros j J. cbn in J. replace j with 0 by lia. rewrite Ln0. apply trunc_small. destruct z; exact IY. }
    pose proof (pso_fcmp c (Dsl.s_var s) pr (vX 0) (vX 1) Sc (fty z) _ _ (pso_in c _ _ _ _ _ P0 ltac:(cbn; lia)) (pso_in c _ _ _ _ _ P1 ltac:(cbn; lia))
      ltac:(destruct z; exact I) ltac:(destruct z; reflexivity) ltac:(destruct z; cbn; lia)) as Q.
    assert (PQ : psh c (Dsl.s_var s) (X86Sse.eFCmp pr (fty z) (vX 0) (vX 1)) Sc (TInt 1) (fun _ => b2z b)).
    { apply Q. intros j J. cbn [ob]. unfold fpo. rewrite EB. cbn [option_map tsize]. apply (f_equal Some). apply trunc_small. apply inr_b2z. lia. }
    apply (proj1 PQ s eq_refl). }
  destruct (fi_cmp FI z x y IX IY) as (CE & _ & _ & CL & _ & CU).
  set (r := frel z x y) in *.
  eapply K_let; [apply (KC P_UNO (r_un r)); [exact CU|reflexivity|reflexivity]|].
  eapply K_let; [apply (KC P_OEQ (r_eq r)); [exact CE|reflexivity|reflexivity]|].
  eapply K_let; [apply (KC P_OLT (r_lt r)); [exact CL|reflexivity|reflexivity]|].
  match goal with |- K c _ _ ?vs1 _ _ _ => assert (V2 : vs1 2%nat = Some (V (TInt 1) (b2z cond))) by reflexivity;
    assert (V5 : vs1 5%nat = Some (V (TInt 1) (b2z (r_un r)))) by reflexivity;
    assert (V6 : vs1 6%nat = Some (V (TInt 1) (b2z (r_eq r)))) by reflexivity;
    assert (V7 : vs1 7%nat = Some (V (TInt 1) (b2z (r_lt r)))) by reflexivity; set (vs := vs1) in * end.
  apply (K_setflag c _ _ _ _ fN _ (r_lt r)). { apply kv_var. exact V7. }
  apply (K_setflag c _ _ _ _ fZ _ (r_eq r)). { apply kv_var. exact V6. }
  apply (K_setflag c _ _ _ _ fC _ (negb (r_lt r))). { apply (kv_not1 c). apply kv_var. exact V7. }
  apply (K_setflag c _ _ _ _ fV _ (r_un r)). { apply kv_var. exact V5. }
  eapply K_weaken; [apply kle_nzcv'|].
  replace (nzcv (r_lt r) (r_eq r) (negb (r_lt r)) (r_un r)) with (fpcompare r) by (destruct r as [[]|]; reflexivity).
  assert (FD : forall f, exists b, fpcompare r f = Some b) by (intro f; destruct r as [[]|]; destruct f; eexists; reflexivity).
  apply (K_flag_sel c i g _ _ _ fN cond _ _ _ V2). { cbn [wrf k_f]. destruct (FD fN) as [b ->]. discriminate. }
  apply (K_flag_sel c i g _ _ _ fZ cond _ _ _ V2). { cbn [setf wrf k_f kflag_eqb]. destruct (FD fZ) as [b ->]. discriminate. }
  apply (K_flag_sel c i g _ _ _ fC cond _ _ _ V2). { cbn [setf wrf k_f kflag_eqb]. destruct (FD fC) as [b ->]. discriminate. }
  apply (K_flag_sel c i g _ _ _ fV cond _ _ _ V2). { cbn [setf wrf k_f kflag_eqb]. destruct (FD fV) as [b ->]. discriminate. }
  apply (sys_end_le c i g PC); [|reflexivity]. exact (kle_sel (fpcompare r) cond _ _ _ _ FD).
Qed.

Theorem simd_step : forall g', wf_simd i = true -> flags_known i g -> simd_def i g -> ksimd i g = Some g' -> lifts i g (wrpc g' (k_pc g + 4)).
Proof.
  intros g' WF FK D S. unfold wf_simd, simd_def, ksimd in *. destruct (a_op i) eqn:O; try discriminate S.
  - destruct (kfccmp i g) as [f|] eqn:E; [|discriminate S]. injection S as <-. do 2 (apply andb_true_iff in WF as [WF ?]). apply fccmp_step; assumption.
  - destruct (kvec_ok c v g g' HA WF D S) as (l & L & T). eapply lifts_go; [unfold lift_op; rewrite O, L; reflexivity|].
    intro rt. apply T. intro vs. apply (sys_end c i g PC). apply (kvec_pc v g g' S).
Qed.
End Step.
