(** AArch64 system instructions and moves between the register files. *)

From Coq Require Import ZArith Lia ZifyBool List Bool.
From Verif Require Import Bits IR Facet Dsl Rv64Spec Rv64Sim Rv64Arith X86Spec X86Arith A64 A64Spec A64Arith A64Sim A64Dp A64Mem.
Import ListNotations.
Open Scope Z_scope.
Ltac Zify.zify_post_hook ::= Z.div_mod_to_equations.

Definition wf_sys (i : ainst) : bool :=
  okx (a_rd i) && okx (a_rn i) && okq (a_vd i) && okq (a_vn i) && okq (a_vm i) &&
  match a_op i with
  | A_DMB => negb (a_imm i mod 4 =? 0)
  | A_FCSEL => cond_ok i
  | A_FMOV_VEC2GPR => 8 * fsz_bytes (a_fsz i) <=? bits (a_w32 i)
  | A_FMOV_GPR2VEC => 8 * fsz_bytes (a_fsz i) =? bits (a_w32 i)
  | _ => true
  end.

Section Sys.
Context `{FpuOps}.
Variable c : cenv.
Hypothesis HA : c_arch c = AArch64.
Variable cfg : acfg.
Notation kv := (kv c).
Notation kvals := (kvals c).
Notation lifts := (lifts c cfg).
Variable i : ainst.
Variable g : kst.
Hypothesis PC : k_pc g = addr_pc_base c (a_start i).
Let w := bits (a_w32 i).
Let p := PcConst (a_start i).

Lemma sys_end : forall g1 vs rt, k_pc g1 = k_pc g -> K c g1 p vs rt [SPcConst (a_end i)] (kdone c (wrpc g1 (k_pc g + 4)) (PcConst (a_end i)) rt).
Proof. intros g1 vs rt P. rewrite <- P at 1. apply K_end; [rewrite P; exact PC|apply kle_refl]. Qed.
Lemma sys_end_le : forall g1 g2 vs rt, kle g1 g2 -> k_pc g2 = k_pc g -> K c g1 p vs rt [SPcConst (a_end i)] (kdone c (wrpc g2 (k_pc g + 4)) (PcConst (a_end i)) rt).
Proof. intros g1 g2 vs rt L P. rewrite <- P at 1. apply K_end; [rewrite P; exact PC|exact L]. Qed.
Lemma set_gp : forall e w0 z v g1, kv g p vs0 e w0 z -> 0 < w0 <= 64 -> inr w0 z -> okx (a_rd i) = true -> z = U w0 v -> g1 = wrx g (a_rd i) w0 v ->
  lift_op cfg i = go (Some (SetGp (a_rd i) e)) -> lifts i g (wrpc g1 (k_pc g + 4)).
Proof.
  intros e w0 z v g1 E W0 Z0 O ZV -> LO. eapply lifts_go; [exact LO|]. intro rt. eapply K_setgp; [exact E|exact W0|exact Z0|exact O|reflexivity|exact ZV|].
  apply sys_end. destruct (a_rd i); reflexivity.
Qed.
Lemma set_q : forall e t v, kvals g p vs0 e (V t v) -> inr 128 v -> okq (a_vd i) = true ->
  lift_op cfg i = go (Some (SetScalar (a_vd i) e)) -> lifts i g (wrpc (wrq g (a_vd i) v) (k_pc g + 4)).
Proof.
  intros e t v E V0 O LO. eapply lifts_go; [exact LO|]. intro rt. cbn [SetScalar app]. eapply (K_setq c HA); [exact E|exact O|exact V0|].
  apply sys_end. reflexivity.
Qed.
Lemma fsz_pos : forall z, 0 < 8 * fsz_bytes z <= 128.
Proof. intros []; cbn; lia. Qed.
Lemma kv_q : forall r z, okq r = true -> z <> FSZ_Q -> kv g p vs0 (GetScalar r z false) (8 * fsz_bytes z) (U (8 * fsz_bytes z) (k_q g r)).
Proof.
  intros r z O N s rt (R & _). unfold val, GetScalar, ev, rG. cbn [eval leaf_val]. rewrite (kr_q _ _ R r) by (unfold okq in O; lia). destruct z; [reflexivity..|contradiction].
Qed.
Lemma kvals_q : forall r f t z, okq r = true -> get_facet (Some (k_q g r)) f = V t z -> kvals g p vs0 (rG (VEC r) f) (V t z).
Proof.
  intros r f t z O E s rt (R & _). unfold ev, rG. cbn [eval leaf_val]. rewrite (kr_q _ _ R r) by (unfold okq in O; lia). rewrite E. reflexivity.
Qed.
Lemma kvals_sel : forall k a b q t x y, kv g p vs0 k 1 (b2z q) -> kvals g p vs0 a (V t x) -> kvals g p vs0 b (V t y) ->
  kvals g p vs0 (eSel k a b) (V t (if q then x else y)).
Proof.
  intros k a b q t x y E A B s rt R. pose proof (E s rt R) as VK. pose proof (A s rt R) as VA. pose proof (B s rt R) as VB.
  unfold val, ev in *. unfold eSel. cbn [eval]. rewrite VK, VA, VB. cbn [bind sem3]. unfold sel_sem. cbn [ty_of]. rewrite ty_eqb_refl. destruct q; reflexivity.
Qed.
Lemma bit_div : forall z k, 0 <= k -> trunc 1 (z / 2^k) = b2z (Z.testbit z k).
Proof. intros z k K0. unfold trunc. change (2^1) with 2. rewrite <- (Z.testbit_spec' z k K0). destruct (Z.testbit z k); reflexivity. Qed.
Lemma zva_mask : forall t, inr 64 t -> Z.land t (trunc 64 (-64)) = t - t mod 64.
Proof.
  intros t T. change (trunc 64 (-64)) with (trunc 64 (Z.lnot (ones 6 * 2^0))). rewrite (clear_val 64) by (assumption || lia).
  change (2^0) with 1. rewrite Z.div_1_r, Z.mul_1_r. reflexivity.
Qed.

Lemma K_settp : forall rt e z l Q, kv g p vs0 e 64 z -> inr 64 z -> K c (wrtp g z) p vs0 rt l Q -> K c g p vs0 rt (SSet TPIDR e :: l) Q.
Proof.
  intros rt e z l Q E Z0 T s A. pose proof (E s rt A) as EV. unfold val in EV. destruct A as (R & P & VS & RT). cbn [run run1]. rewrite EV. cbn [bind set_cell].
  unfold TPIDR. rewrite nat_gp, (trunc_small 64 _ Z0). apply T. split; [|auto].
  destruct R as [A B C D F G I J L M]. split; cbn [wrtp k_x k_sp k_f k_q k_tp k_m with_reg s_reg s_mem]; unfold upd_reg, TPIDR, A64_SP in *; intros; cbn [areg_eqb]; auto.
  - destruct (Z.eqb_spec 256 n); [lia|auto].
  - destruct f; cbn [areg_eqb kcell]; apply (F _ _ H0).
Qed.
Lemma K_memset : forall rt ea a l Q, kvals g p vs0 ea (V TPtr a) ->
  K c (wrm g (fun x => if (U 64 (x - a) <? 64) && (0 <=? x) && (x <? 2^64) then 0 else k_m g x)) p vs0 rt l Q -> K c g p vs0 rt (SMemset ea (cI 8 0) (cI 64 64) :: l) Q.
Proof.
  intros rt ea a l Q E T s A. pose proof (E s rt A) as EV. destruct A as (R & P & VS & RT). cbn [run run1]. rewrite EV. cbn [bind].
  change (ev c s (cI 8 0)) with (Ok (V (TInt 8) 0)). change (ev c s (cI 64 64)) with (Ok (V (TInt 64) 64)). cbn [bind].
  change (ty_eqb (ty_of (V TPtr a)) TPtr && ty_eqb (ty_of (V (TInt 8) 0)) (TInt 8) && ty_eqb (ty_of (V (TInt 64) 64)) (TInt 64)) with true. cbv iota.
  apply T. split; [|auto]. apply krel_mem; [exact R|]. intro x. rewrite (kr_m _ _ R). reflexivity.
Qed.

Theorem sys_step : forall g', wf_sys i = true -> flags_known i g -> ksys i g = Some g' -> lifts i g (wrpc g' (k_pc g + 4)).
Proof.
  intros g' WF FK S. unfold wf_sys in WF. apply andb_prop in WF. destruct WF as [WF XC]. apply andb_prop in WF. destruct WF as [WF QM].
  apply andb_prop in WF. destruct WF as [WF QN]. apply andb_prop in WF. destruct WF as [WF QD]. apply andb_prop in WF. destruct WF as [OD ON].
  pose proof (bits_pos (a_w32 i)) as WP. fold w in WP.
  set (fb := 8 * fsz_bytes (a_fsz i)) in *. pose proof (fsz_pos (a_fsz i)) as FB. fold fb in FB.
  assert (TI : inr 64 (rdx g (a_rd i) 64)) by (apply rdx_inr; lia).
  assert (QI : forall v, inr 128 (U fb v)) by (intro v; apply (inr_le fb); [lia|apply trunc_range; lia]).
  pose proof (kv_gp c g p vs0 (a_rd i) false OD) as ED. cbn [bits] in ED.
  pose proof (fun b => kv_gp c g p vs0 (a_rn i) b ON) as EN.
  unfold flags_known, reads in FK. unfold ksys in S. cbv zeta in S. fold fb in S. fold (bits (a_w32 i)) in S. fold w in S.
  destruct (a_op i) eqn:E; try discriminate S; cbv beta iota zeta in XC.
  - (* HINT *) injection S as <-. eapply lifts_go; [unfold lift_op; rewrite E; reflexivity|]. intro rt. apply sys_end. reflexivity.
  - (* DMB *) injection S as <-. apply negb_true_iff in XC. eapply lifts_go; [unfold lift_op; rewrite E, XC; reflexivity|]. intro rt. apply sys_end. reflexivity.
  - (* MSR *) destruct (a_imm i =? 0xde82) eqn:E1.
    + injection S as <-. eapply lifts_go; [unfold lift_op; rewrite E, E1; reflexivity|]. intro rt. cbn [app].
      eapply K_settp; [exact ED|exact TI|]. apply sys_end. reflexivity.
    + destruct (a_imm i =? 0xda10) eqn:E2; [|discriminate S]. injection S as <-.
      eapply lifts_go; [unfold lift_op; rewrite E, E1, E2; reflexivity|]. intro rt. cbn [app].
      eapply K_let; [apply kv_vals; exact ED|]. set (t := rdx g (a_rd i) 64) in *.
      assert (BT : forall g0 k, 0 <= k < 64 -> kv g0 p (upd_var vs0 0 (V (TInt 64) t)) (eTrunc 1 (eLShr (vX 0) (cI 64 k))) 1 (b2z (Z.testbit t k))).
      { intros g0 k K0. rewrite <- bit_div by lia. eapply kv_trunc; [eapply kv_lshr; [apply kv_var; reflexivity|apply kv_c|]|lia|]; try lia.
        - unfold inr. change (2^64) with 18446744073709551616. lia.
        - apply div_inr; [lia|lia|exact TI]. }
      apply (K_setflag c _ _ _ _ fN _ _ _ _ (BT _ 31 ltac:(lia))). apply (K_setflag c _ _ _ _ fZ _ _ _ _ (BT _ 30 ltac:(lia))).
      apply (K_setflag c _ _ _ _ fC _ _ _ _ (BT _ 29 ltac:(lia))). apply (K_setflag c _ _ _ _ fV _ _ _ _ (BT _ 28 ltac:(lia))).
      apply sys_end_le; [|reflexivity]. repeat split; auto. intros f b. destruct f; cbn [setf wrf k_f kflag_eqb nzcv]; auto.
  - (* CFINV *) injection S as <-. eapply lifts_go; [unfold lift_op; rewrite E; reflexivity|]. intro rt. cbn [app].
    apply (K_setflag c _ _ _ _ fC _ (negb (fl g fC))); [apply kv_not1; apply (kv_flag c g p vs0 fC); apply FK; left; reflexivity|].
    apply sys_end_le; [|reflexivity]. repeat split; auto. intros f b. destruct f; cbn [setf wrf k_f kflag_eqb]; auto.
  - (* DC ZVA *) destruct (a_imm i =? 0x1ba1) eqn:E1; [|discriminate S]. injection S as <-.
    eapply lifts_go; [unfold lift_op; rewrite E, E1; reflexivity|]. intro rt. cbn [app].
    eapply K_memset; [|apply sys_end; reflexivity].
    rewrite <- zva_mask by exact TI. apply kvals_toptr; [apply kv_and; [exact ED|apply kv_cI]|]. rewrite zva_mask by exact TI. unfold inr in *. lia.
  - (* MRS *) destruct (a_imm i =? 0xde82) eqn:E1.
    + injection S as <-. assert (kv g p vs0 (rG TPIDR I64) 64 (U 64 (k_tp g))).
      { intros s rt (R & _). unfold val, ev, rG. cbn [eval leaf_val]. rewrite (kr_tp _ _ R). reflexivity. }
      eapply (set_gp _ 64); [eassumption|lia|apply trunc_range; lia|exact OD|reflexivity|reflexivity|unfold lift_op; rewrite E, E1; reflexivity].
    + destruct (a_imm i =? 0xda10) eqn:E2; [|discriminate S]. injection S as <-. fold p in FK.
      assert (BF : forall f k, In f [fN; fZ; fC; fV] -> 0 <= k < 64 -> kv g p vs0 (eShl (eZExt 64 (GetFlag (kcell f))) (cI 64 k)) 64 (trunc 64 (b2z (fl g f) * 2^k))).
      { intros f k I0 K0. apply kv_shl; [eapply kv_zext; [apply kv_flag; apply FK; exact I0|lia]|apply kv_c|lia].
        unfold inr. change (2^64) with 18446744073709551616. lia. }
      eapply (set_gp _ 64); [|lia| |exact OD| |reflexivity|unfold lift_op; rewrite E, E1, E2; reflexivity].
      * apply kv_or; [apply kv_or; [apply kv_or; [apply kv_or; [apply kv_cI|]|]|]|];
        [apply (BF fN 31)|apply (BF fZ 30)|apply (BF fC 29)|apply (BF fV 28)]; cbn [In]; (lia || tauto).
      * destruct (fl g fN), (fl g fZ), (fl g fC), (fl g fV); vm_compute; split; congruence.
      * destruct (fl g fN), (fl g fZ), (fl g fC), (fl g fV); reflexivity.
  - (* FCSEL *) injection S as <-. unfold cond_ok in XC. destruct (kv_IsTrue c g p vs0 (a_cond i) ltac:(lia) FK) as (k & K1 & K2).
    replace (U fb (if cond_holds (a_cond i) g then k_q g (a_vn i) else k_q g (a_vm i)))
      with (if cond_holds (a_cond i) g then U fb (k_q g (a_vn i)) else U fb (k_q g (a_vm i))) by (destruct (cond_holds (a_cond i) g); reflexivity).
    eapply set_q; [|destruct (cond_holds (a_cond i) g); apply QI|exact QD|unfold lift_op; rewrite E, K1; reflexivity].
    apply kvals_sel; [exact K2|apply (kvals_scalar c i g); exact QN|apply (kvals_scalar c i g); exact QM].
  - (* FMOV to general *) injection S as <-. assert (NQ : a_fsz i <> FSZ_Q) by (intro Q; unfold fb in XC; rewrite Q in XC; cbn [fsz_bytes] in XC; fold w in XC; lia).
    eapply (set_gp _ fb); [apply kv_q; [exact QN|exact NQ]|fold w in XC; lia|apply trunc_range; lia|exact OD| | |unfold lift_op; rewrite E; reflexivity].
    + instantiate (1 := U fb (k_q g (a_vn i))). change U with trunc. symmetry. apply trunc_trunc. lia.
    + assert (EQ : U w (U fb (k_q g (a_vn i))) = U fb (U fb (k_q g (a_vn i)))).
      { change U with trunc. fold w in XC. rewrite trunc_trunc by lia. apply trunc_small. apply (inr_le fb); [lia|apply trunc_range; lia]. }
      destruct (a_rd i); unfold wrx; rewrite ?EQ; reflexivity.
  - (* FMOV from general *) injection S as <-. apply Z.eqb_eq in XC. fold w in XC. rewrite XC.
    eapply set_q; [|apply (inr_le w); [lia|apply trunc_range; lia]|exact QD|unfold lift_op; rewrite E; reflexivity].
    change U with trunc. rewrite (trunc_small w) by (apply rdx_inr; lia). apply kv_vals, EN.
  - (* FMOV from the upper half *) injection S as <-.
    assert (E1 : kv g p vs0 (E1 (OExtract 1) (rG (VEC (a_vn i)) V2I64)) 64 (U 64 (k_q g (a_vn i) / 2^64))).
    { intros s rt A. pose proof (kvals_q (a_vn i) V2I64 _ _ QN eq_refl s rt A) as EV. unfold val, ev in *. cbn [eval]. rewrite EV. cbn [bind sem1]. unfold extract_sem. cbn [ty_of facet_type facet_type_opt].
      change ((0 <=? 1) && (1 <? 2)) with true. cbv iota. do 2 f_equal. destruct A as (R & _). unfold lane. cbn [tsize].
      rewrite Z.shiftr_div_pow2 by lia. rewrite (trunc_small _ (k_q g (a_vn i))); [reflexivity|]. apply (kr_qr _ _ R). unfold okq in QN. lia. }
    eapply (set_gp _ 64); [exact E1|lia|apply trunc_range; lia|exact OD|reflexivity|reflexivity|unfold lift_op; rewrite E; reflexivity].
  - (* FMOV into the upper half *) injection S as <-. eapply lifts_go; [unfold lift_op; rewrite E; reflexivity|]. intro rt. cbn [SetScalar app].
    set (v := U 64 (k_q g (a_vd i)) + rdx g (a_rn i) 64 * 2^64).
    assert (NI : inr 64 (rdx g (a_rn i) 64)) by (apply rdx_inr; lia).
    assert (LI : inr 64 (U 64 (k_q g (a_vd i)))) by (apply trunc_range; lia).
    assert (VI : inr 128 v). { unfold v, inr in *. change (2^128) with (2^64 * 2^64). nia. }
    eapply (K_setq c HA) with (t := TVec 2 (TInt 64)) (v := v); [|exact QD|exact VI|apply sys_end; reflexivity].
    intros s r A. pose proof (kvals_q (a_vd i) V2I64 _ _ QD eq_refl s r A) as EV. pose proof (EN false s r A) as EW. unfold val, ev in *. cbn [eval]. rewrite EV, EW.
    cbn [bind sem2]. unfold insert_sem. cbn [ty_of facet_type facet_type_opt bits ty_eqb]. change ((64 =? 64) && (0 <=? 1) && (1 <? 2)) with true. cbv iota.
    do 2 f_equal. cbn [tsize]. change (Z.to_nat 1) with 1%nat. destruct A as (R & _).
    rewrite (trunc_small _ (k_q g (a_vd i))) by (apply (kr_qr _ _ R); unfold okq in QD; lia).
    unfold v. unfold lanes. change (Z.to_nat 2) with 2%nat. cbn [lanes_from upd_nth unlanes]. unfold lane. rewrite Z.mul_0_r, Z.shiftr_0_r. change U with trunc. ring.
  - (* FMOV between SIMD&FP registers *) injection S as <-. eapply set_q; [apply (kvals_scalar c i g); exact QN|apply QI|exact QD|unfold lift_op; rewrite E; reflexivity].
Qed.
End Sys.
