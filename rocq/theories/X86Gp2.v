(** More per-instruction correctness of the x86-64 general-purpose lifter. *)

From Coq Require Import ZArith Lia ZifyBool List Bool.
From Verif Require Import Bits IR Facet Dsl Rv64 Rv64Spec Rv64Sim Rv64Arith Rv64Int X86 X86Spec X86Arith X86Sim X86Ops X86Gp.
Import ListNotations.
Open Scope Z_scope.
Ltac Zify.zify_post_hook ::= Z.div_mod_to_equations.

Ltac gle_flags := repeat split; auto; let f := fresh in let b := fresh in intros f b; destruct f; cbn; auto.
Lemma one_inr : forall w, 0 < w -> inr w 1.
Proof. intros w W. unfold inr. assert (2^1 <= 2^w) by (apply Z.pow_le_mono_r; lia). change (2^1) with 2 in *. lia. Qed.
Lemma rd_byte : forall n m a k, 0 <= k < Z.of_nat n -> (rd_mem m a n / 256 ^ k) mod 256 = m (U 64 (a + k)) mod 256.
Proof.
  induction n as [|n IH]; intros m a k K; [lia|]. cbn [rd_mem]. pose proof (X86Ops.rd_mem_inr n m a) as R. unfold inr in R.
  replace (2 ^ (8 * Z.of_nat n)) with (256 ^ Z.of_nat n) in R by (rewrite Z.pow_mul_r by lia; reflexivity).
  assert (P : 0 < 256 ^ k) by (apply Z.pow_pos_nonneg; lia).
  destruct (Z.eq_dec k (Z.of_nat n)) as [->|NE].
  - rewrite Z.div_add by lia. rewrite Z.div_small by exact R. rewrite Z.add_0_l, Z.mod_mod by lia. reflexivity.
  - rewrite <- (IH m a k) by lia. replace (Z.of_nat n) with (k + 1 + (Z.of_nat n - k - 1)) at 2 by lia.
    rewrite !Z.pow_add_r by lia. change (256 ^ 1) with 256. set (q := m _ mod 256). set (t := 256 ^ (Z.of_nat n - k - 1)).
    replace (q * (256 ^ k * 256 * t)) with (q * t * 256 * 256 ^ k) by ring. rewrite Z.div_add by lia. apply Z.mod_add. lia.
Qed.
Lemma mem_same : forall n m a x, (forall y, 0 <= m y < 256) -> wr_mem m a n (rd_mem m a n) x = m x.
Proof.
  intros n m a x B. unfold wr_mem. destruct ((U 64 (x - a) <? Z.of_nat n) && (0 <=? x) && (x <? 2 ^ 64)) eqn:Q; [|reflexivity].
  assert (K : 0 <= U 64 (x - a) < Z.of_nat n) by (unfold U in *; lia). rewrite rd_byte by exact K.
  replace (U 64 (a + U 64 (x - a))) with x; [apply Z.mod_small, B|].
  change U with trunc. rewrite trunc_add_r by lia. replace (a + (x - a)) with x by lia. symmetry. apply trunc_small. unfold inr. lia.
Qed.

Section Gp.
Context `{FpuOps}.
Variable c : cenv.
Variable cfg : xcfg.
Hypothesis HA : c_arch c = X86_64.
Hypothesis GB : gbase_ok c.
Notation G := (G c).
Notation vals := (vals c).
Notation done := (done c).
Variables (kc kcp : areg -> konst) (i : xinst) (g : xst) (rt : bool).
Hypothesis IP : y_ip g = addr_pc_base c (x_end i).
Hypothesis W0 : wf_op (x_op0 i) = true.
Hypothesis W1 : wf_op (x_op1 i) = true.
Hypothesis W2 : wf_op (x_op2 i) = true.
Hypothesis O0 : good_op cfg (x_op0 i) = true.
Hypothesis O1 : good_op cfg (x_op1 i) = true.
Hypothesis O2 : good_op cfg (x_op2 i) = true.
Hypothesis KC : xkc_sound kc g.
Hypothesis SH : shape_ok i = true.
Hypothesis LK : x_lock i = true -> op_ismem (x_op0 i) = true.
Hypothesis LB : x_lock i = true -> lockable (x_mn i) = true.
Notation p := (PcConst (x_end i)).
Notation ok := (ok c i g rt).

Ltac shp MN := unfold shape_ok in SH; rewrite MN in SH; cbv zeta beta iota in SH;
  repeat match goal with H : _ && _ = true |- _ => apply andb_prop in H; destruct H end.
Ltac side := match goal with
  | |- _ = addr_pc_base _ _ => first [exact IP | rewrite ?wr_op_ip, ?wr_loc_ip; exact IP]
  | |- xkc_sound _ _ => exact KC
  | |- op_val _ = true => first [assumption | apply op_rm_val; assumption | apply op_rm_val, op_isreg_rm; assumption]
  | |- op_rm _ = true => first [assumption | apply op_isreg_rm; assumption | apply op_ismem_rm; auto]
  | |- _ => first [assumption | reflexivity | lia]
  end.
Ltac ld := eapply G_OpLoad; [exact GB|side|side|side|side|side|].
Ltac nilr := match goal with |- X86Sim.G _ _ _ _ _ ?l _ => rewrite <- (app_nil_r l) end.
Ltac stv x := unfold OpStoreGp; eapply G_OpStore with (v := x); [assumption|exact GB|side|side|side|side|side|side| |].
Ltac fin := apply G_done; [|apply pcv_const; cbn [y_ip forget set_f set1]; rewrite ?wr_op_ip; exact IP].
Ltac var := apply v_var; reflexivity.
Ltac svar := apply sv_var; [reflexivity|discriminate].
Ltac isa MN := intros g' vs E; unfold isa in E; rewrite MN in E; cbv zeta beta iota in E.
Ltac okn := apply ok_nil.

Ltac opv o V I B := assert (V : op_val o = true) by side;
  lazymatch o with
  | x_op0 _ => pose proof (rdi g _ W0 V) as I; pose proof (bitsok _ W0 V) as B
  | x_op1 _ => pose proof (rdi g _ W1 V) as I; pose proof (bitsok _ W1 V) as B
  | x_op2 _ => pose proof (rdi g _ W2 V) as I; pose proof (bitsok _ W2 V) as B
  end.

Lemma L_INCDEC : x_mn i = X_INC \/ x_mn i = X_DEC -> ok [] (LiftIncDec c cfg kc i).
Proof.
  intros MN. okn. assert (R0 : op_rm (x_op0 i) = true) by (destruct MN as [MN|MN]; shp MN; side).
  intros g' vs E. set (sub := match x_mn i with X_DEC => true | _ => false end).
  assert (Eg : g' = let w := op_bits (x_op0 i) in let a := rd_op g (x_op0 i) in
     (if sub then sub_flags w a 1 0 true else add_flags w a 1 0 true) (wr_op g (x_op0 i) (if sub then a - 1 else a + 1))).
  { unfold isa in E. unfold sub. destruct MN as [MN|MN]; rewrite MN in *; injection E as <-; reflexivity. }
  subst g'. clear E. opv (x_op0 i) V0 J0 B0. unfold LiftIncDec. fold sub. set (w := op_bits (x_op0 i)) in *. cbv zeta.
  set (a := rd_op g (x_op0 i)) in *. set (r := if sub then a - 1 else a + 1).
  assert (T1 : trunc w 1 = 1) by (apply trunc_small, one_inr; lia).
  assert (ER : ibin (if sub then Sub else Add) w a (trunc w 1) = IV (trunc w r)) by (rewrite T1; unfold r; destruct sub; reflexivity).
  assert (TAIL : forall g1 vs1, vs1 1%nat = Some (V (TInt w) a) -> vs1 3%nat = Some (V (TInt w) (trunc w r)) -> y_ip g1 = y_ip g ->
     G g1 p vs1 rt (if sub then FlagCalcSub w (vX 3) (vX 1) (cI w 1) true false else FlagCalcAdd cfg w (vX 3) (vX 1) (cI w 1) true)
       (done ((if sub then sub_flags w a 1 0 true else add_flags w a 1 0 true) g1) rt)).
  { intros g1 vs1 X1 X3 YI. nilr. unfold r in X3. assert (J1 : inr w 1) by (apply one_inr; lia). destruct sub.
    - eapply G_sub; [assumption|apply sv_var; [exact X3|discriminate]|apply sv_var; [exact X1|discriminate]|rewrite <- T1 at 2; apply sv_cI|lia|assumption|assumption|].
      apply G_done; [apply gle_refl|apply pcv_const; cbn [sub_flags set_f y_ip]; rewrite YI; exact IP].
    - eapply G_add; [assumption|apply sv_var; [exact X3|discriminate]|apply sv_var; [exact X1|discriminate]|rewrite <- T1 at 2; apply sv_cI|lia|assumption|assumption|].
      apply G_done; [apply gle_refl|apply pcv_const; cbn [add_flags set_f y_ip]; rewrite YI; exact IP]. }
  destruct (x_lock i) eqn:L.
  - cbn [app]. eapply G_rmwop with (v := r); [exact GB|side|side|auto|reflexivity|side|side|apply v_cI| |].
    { fold w a. rewrite T1. unfold r. destruct sub; reflexivity. }
    eapply G_let; [eapply v_bin; [var|apply v_cI|exact ER]|]. apply TAIL; try reflexivity. apply wr_op_ip.
  - rewrite <- !app_assoc. ld. cbn [app]. eapply G_let; [eapply v_bin; [var|apply v_cI|exact ER]|].
    stv r. { var. } apply TAIL; try reflexivity. apply wr_op_ip.
Qed.
Lemma L_XCHG : x_mn i = X_XCHG -> ok [] (LiftXchg c cfg kc i).
Proof.
  intros MN. okn. shp MN. isa MN. injection E as <-. assert (BB : op_bits (x_op1 i) = op_bits (x_op0 i)) by lia.
  opv (x_op0 i) V0 J0 B0. opv (x_op1 i) V1 J1 B1. assert (WI : forall gg v, wr_op gg (x_op1 i) v = wr_loc gg (loc_of g (x_op1 i)) v).
  { intros. destruct (x_op1 i); try discriminate; reflexivity. }
  unfold LiftXchg. ld. rewrite BB.
  assert (ST : forall vs1, vs1 1%nat = Some (V (TInt (op_bits (x_op0 i))) (rd_op g (x_op0 i))) ->
    G (wr_op g (x_op0 i) (rd_op g (x_op1 i))) p vs1 rt (OpStoreGp c cfg kc (x_op1 i) (op_bits (x_op0 i)) (vX 1))
     (done (wr_loc (wr_loc g (loc_of g (x_op0 i)) (rd_op g (x_op1 i))) (loc_of g (x_op1 i)) (rd_op g (x_op0 i))) rt)).
  { intros vs1 X1. nilr. unfold OpStoreGp. eapply G_OpStoreR with (v := rd_op g (x_op0 i)); [assumption|side|side|side| |].
    { rewrite trunc_small by exact J0. apply v_var. exact X1. }
    apply G_done; [rewrite WI; apply gle_refl|apply pcv_const; rewrite !wr_loc_ip; exact IP]. }
  destruct (x_op0 i) as [|w hi r|w v|d|w m] eqn:EO; try discriminate.
  - rewrite <- app_assoc. ld. stv (rd_op g (x_op1 i)). { rewrite trunc_small by (cbn [op_bits] in *; rewrite <- BB; exact J1). var. }
    apply ST. reflexivity.
  - cbn [app]. change (OpAddr c cfg kc m 7) with (OpAddrOf c cfg kc (XMem w m)).
    eapply G_rmwop with (v := rd_op g (x_op1 i)); [exact GB|side|side|auto|reflexivity|side|side|var| |].
    { cbn [rmw_sem]. symmetry. apply trunc_small. cbn [op_bits] in *. rewrite <- BB. exact J1. }
    apply ST. reflexivity.
Qed.
Lemma L_XADD : x_mn i = X_XADD -> same_loc (x_op0 i) (x_op1 i) = false -> ok [] (LiftArith c cfg kc i false).
Proof.
  intros MN SL. okn. shp MN. isa MN. injection E as <-. assert (BB : op_bits (x_op1 i) = op_bits (x_op0 i)) by lia.
  opv (x_op0 i) V0 J0 B0. opv (x_op1 i) V1 J1 B1. unfold LiftArith. rewrite MN, BB in *. set (w := op_bits (x_op0 i)) in *.
  set (a := rd_op g (x_op0 i)) in *. set (b := rd_op g (x_op1 i)) in *.
  ld. rewrite BB. cbn [app].
  assert (TAIL : forall vs1, vs1 1%nat = Some (V (TInt w) a) -> vs1 2%nat = Some (V (TInt w) b) -> vs1 3%nat = Some (V (TInt w) (trunc w (a + b))) ->
    G (wr_op g (x_op0 i) (a + b)) p vs1 rt (OpStoreGp c cfg kc (x_op1 i) w (vX 1) ++ FlagCalcAdd cfg w (vX 3) (vX 1) (vX 2) false)
      (done (add_flags w a b 0 false (wr_loc (wr_op g (x_op1 i) a) (loc_of g (x_op0 i)) (a + b))) rt)).
  { intros vs1 X1 X2 X3. unfold OpStoreGp. eapply G_OpStoreR with (v := a); [assumption|side|side|side|rewrite trunc_small by exact J0; apply v_var; exact X1|].
    nilr. eapply G_add; [assumption|apply sv_var; [exact X3|discriminate]|apply sv_var; [exact X1|discriminate]|apply sv_var; [exact X2|discriminate]|lia|assumption|assumption|].
    apply G_done; [|apply pcv_const; cbn [add_flags set_f y_ip]; rewrite wr_loc_ip, wr_op_ip; exact IP].
    destruct (wr_comm g (x_op0 i) (x_op1 i) a (a + b)) as (C1 & C2 & C3 & C4 & C5); try side.
    unfold add_flags. split; [exact C1|split; [|split; [exact C3|split; [exact C4|exact C5]]]].
    intros f x. destruct f; cbn [set_f y_f]; auto. }
  destruct (x_lock i) eqn:L.
  - cbn [app]. eapply G_rmwop with (v := a + b); [exact GB|side|side|auto|reflexivity|side|side|var|reflexivity|].
    eapply G_let; [eapply v_bin; [var|var|reflexivity]|]. apply TAIL; reflexivity.
  - ld. cbn [app]. eapply G_let; [eapply v_bin; [var|var|reflexivity]|]. stv (a + b). { var. } apply TAIL; reflexivity.
Qed.
Lemma G_rng : forall g0 p0 vs rt0 l Q, ((forall n, 0 <= n < 16 -> inr 64 (y_r g0 n)) -> G g0 p0 vs rt0 l Q) -> G g0 p0 vs rt0 l Q.
Proof. intros g0 p0 vs rt0 l Q K s A. refine (K _ s A). exact (xr_rr _ _ (proj1 A)). Qed.
End Gp.
