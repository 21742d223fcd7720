(** Branches, stack, calls and returns. *)

From Coq Require Import ZArith Lia ZifyBool List Bool.
From Verif Require Import Bits IR Facet Dsl Rv64 Rv64Spec Rv64Sim Rv64Arith Rv64Int X86 X86Spec X86Arith X86Sim X86Ops X86Gp X86Gp2 X86Gp3 X86Gp4 X86Gp5 X86Gp6.
Import ListNotations.
Open Scope Z_scope.
Ltac Zify.zify_post_hook ::= Z.div_mod_to_equations.

Ltac gle_flags := repeat split; auto; let f := fresh in let b := fresh in intros f b; destruct f; cbn; auto.
Definition forced_ds (o : xopnd) : bool := match o with XMem _ m => negb ((m_seg m =? 4) || (m_seg m =? 5)) | _ => true end.

Section Gp.
Context `{FpuOps}.
Variable c : cenv.
Variable cfg : xcfg.
Hypothesis HA : c_arch c = X86_64.
Hypothesis GB : gbase_ok c.
Notation G := (G c).
Notation vals := (vals c).
Notation done := (done c).
Variables (kc kcp : areg -> konst) (i : xinst) (g : xst) (rt : bool).
Hypothesis IP : y_ip g = addr_pc_base c (x_end i).
Hypothesis W0 : wf_op (x_op0 i) = true.
Hypothesis W1 : wf_op (x_op1 i) = true.
Hypothesis W2 : wf_op (x_op2 i) = true.
Hypothesis O0 : good_op cfg (x_op0 i) = true.
Hypothesis O1 : good_op cfg (x_op1 i) = true.
Hypothesis O2 : good_op cfg (x_op2 i) = true.
Hypothesis KC : xkc_sound kc g.
Hypothesis SH : shape_ok i = true.
Hypothesis LK : x_lock i = true -> op_ismem (x_op0 i) = true.
Hypothesis LB : x_lock i = true -> lockable (x_mn i) = true.
Notation p := (PcConst (x_end i)).
Notation ok := (ok c i g rt).

Ltac shp MN := unfold shape_ok in SH; rewrite MN in SH; cbv zeta beta iota in SH;
  repeat match goal with H : _ && _ = true |- _ => apply andb_prop in H; destruct H end.
Ltac side := match goal with
  | |- _ = addr_pc_base _ _ => first [exact IP | rewrite ?wr_op_ip, ?wr_loc_ip; exact IP]
  | |- xkc_sound _ _ => exact KC
  | |- op_val _ = true => first [assumption | apply op_rm_val; assumption | apply op_rm_val, op_isreg_rm; assumption]
  | |- op_rm _ = true => first [assumption | apply op_isreg_rm; assumption | apply op_ismem_rm; auto]
  | |- _ => first [assumption | reflexivity | lia]
  end.
Ltac ld := eapply G_OpLoad; [exact GB|side|side|side|side|side|].
Ltac nilr := match goal with |- X86Sim.G _ _ _ _ _ ?l _ => rewrite <- (app_nil_r l) end.
Ltac stv x := unfold OpStoreGp; eapply G_OpStore with (v := x); [assumption|exact GB|side|side|side|side|side|side| |].
Ltac fin := apply G_done; [|apply pcv_const; cbn [y_ip forget set_f set1]; rewrite ?wr_op_ip; exact IP].
Ltac var := apply v_var; reflexivity.
Ltac svar := apply sv_var; [reflexivity|discriminate].
Ltac isa MN := intros g' vs E; unfold isa in E; rewrite MN in E; cbv zeta beta iota in E.
Ltac okn := apply ok_nil.

Ltac gr := first [apply gle_refl | repeat split; auto].
Ltac shq := repeat match goal with H : _ && _ = true |- _ => apply andb_prop in H; destruct H end.
Ltac opv o V I B := assert (V : op_val o = true) by side;
  lazymatch o with
  | x_op0 _ => pose proof (rdi g _ W0 V) as I; pose proof (bitsok _ W0 V) as B
  | x_op1 _ => pose proof (rdi g _ W1 V) as I; pose proof (bitsok _ W1 V) as B
  | x_op2 _ => pose proof (rdi g _ W2 V) as I; pose proof (bitsok _ W2 V) as B
  end.
Lemma pcv_cond : forall (k : bool) a b, pc_value c (PcCond (V (TInt 1) (b2z k)) a b) 0 = Ok (V (TInt 64) (addr_pc_base c (if k then a else b))).
Proof. intros. cbn [pc_value]. rewrite !Z.add_0_r. destruct k; reflexivity. Qed.
Lemma pcv_val : forall v, pc_value c (PcVal v) 0 = Ok v.
Proof. reflexivity. Qed.
Lemma tgt_off : forall d, x_op0 i = XOff d -> addr_pc_base c (x_target i) = U 64 (y_ip g + d).
Proof. intros d E. unfold x_target. rewrite E, addr_pc_base_trunc, addr_pc_base_add, <- IP. reflexivity. Qed.
(** Branch and call operands: the data segment is forced. *)
Lemma G_OpLoad3 : forall vs x f l Q, f = I64 \/ f = FI -> op_rm (x_op0 i) = true -> op_bits (x_op0 i) = 64 -> forced_ds (x_op0 i) = true ->
  G g p (upd_var vs x (V (TInt 64) (rd_op g (x_op0 i)))) rt l Q -> G g p vs rt (OpLoadSeg c cfg kc 3 x (x_op0 i) f ++ l) Q.
Proof.
  clear LK LB SH O1 O2 W1 W2. intros vs x f l Q F R B D K. unfold OpLoadSeg. rewrite B. replace (facet_Resolve f 64) with I64 by (destruct F as [-> | ->]; reflexivity).
  destruct (x_op0 i) as [|w hi r|w v|d|w m]; try discriminate; cbn [op_bits rd_op loc_of wf_op forced_ds good_op] in *; cbn [app]; subst w.
  - eapply G_let; [|exact K]. destruct hi; [lia|]. cbn [facet_eqb andb MapReg rd_loc]. assert (okr r = true) as N by bsp. apply okr_range in N. apply (v_gp c _ _ _ r 64); [lia|reflexivity].
  - eapply G_load; [|exact K]. unfold OpAddr.
    assert (SB : seg_base g (m_seg m) = seg_base g 3). { unfold seg_base. destruct (m_seg m =? 4) eqn:Q4; [discriminate|]. destruct (m_seg m =? 5) eqn:Q5; [discriminate|]. reflexivity. }
    unfold ea. rewrite SB. eapply v_OpAddr; [exact GB|exact IP|bsp|exact KC|reflexivity|].
    unfold good_mem in *. cbn [Z.eqb Pos.eqb] in *. replace ((m_seg m =? 4) || (m_seg m =? 5)) with false in O0 by (destruct ((m_seg m =? 4) || (m_seg m =? 5)); [discriminate|reflexivity]). exact O0.
Qed.
Lemma L_JCC : forall cc, x_mn i = X_J cc -> ok [] (LiftJcc i cc).
Proof.
  intros cc MN. shp MN. okn. isa MN. destruct (cond g cc) as [k|] eqn:C; [|discriminate]. cbn [obind] in E. injection E as <-.
  destruct (x_op0 i) as [| | |d|] eqn:OP; try discriminate. unfold LiftJcc.
  eapply G_pccond. { apply (v_FlagCond c); [lia|exact C]. }
  apply G_done; [destruct k; gr|]. rewrite pcv_cond. destruct k; cbn [set_ip y_ip]; [rewrite (tgt_off d OP); change U with trunc; rewrite trunc_trunc by lia|rewrite IP]; reflexivity.
Qed.
Lemma L_JMP : x_mn i = X_JMP -> forced_ds (x_op0 i) = true -> ok [] (LiftJmp c cfg kc i).
Proof.
  intros MN D. shp MN. okn. isa MN. injection E as <-. unfold LiftJmp. destruct (is_off (x_op0 i)) eqn:OF_.
  - destruct (x_op0 i) as [| | |d|] eqn:OP; try discriminate. apply G_pcc. apply G_done; [gr|]. apply pcv_const. cbn [set_ip y_ip]. rewrite (tgt_off d OP). change U with trunc. rewrite trunc_trunc by lia. reflexivity.
  - cbn [orb] in *. shq. assert (B : op_bits (x_op0 i) = 64) by lia. opv (x_op0 i) V0 J0 B0.
    assert (X : G g p vs rt (OpLoadSeg c cfg kc 3 1 (x_op0 i) I64 ++ [SPcVal (vX 1)]) (done (set_ip g (rd_op g (x_op0 i))) rt)).
    { apply G_OpLoad3; auto. eapply G_pcv; [var|]. apply G_done; [gr|]. cbn [set_ip y_ip]. change U with trunc. rewrite trunc_small by (rewrite <- B; exact J0). reflexivity. }
    destruct (x_op0 i); try discriminate; exact X.
Qed.
Lemma L_JCXZ : x_mn i = X_JCXZ -> ok [] (LiftJcxz i).
Proof.
  intros MN. shp MN. okn. isa MN. destruct (x_op0 i) as [| | |d|] eqn:OP; try discriminate. unfold LiftJcxz. set (w := 8 * x_addrsz i) in *. injection E as <-.
  assert (OW : okw w = true) by (unfold okw, w; lia). assert (WP : 0 < w) by (unfold w; lia).
  eapply G_pccond. { eapply v_cmp; [apply (v_gp c _ _ _ 1 w); [lia|exact OW]|apply v_cI]. }
  cbn [icmp_sem]. rewrite (trunc_small w 0) by (apply inr0; lia). apply G_done; [destruct (U w (y_r g 1) =? 0); gr|]. rewrite pcv_cond.
  destruct (U w (y_r g 1) =? 0); cbn [set_ip y_ip]; [rewrite (tgt_off d OP); change U with trunc; rewrite trunc_trunc by lia|rewrite IP]; reflexivity.
Qed.
Lemma L_LOOP : x_mn i = X_LOOP \/ x_mn i = X_LOOPZ \/ x_mn i = X_LOOPNZ -> ok [] (LiftLoop i).
Proof.
  intros MN. set (w := 8 * x_addrsz i).
  assert (S3 : okw w = true /\ 0 < w <= 64 /\ exists d, x_op0 i = XOff d).
  { unfold shape_ok in SH. destruct MN as [M|[M|M]]; rewrite M in SH; shq; (split; [unfold okw, w; lia|split; [unfold w; lia|destruct (x_op0 i); try discriminate; eexists; reflexivity]]). }
  destruct S3 as (OW & WP & d & OP). okn. intros g' vs E. unfold LiftLoop. fold w. set (k := U w (y_r g 1 - 1)).
  assert (EX : exists q : bool, (match x_mn i with X_LOOPZ => y_f g fZF = Some q | X_LOOPNZ => y_f g fZF = Some (negb q) | _ => q = true end) /\
    g' = if negb (k =? 0) && q then set_ip (wr_reg g w 1 k) (U 64 (y_ip g + d)) else wr_reg g w 1 k).
  { unfold isa in E. rewrite OP in E. destruct MN as [M|[M|M]]; rewrite M in E |- *; cbv zeta beta iota in E; fold w in E; fold k in E.
    - exists true. cbn [obind] in E. injection E as <-. split; reflexivity.
    - destruct (y_f g fZF) as [z|] eqn:Z; [|discriminate]. exists z. cbn [obind] in E. injection E as <-. split; reflexivity.
    - destruct (y_f g fZF) as [z|] eqn:Z; [|discriminate]. exists (negb z). cbn [obind] in E. injection E as <-. rewrite negb_involutive. split; reflexivity. }
  clear E. destruct EX as (q & ZQ & ->). cbn [app].
  assert (T1 : trunc w 1 = 1). { apply trunc_small. unfold inr. pose proof (Z.pow_gt_lin_r 2 w ltac:(lia) ltac:(lia)). lia. }
  eapply G_let with (v := V (TInt w) k).
  { eapply v_bin; [apply (v_gp c _ _ _ 1 w); [lia|exact OW]|apply v_cI|]. cbn [ibin]. rewrite T1. unfold k. change U with trunc. rewrite trunc_sub_l by lia. reflexivity. }
  eapply G_StoreGp with (v := k); [exact HA| |exact OW|lia|].
  { eapply v_eq; [var|]. unfold k. change U with trunc. symmetry. apply trunc_trunc. lia. }
  assert (KNE : vals (wr_reg g w 1 k) p (upd_var vs 1 (V (TInt w) k)) (eCmp NE (vX 1) (cI w 0)) (V (TInt 1) (b2z (negb (k =? 0))))).
  { eapply v_eq; [eapply v_cmp; [var|apply v_cI]|]. cbn [icmp_sem]. rewrite (trunc_small w 0) by (apply inr0; lia). reflexivity. }
  eapply G_pccond with (v := V (TInt 1) (b2z (negb (k =? 0) && q))).
  { destruct MN as [M|[M|M]]; rewrite M in ZQ |- *.
    - subst q. rewrite andb_true_r. exact KNE.
    - apply (v_and1 c); [exact KNE|]. apply (v_flag c _ _ _ fZF). cbn [wr_reg set_r y_f]. exact ZQ.
    - apply (v_and1 c); [exact KNE|]. rewrite <- (negb_involutive q). apply (v_not1 c). apply (v_flag c _ _ _ fZF). cbn [wr_reg set_r y_f]. exact ZQ. }
  apply G_done; [destruct (negb (k =? 0) && q); gr|]. rewrite pcv_cond.
  destruct (negb (k =? 0) && q); cbn [set_ip y_ip wr_reg set_r]; [rewrite (tgt_off d OP); change U with trunc; rewrite trunc_trunc by lia|rewrite IP]; reflexivity.
Qed.
Lemma push_ip : forall w v, y_ip (push g w v) = y_ip g.
Proof. reflexivity. Qed.
Lemma L_PUSH : x_mn i = X_PUSH -> ok [] (LiftPush c cfg kc i).
Proof.
  intros MN. shp MN. okn. isa MN. injection E as <-. opv (x_op0 i) V0 J0 B0. pose proof (op_bits_ok _ W0 V0) as OW. unfold LiftPush. set (w := op_bits (x_op0 i)) in *.
  ld. fold w. nilr. eapply (G_push c HA _ _ _ _ w); [exact OW|intros x; apply v_var; cbn; rewrite trunc_small by exact J0; reflexivity|].
  apply G_done; [gr|apply pcv_const; exact IP].
Qed.
Lemma L_PUSHF : x_mn i = X_PUSHF -> ok [] (LiftPushf i).
Proof.
  intros MN. shp MN. okn. isa MN. destruct (defined g all_flags) eqn:D; [|discriminate]. unfold LiftPushf. set (w := 8 * x_opsz i) in *. injection E as <-.
  assert (OW : okw w = true) by (unfold okw, w; lia). nilr. replace (x_opsz i) with (w / 8) by (unfold w; lia).
  eapply (G_push c HA _ _ _ _ w); [exact OW|intros x; apply (v_FlagAsReg c); assumption|].
  apply G_done; [gr|apply pcv_const; exact IP].
Qed.
Lemma L_POP : x_mn i = X_POP -> op_bits (x_op0 i) = 64 -> xkc_sound kcp (wr_reg g 64 4 (y_r g 4 + 8)) -> ok [] (LiftPop c cfg kcp i).
Proof.
  intros MN W64 KP. shp MN. okn. isa MN. injection E as <-. rewrite W64. change (64 / 8) with 8. unfold LiftPop. eapply (G_pop c HA _ _ _ _ _ 4); [lia|].
  nilr. eapply G_OpStore; [exact HA|exact GB|exact IP|exact W0|assumption|exact W64|exact O0|exact KP| |].
  { apply v_var. cbn. f_equal. f_equal. symmetry. apply trunc_small. exact (rd_mem_inr 8 _ _). }
  change (bytes_of 64) with 8%nat. apply G_done; [gr|]. apply pcv_const. rewrite wr_op_ip. exact IP.
Qed.
Lemma L_POPF : x_mn i = X_POPF -> x_opsz i = 8 -> ok [] (LiftPopf i).
Proof.
  intros MN Z8. shp MN. okn. isa MN. injection E as <-. rewrite Z8. change (8 * 8) with 64. unfold LiftPopf. eapply (G_pop c HA _ _ _ _ _ 4); [lia|].
  nilr. eapply (G_fromreg c HA); [var|intros; var|right; reflexivity|exact (rd_mem_inr 8 _ _)|].
  change (bytes_of 64) with 8%nat. apply G_done; [gr|]. apply pcv_const. exact IP.
Qed.
Lemma L_LEAVE : x_mn i = X_LEAVE -> ok [] (LiftLeave i).
Proof.
  intros MN. okn. isa MN. injection E as <-. unfold LiftLeave. eapply (G_pop c HA _ _ _ _ _ 5); [lia|].
  nilr. eapply G_StoreGp with (v := rd_mem (y_m g) (y_r g 5) 8); [exact HA| |reflexivity|lia|].
  { apply v_var. cbn. f_equal. f_equal. symmetry. apply trunc_small. exact (rd_mem_inr 8 _ _). }
  apply G_done; [gr|]. apply pcv_const. exact IP.
Qed.
Lemma L_LAHF : x_mn i = X_LAHF -> defined g all_flags = true -> ok [] (StoreGpFacet RAX I8H (FlagAsReg 8)).
Proof.
  intros MN D. okn. isa MN. destruct (defined g [fCF; fPF; fAF; fZF; fSF]); [|discriminate]. injection E as <-. cbn [StoreGpFacet].
  eapply (G_wrhi c HA _ _ _ _ 0 _ (trunc 8 (rflags g))); [apply (v_FlagAsReg c); [reflexivity|exact D]|apply trunc_range; lia|lia|].
  apply G_done; [gr|apply pcv_const; exact IP].
Qed.
Lemma L_SAHF : x_mn i = X_SAHF -> ok [] (SLet 1 (rG RAX I8H) :: FlagFromReg 8 (vX 1)).
Proof.
  intros MN. okn. isa MN. injection E as <-. eapply G_let; [apply (v_gphi c _ _ _ 0); lia|].
  nilr. eapply (G_fromreg c HA); [var|intros; var|left; reflexivity|apply (trunc_range 8); lia|]. apply G_done; [gr|]. apply pcv_const. exact IP.
Qed.

(** ** Calls and returns *)
Definition clob : list xflag := if xl_clobber cfg then [fOF; fSF; fZF; fAF; fPF; fCF] else [].
Lemma G_clob : forall vs l Q, G (forget clob g) p vs rt l Q -> G g p vs rt ((if xl_clobber cfg then SetFlagUndef status_flags else []) ++ l) Q.
Proof.
  intros vs l Q K. unfold clob in K. destruct (xl_clobber cfg).
  - change status_flags with (map cell [fOF; fSF; fZF; fAF; fPF; fCF]). apply G_undef. exact K.
  - eapply G_weaken; [|exact K]. repeat split; auto.
Qed.
(** Everything of LiftCall before the call of a call_function. *)
Definition call_pre : list stm :=
  (if xl_clobber cfg then SetFlagUndef status_flags else []) ++
  (match x_op0 i with
   | XOff d => [SLet 1 (ELeaf (DPc d))]
   | o => OpLoadSeg c cfg kc 3 1 o FI
   end) ++
  StackPush 8 (ELeaf (DPc 0)) ++ [SPcVal (vX 1)].
Lemma call_split : LiftCall c cfg kc i = call_pre ++ match xl_call cfg with Some f => [SCall f; SPcCallret (x_end i)] | None => [] end.
Proof. unfold LiftCall, call_pre. rewrite <- !app_assoc. reflexivity. Qed.
End Gp.
Section Gp2.
Ltac gr := first [apply gle_refl | repeat split; auto].
Context `{FpuOps}.
Variable c : cenv.
Variable cfg : xcfg.
Hypothesis HA : c_arch c = X86_64.
Hypothesis GB : gbase_ok c.
Notation G := (G c).
Notation done := (done c).
Lemma forget_rd : forall ls g o, rd_op (forget ls g) o = rd_op g o.
Proof. intros ls g o. destruct o as [|w hi r| | |w m]; reflexivity. Qed.
Lemma G_ret : forall g p vs rt l Q, G g p vs true l Q -> G g p vs rt (SRet :: l) Q.
Proof.
  intros g p vs rt l Q K s A. cbn [run run1 bind]. apply K.
  destruct A as ([A B C D E' F I J] & P & VS & RT). split; [split; assumption|]. repeat split; assumption.
Qed.
Lemma L_CALL : forall kc i g rt g' vs, y_ip g = addr_pc_base c (x_end i) -> wf_op (x_op0 i) = true -> good_op cfg (x_op0 i) = true -> xkc_sound kc g -> shape_ok i = true ->
  x_mn i = X_CALL -> forced_ds (x_op0 i) = true -> isa i g = Some g' ->
  G g (PcConst (x_end i)) vs rt (call_pre c cfg kc i) (done (forget (clob cfg) g') rt).
Proof.
  intros kc i g rt g' vs IP W0 O0 KC SH MN D E. unfold shape_ok in SH. rewrite MN in SH. unfold isa in E. rewrite MN in E. cbv zeta beta iota in E, SH. injection E as <-.
  unfold call_pre. eapply G_clob.
  set (g1 := forget (clob cfg) g). assert (KC1 : xkc_sound kc g1) by exact KC.
  set (t := match x_op0 i with XOff d => U 64 (y_ip g + d) | _ => rd_op g (x_op0 i) end).
  assert (TI : inr 64 t).
  { unfold t. destruct (is_off (x_op0 i)) eqn:Q; [destruct (x_op0 i); try discriminate; apply trunc_range; lia|]. cbn [orb] in SH. apply andb_prop in SH. destruct SH as [R B].
    pose proof (rdi g _ W0 (op_rm_val _ R)) as J. apply Z.eqb_eq in B. rewrite B in J. destruct (x_op0 i); try discriminate; exact J. }
  assert (PT : forall vs1, vs1 1%nat = Some (V (TInt 64) t) -> G g1 (PcConst (x_end i)) vs1 rt (StackPush 8 (ELeaf (DPc 0)) ++ [SPcVal (vX 1)]) (done (forget (clob cfg) (set_ip (push g 64 (y_ip g)) t)) rt)).
  { intros vs1 V1. change 8 with (64 / 8) at 1. eapply (G_push c HA _ _ _ _ 64 _ (y_ip g)); [reflexivity| |].
    { intros x s rt' A. rewrite (v_pc c g1 (PcConst (x_end i)) (upd_var vs1 20 x) (x_end i) 0 eq_refl s rt' A). rewrite Z.add_0_r, <- IP, trunc_small; [reflexivity|]. rewrite IP. apply addr_pc_base_inr. }
    eapply G_pcv; [apply v_var; cbn; exact V1|]. apply G_done; [repeat split; auto|]. cbn [set_ip y_ip forget set_f]. change U with trunc. rewrite trunc_small by exact TI. reflexivity. }
  destruct (is_off (x_op0 i)) eqn:OF_.
  - destruct (x_op0 i) as [| | |d|] eqn:OP; try discriminate. cbn [app]. eapply G_let; [|apply PT; reflexivity].
    intros s rt' A. rewrite (v_pc c g1 _ vs (x_end i) d eq_refl s rt' A). rewrite addr_pc_base_add, <- IP. reflexivity.
  - cbn [orb] in SH. apply andb_prop in SH. destruct SH as [R B].
    assert (X : G g1 (PcConst (x_end i)) vs rt (OpLoadSeg c cfg kc 3 1 (x_op0 i) FI ++ StackPush 8 (ELeaf (DPc 0)) ++ [SPcVal (vX 1)]) (done (forget (clob cfg) (set_ip (push g 64 (y_ip g)) t)) rt)).
    { apply (G_OpLoad3 c cfg GB kc i g1 rt); try exact IP; try exact W0; try exact O0; try exact KC1; try exact R; try exact D; try (right; reflexivity); try (apply Z.eqb_eq; exact B). apply PT. unfold g1. rewrite forget_rd. unfold t. destruct (x_op0 i); try discriminate; reflexivity. }
    destruct (x_op0 i); try discriminate; exact X.
Qed.
Lemma L_RET : forall i g rt g' vs, y_ip g = addr_pc_base c (x_end i) -> shape_ok i = true -> x_mn i = X_RET -> isa i g = Some g' ->
  G g (PcConst (x_end i)) vs rt (LiftRet cfg i) (done (forget (clob cfg) g') (match xl_call cfg with Some _ => true | None => rt end)).
Proof.
  intros i g rt g' vs IP SH MN E. unfold shape_ok in SH. rewrite MN in SH. unfold isa in E. rewrite MN in E. cbv zeta beta iota in E, SH. injection E as <-.
  unfold LiftRet. eapply G_clob. set (g1 := forget (clob cfg) g).
  eapply (G_pop c HA g1 _ _ _ _ 4); [lia|]. cbn [app]. eapply G_pcv; [apply v_var; reflexivity|].
  set (d := match x_op0 i with XImm _ v => U 16 v | _ => 0 end).
  assert (PT : forall gx vs1 pv, pc_value c pv 0 = Ok (V (TInt 64) (rd_mem (y_m g) (y_r g 4) 8)) -> gle gx (wr_reg g1 64 4 (y_r g 4 + 8 + d)) ->
    G gx pv vs1 rt (match xl_call cfg with Some _ => [SRet] | None => [] end)
    (done (forget (clob cfg) (set_ip (wr_reg g 64 4 (y_r g 4 + 8 + d)) (rd_mem (y_m g) (y_r g 4) 8))) (match xl_call cfg with Some _ => true | None => rt end))).
  { intros gx vs1 pv PV L. assert (X : forall rt', G gx pv vs1 rt' [] (done (forget (clob cfg) (set_ip (wr_reg g 64 4 (y_r g 4 + 8 + d)) (rd_mem (y_m g) (y_r g 4) 8))) rt')).
    { intros rt'. apply G_done; [exact L|]. rewrite PV. cbn [set_ip y_ip forget set_f]. change U with trunc. rewrite (trunc_small 64 (rd_mem _ _ _)) by exact (rd_mem_inr 8 _ _). reflexivity. }
    destruct (xl_call cfg); [apply G_ret|]; apply X. }
  destruct (x_op0 i) as [|w hi r|w v| |] eqn:OP; try discriminate.
  - cbn [app]. apply PT; [reflexivity|]. unfold d. rewrite Z.add_0_r. apply gle_refl.
  - cbn [app]. assert (VR : 0 <= v < 2 ^ 16) by lia.
    eapply (G_wreg64 c HA _ _ _ _ 4); [right; eapply v_gep; [apply (v_ptr c _ _ _ 4); lia|apply v_cI]|lia|].
    apply PT; [reflexivity|]. repeat split; auto. intros n N. cbn [wr_reg set_r y_r g1 forget set_f]. destruct (n =? 4); [|reflexivity]. cbn [Z.eqb Pos.eqb].
    unfold reg_merge. cbn [Z.eqb Pos.eqb]. change U with trunc. rewrite trunc_trunc by lia. rewrite (trunc_small 64 v) by (unfold inr; lia). unfold d. change U with trunc. rewrite (trunc_small 16 v) by exact VR.
    rewrite Z.mul_1_r. apply trunc_add_l. lia.
Qed.
Definition sys_pre : list stm := [SSet RCX (ELeaf (DPc 0)); SSet (GP 11) (FlagAsReg 64)].
Lemma L_SYSCALL : forall i g rt g' vs, y_ip g = addr_pc_base c (x_end i) -> x_mn i = X_SYSCALL -> isa i g = Some g' ->
  G g (PcConst (x_end i)) vs rt sys_pre (done g' rt).
Proof.
  intros i g rt g' vs IP MN E. unfold isa in E. rewrite MN in E. cbv zeta beta iota in E. destruct (defined g all_flags) eqn:D; [|discriminate]. injection E as <-. unfold sys_pre.
  eapply (G_wreg64 c HA _ _ _ _ 1 _ (y_ip g)); [left|lia|].
  { intros s rt' A. rewrite (v_pc c g _ vs (x_end i) 0 eq_refl s rt' A). rewrite Z.add_0_r, IP. reflexivity. }
  eapply (G_wreg64 c HA _ _ _ _ 11 _ (rflags g)); [left|lia|].
  { rewrite <- (trunc_small 64 (rflags g)) by apply rflags_inr. apply (v_FlagAsReg c (wr_reg g 64 1 (y_ip g))); [reflexivity|exact D]. }
  apply G_done; [gr|apply pcv_const; exact IP].
Qed.
End Gp2.
